(** The nodes of a jungle and the pointers between them. *)
From Verif Require Import Go GoLemmas F64 F64Order F64Round ModelFeature ModelSplit SplitSpec SplitProofs ModelTree TreeSpec
  ModelSearch SearchSpec GrowSpec TotalSearch ModelGrow SplitterProofs Dependable GrownSpec GrowProofs ModelJungle JungleProofs.
From Verif Require PropFeatureSearch PropSplitter.
Local Open Scope nat_scope.
Local Open Scope list_scope.

(** One of the three pointers of a node. *)
Definition points (n : jnode) (a : nat) : Prop := jL n = Some a \/ jR n = Some a \/ jM n = Some a.
(** The node at [a] was made as a child of the node at [q], on the level that starts with entry [last]. *)
Definition own (nodes : list entry) (last q a : nat) : Prop :=
  exists k e, nth_error nodes k = Some e /\ last <= k /\ eParent e = Some q /\ eN e = a.

Lemma redirect_keeps a b n : jD (redirect a b n) = jD n.
Proof. unfold redirect. destruct (same (jL n) a), (same (jR n) a), (same (jM n) a); reflexivity. Qed.
Lemma set_ok_upd {B} (l : list B) i x : i < length l -> set l i x = Ok (upd l i x).
Proof. intros H. unfold set. destruct (Nat.ltb_spec i (length l)); [auto|lia]. Qed.

Section Shape.
  Variable A : arith.
  Variable St : Type.
  Variable T : target A St.
  Variable predict : list nat -> res string.
  Variable rnd : nat -> nat.
  Variable K : Type.
  Variable kCopyFrom : K -> K.
  Variable kShuffleCases : (nat -> nat) -> list nat -> K -> res K.
  Variable kTarget : K -> target A St.
  Variable p : params.
  Variables (ok : nat -> Prop) (ready : St -> Prop) (kok : K -> Prop).
  Hypothesis Dep : dependable T ok ready.
  Hypothesis Hsane : sane A.
  Hypothesis Hleaf : 1 <= pLeaf p.
  Hypothesis Hvet : pVet p = true -> vettable A St K kCopyFrom kShuffleCases kTarget ok ready kok.
  Hypothesis Hpred : forall cs, Forall ok cs -> exists s, predict cs = Ok s.
  Variables (cans0 oob0 : list nat).
  Hypothesis Htry : pTry p <= length cans0.
  Hypothesis Hoob : pEvalOob p = true -> Forall ok oob0.
  Variable cases0 : list nat.
  Hypothesis Hcok : Forall ok cases0.
  Hypothesis Hdata : data_fits p cans0 oob0 cases0.

  Local Notation gst := (gstate A St K).
  Local Notation jst := (jstate A St K).
  Local Notation L := (length cans0).
  Local Notation N := (length cases0).
  Local Notation fine := (fine A St K p ready kok cans0 oob0).
  Local Notation jinv := (jinv A St T predict K p ok ready kok cans0 oob0 cases0).
  Local Notation jvisit := (jvisit A St T predict rnd K kCopyFrom kShuffleCases kTarget p).

  (** Entries [first] to [last] are the level whose nodes are split, those before [cur] are done; the
      entries from [last] on are the next level.  Addresses below [B] are of nodes that were there
      when the level began. *)
  Record jshape (first cur last B : nat) (s : jst) : Prop := {
    sh_bounds : first <= cur /\ cur <= last /\ last <= length (sNodes s) /\ 0 < last;
    sh_root : forall e, nth_error (sNodes s) 0 = Some e -> e = mkE 0 0 N 0 None false;
    sh_kid : forall i e, nth_error (sNodes s) i = Some e -> last <= i -> exists k ek, first <= k < cur /\
      nth_error (sNodes s) k = Some ek /\ eParent e = Some (eN ek) /\ eStart ek <= eStart e /\ eEnd e <= eEnd ek /\
      (eStart ek < eStart e \/ eEnd e < eEnd ek);
    sh_apart : forall i j ei ej, first <= i -> first <= j -> i <> j -> (i < last <-> j < last) ->
      nth_error (sNodes s) i = Some ei -> nth_error (sNodes s) j = Some ej -> eEnd ei <= eStart ej \/ eEnd ej <= eStart ei;
    sh_old : forall k e, k < last -> nth_error (sNodes s) k = Some e -> eN e < B;
    sh_new : forall k e, last <= k -> nth_error (sNodes s) k = Some e -> B <= eN e;
    sh_B : B <= length (sHeap s);
    sh_ptr : forall q n a, nth_error (sHeap s) q = Some n -> points n a -> q < a /\ a < length (sHeap s) /\
      ((exists k e, nth_error (sNodes s) k = Some e /\ eN e = a /\ eDead e = false /\
          (last <= k -> eParent e = Some q \/
             exists j ej, nth_error (sNodes s) j = Some ej /\ last <= j /\ eParent ej = Some q /\ eEnd e = eStart ej /\ eParent e <> eParent ej)) \/
       (jL n <> Some a /\ jR n <> Some a /\ nth_error (sHeap s) a = Some jnew /\ ~ In a (map eN (sNodes s))));
    sh_one : forall q n a, nth_error (sHeap s) q = Some n -> own (sNodes s) last q a ->
      (jL n = Some a -> jR n <> Some a /\ jM n <> Some a) /\ (jR n = Some a -> jM n <> Some a);
    sh_full : forall q n, nth_error (sHeap s) q = Some n ->
      match dSpl (jD n) with
      | None => dCode (jD n) = CNil /\ jL n = None /\ jR n = None /\ jM n = None
      | Some spl => jL n <> None /\ jR n <> None /\ (if pSplitMissing p then jM n <> None else jM n = None) /\ In (dFeat (jD n)) cans0 /\
          exists f, nth_error (pData p) (dFeat (jD n)) = Some f /\ code_fits f (dCode (jD n)) /\ fDecodeSplit f (dCode (jD n)) = Ok spl
      end
  }.

  Lemma shape_start g : jshape 0 0 1 1 (mkS A St K [jnew] [mkE 0 0 N 0 None false] cases0 g).
  Proof.
    constructor; cbn [sHeap sNodes length]; auto.
    - intros e E. injection E as <-. reflexivity.
    - intros [|[|i]] e E Hi; cbn in E; try discriminate. lia.
    - intros [|[|i]] [|[|j]] ei ej _ _ Hn _ Ei Ej; cbn in *; try discriminate. congruence.
    - intros [|[|k]] e _ E; cbn in E; try discriminate. injection E as <-. cbn. lia.
    - intros [|[|k]] e Hk E; cbn in E; try discriminate. lia.
    - intros [|[|q]] n a E [P|[P|P]]; cbn in E; try discriminate; injection E as <-; discriminate.
    - intros [|[|q]] n a E; cbn in E; try discriminate. injection E as <-. split; discriminate.
    - intros [|[|q]] n E; cbn in E; try discriminate. injection E as <-. cbn. auto.
  Qed.

  (** The cases may be rearranged, the allocations change. *)
  Lemma shape_eq first cur last B s s' : sHeap s' = sHeap s -> sNodes s' = sNodes s -> jshape first cur last B s -> jshape first cur last B s'.
  Proof. intros E1 E2 [H1 H2 H3 H4 H5 H6 H7 H8 H9 H10]. constructor; rewrite ?E1, ?E2; assumption. Qed.
  Lemma shape_skip first i last B s : i < last -> jshape first i last B s -> jshape first (S i) last B s.
  Proof.
    intros Hi [H1 H2 H3 H4 H5 H6 H7 H8 H9 H10]. constructor; auto; [lia|].
    intros k e E Hk. destruct (H3 k e E Hk) as (k' & ek & Hk' & R). exists k', ek. split; [lia|exact R].
  Qed.
  Lemma shape_next first last B depth s : jinv last last depth s -> jshape first last last B s ->
    jshape last last (length (sNodes s)) (length (sHeap s)) s.
  Proof.
    intros I [H1 H2 H3 H4 H5 H6 H7 H8 H9 H10].
    assert (Out : forall k (e : entry), length (sNodes s) <= k -> nth_error (sNodes s) k <> Some e).
    { intros k e Hk E. apply nth_error_None in Hk. congruence. }
    constructor; auto.
    - lia.
    - intros i e E Hi. destruct (Out i e Hi E).
    - intros i j ei ej Hi Hj Hn _ Ei Ej. apply (H4 i j ei ej); auto; lia.
    - intros k e Hk E. apply (j_entry _ _ _ _ _ _ _ _ _ _ _ _ _ _ _ _ I k e E).
    - intros k e Hk E. destruct (Out k e Hk E).
    - intros q n a Eq P. destruct (H8 q n a Eq P) as (P1 & P2 & [(k & e & Ek & Ea & Da & _)|P3]); split; auto; split; auto.
      left. exists k, e. repeat (split; auto). intros G. destruct (Out k e G Ek).
    - intros q n a _ (k & e & Ek & Hk & _). destruct (Out k e Hk Ek).
  Qed.

  Lemma shape_leaf first i last B s e n pred cs g' : jshape first i last B s -> i < last ->
    nth_error (sNodes s) i = Some e -> nth_error (sHeap s) (eN e) = Some n -> dSpl (jD n) = None ->
    jshape first (S i) last B (mkS A St K
      (upd (sHeap s) (eN e) (mkJ (mkNd CNil (dFeat (jD n)) pred None) (jL n) (jR n) (jM n))) (sNodes s) cs g').
  Proof.
    intros Sh Hi E En Dn. apply (shape_skip _ _ _ _ _ Hi) in Sh. destruct Sh as [H1 H2 H3 H4 H5 H6 H7 H8 H9 H10].
    set (n' := mkJ _ _ _ _).
    assert (Lh : eN e < length (sHeap s)) by (apply nth_error_Some; congruence).
    pose proof (H10 _ _ En) as Fn. rewrite Dn in Fn. destruct Fn as (F1 & F2 & F3 & F4).
    assert (Heap : forall q m, nth_error (upd (sHeap s) (eN e) n') q = Some m ->
      (q = eN e /\ m = n') \/ (q <> eN e /\ nth_error (sHeap s) q = Some m)).
    { intros q m Eq. destruct (Nat.eq_dec q (eN e)) as [->|Nq].
      - rewrite nth_error_upd_eq in Eq by auto. left. split; congruence.
      - rewrite nth_error_upd_neq in Eq by auto. auto. }
    constructor; cbn [sHeap sNodes]; rewrite ?upd_length; auto.
    - intros q m a Eq P. destruct (Heap q m Eq) as [[-> ->]|[Nq Eq']].
      + unfold points in P. cbn in P. rewrite F2, F3, F4 in P. destruct P as [P|[P|P]]; discriminate.
      + destruct (H8 q m a Eq' P) as (P1 & P2 & [P3|(P3 & P4 & P5 & P6)]); split; auto; split; auto.
        right. repeat (split; auto). rewrite nth_error_upd_neq; auto. intros Q. apply P6.
        rewrite Q. apply in_map. eapply nth_error_In; eauto.
    - intros q m a Eq Ow. destruct (Heap q m Eq) as [[-> ->]|[Nq Eq']]; [|eapply H9; eauto].
      cbn. rewrite F2, F3. split; discriminate.
    - intros q m Eq. destruct (Heap q m Eq) as [[-> ->]|[Nq Eq']]; [|eapply H10; eauto]. cbn. auto.
  Qed.

  Lemma shape_split first i last B depth s e n code fi f spl li ri nb' cs g' : jinv i last depth s -> jshape first i last B s -> i < last -> first <= i ->
    nth_error (sNodes s) i = Some e -> eDead e = false -> nth_error (sHeap s) (eN e) = Some n -> dSpl (jD n) = None ->
    0 < li -> li <= ri -> eStart e + ri < eEnd e ->
    In fi cans0 -> nth_error (pData p) fi = Some f -> code_fits f code -> fDecodeSplit f code = Ok spl ->
    let l := length (sHeap s) in let r := S l in let m := S r in
    jshape first (S i) last B (mkS A St K
      (upd (sHeap s) (eN e) (mkJ (mkNd code fi EmptyString (Some spl)) (Some l) (Some r)
          (if pSplitMissing p then Some m else jM n)) ++ [jnew; jnew] ++ (if pSplitMissing p then [jnew] else []))
      (sNodes s ++ [mkE l (eStart e) (eStart e + li) nb' (Some (eN e)) false;
                    mkE r (eStart e + ri) (eEnd e) nb' (Some (eN e)) false] ++
                   (if pSplitMissing p && negb (li =? ri)
                    then [mkE m (eStart e + li) (eStart e + ri) nb' (Some (eN e)) false] else []))
      cs g').
  Proof.
    intros I Sh Hi Hf0 E D En Dn Hli Hri Hend Hin Ef Cf Dc l r m. pose proof Sh as [H1 H2 H3 H4 H5 H6 H7 H8 H9 H10].
    set (n' := mkJ (mkNd code fi EmptyString (Some spl)) (Some l) (Some r) (if pSplitMissing p then Some m else jM n)).
    set (kids := [mkE l (eStart e) (eStart e + li) nb' (Some (eN e)) false;
                  mkE r (eStart e + ri) (eEnd e) nb' (Some (eN e)) false] ++
                 (if pSplitMissing p && negb (li =? ri)
                  then [mkE m (eStart e + li) (eStart e + ri) nb' (Some (eN e)) false] else [])).
    set (h0 := upd (sHeap s) (eN e) n').
    set (fresh := [jnew; jnew] ++ (if pSplitMissing p then [jnew] else [])).
    assert (Lh : eN e < length (sHeap s)) by (apply nth_error_Some; congruence).
    assert (Lh0 : length h0 = l) by apply upd_length.
    pose proof (H10 _ _ En) as Fn. rewrite Dn in Fn. destruct Fn as (F1 & F2 & F3 & F4).
    assert (Lf : length (h0 ++ fresh) = l + (if pSplitMissing p then 3 else 2)).
    { rewrite app_length, Lh0. unfold fresh. destruct (pSplitMissing p); cbn; lia. }
    assert (Heap : forall q x, nth_error (h0 ++ fresh) q = Some x ->
      (q = eN e /\ x = n') \/ (q <> eN e /\ nth_error (sHeap s) q = Some x) \/ (l <= q /\ x = jnew)).
    { intros q x Eq. destruct (le_lt_dec l q) as [G|G].
      - right; right. split; auto. rewrite nth_error_app2 in Eq by lia. apply nth_error_In in Eq. unfold fresh in Eq.
        destruct (pSplitMissing p); cbn in Eq; intuition congruence.
      - rewrite nth_error_app1 in Eq by lia. destruct (Nat.eq_dec q (eN e)) as [->|Nq].
        + unfold h0 in Eq. rewrite nth_error_upd_eq in Eq by auto. left. split; congruence.
        + unfold h0 in Eq. rewrite nth_error_upd_neq in Eq by auto. auto. }
    assert (Kid : forall x, In x kids -> eParent x = Some (eN e) /\ eDead x = false /\ l <= eN x /\ eN x < length (h0 ++ fresh) /\
      eStart e <= eStart x /\ eStart x < eEnd x /\ eEnd x <= eEnd e /\ (eStart e < eStart x \/ eEnd x < eEnd e)).
    { intros x Hx. rewrite Lf. unfold kids in Hx. apply in_app_or in Hx as [[<-|[<-|[]]]|Hx];
        [cbn; destruct (pSplitMissing p); repeat split; auto; lia..|].
      destruct (pSplitMissing p); cbn in Hx; [|destruct Hx]. destruct (Nat.eqb_spec li ri); cbn in Hx; [destruct Hx|].
      destruct Hx as [<-|[]]. cbn. repeat split; auto; lia. }
    assert (Apart : forall a b x y, a <> b -> nth_error kids a = Some x -> nth_error kids b = Some y ->
      eEnd x <= eStart y \/ eEnd y <= eStart x).
    { intros a b x y Nab Ea Eb. unfold kids in Ea, Eb.
      destruct (pSplitMissing p && negb (li =? ri));
      destruct a as [|[|[|a]]], b as [|[|[|b]]]; cbn in Ea, Eb; try discriminate; try congruence;
        try (destruct a; discriminate); try (destruct b; discriminate);
        injection Ea as <-; injection Eb as <-; cbn; lia. }
    assert (Nodes : forall k x, nth_error (sNodes s ++ kids) k = Some x ->
      (k < length (sNodes s) /\ nth_error (sNodes s) k = Some x) \/
      (length (sNodes s) <= k /\ nth_error kids (k - length (sNodes s)) = Some x /\ In x kids)).
    { intros k x Ek. destruct (le_lt_dec (length (sNodes s)) k) as [G|G].
      - rewrite nth_error_app2 in Ek by auto. right. split; auto. split; auto. eapply nth_error_In; eauto.
      - rewrite nth_error_app1 in Ek by auto. auto. }
    assert (Keep : forall k x, nth_error (sNodes s) k = Some x -> nth_error (sNodes s ++ kids) k = Some x).
    { intros k x Ek. rewrite nth_error_app1; auto. apply nth_error_Some. congruence. }
    assert (New : forall k x, nth_error kids k = Some x -> nth_error (sNodes s ++ kids) (length (sNodes s) + k) = Some x).
    { intros k x Ek. rewrite nth_error_app2 by lia. rewrite <- Ek. f_equal. lia. }
    (* an older entry of the next level and a child *)
    assert (Far : forall k x y, last <= k -> nth_error (sNodes s) k = Some x -> In y kids -> eEnd x <= eStart y \/ eEnd y <= eStart x).
    { intros k x y Hk Ek Hy. destruct (H3 k x Ek Hk) as (kp & ep & Hkp & Ekp & _ & W1 & W2 & _).
      destruct (Kid y Hy) as (_ & _ & _ & _ & K1 & K2 & K3 & _).
      destruct (H4 kp i ep e) as [Q|Q]; auto; lia. }
    constructor; cbn [sHeap sNodes].
    - rewrite app_length. lia.
    - intros x Ex. apply H2. rewrite nth_error_app1 in Ex by lia. exact Ex.
    - intros k x Ek Hk. destruct (Nodes k x Ek) as [[G Ek']|(G & Ek' & Hx)].
      + destruct (H3 k x Ek' Hk) as (kp & ep & Hkp & Ekp & R). exists kp, ep. split; [lia|]. split; auto.
      + destruct (Kid x Hx) as (K1 & _ & _ & _ & K2 & K3 & K4 & K5). exists i, e. split; [lia|]. repeat (split; auto).
    - intros a b x y Ha Hb Nab Iff Ea Eb.
      destruct (Nodes a x Ea) as [[Ga Ea']|(Ga & Ea' & Hx)]; destruct (Nodes b y Eb) as [[Gb Eb']|(Gb & Eb' & Hy)].
      + apply (H4 a b x y); auto.
      + apply (Far a x y); auto. lia.
      + destruct (Far b y x); auto. lia.
      + apply (Apart (a - length (sNodes s)) (b - length (sNodes s)) x y); auto. lia.
    - intros k x Hk Ek. destruct (Nodes k x Ek) as [[_ Ek']|(G & _)]; [eauto|lia].
    - intros k x Hk Ek. destruct (Nodes k x Ek) as [[_ Ek']|(G & _ & Hx)]; [eauto|]. destruct (Kid x Hx) as (_ & _ & K1 & _). lia.
    - rewrite Lf. lia.
    - intros q x a Eq P. destruct (Heap q x Eq) as [[-> ->]|[[Nq Eq']|[G ->]]].
      + assert (Pa : a = l \/ a = r \/ (pSplitMissing p = true /\ a = m)).
        { destruct P as [P|[P|P]]; cbn in P; [injection P as <-; auto..|].
          destruct (pSplitMissing p); [injection P as <-; auto|congruence]. }
        split; [unfold l, r, m in *; intuition lia|]. split.
        { rewrite Lf. destruct Pa as [->|[->|[Sm ->]]]; [| |rewrite Sm]; unfold r, m; destruct (pSplitMissing p); lia. }
        destruct Pa as [->|[->|[Sm ->]]].
        * left. eexists _, _. split; [apply (New 0); reflexivity|]. cbn. auto.
        * left. eexists _, _. split; [apply (New 1); reflexivity|]. cbn. auto.
        * destruct (Nat.eqb_spec li ri) as [Eq2|Ne2].
          -- right. unfold n'. cbn [jL jR]. split; [injection; unfold l, m, r; lia|]. split; [injection; unfold m, r; lia|]. split.
             ++ rewrite nth_error_app2 by (unfold m, r; lia). rewrite Lh0. unfold fresh. rewrite Sm.
                replace (m - l) with 2 by (unfold m, r; lia). reflexivity.
             ++ rewrite map_app. intros Q. apply in_app_or in Q as [Q|Q].
                ** apply in_map_iff in Q as (y & Ey & Hy). apply In_nth_error in Hy as (ky & Eky).
                   destruct (j_entry _ _ _ _ _ _ _ _ _ _ _ _ _ _ _ _ I ky y Eky) as (_ & _ & _ & Q & _). unfold m, r, l in Ey. lia.
                ** unfold kids in Q. rewrite Sm in Q. destruct (Nat.eqb_spec li ri); [|lia]. cbn in Q.
                   unfold m, r in Q. lia.
          -- left. eexists _, (mkE m (eStart e + li) (eStart e + ri) nb' (Some (eN e)) false). split; [apply (New 2)|cbn; auto].
             unfold kids. rewrite Sm. destruct (Nat.eqb_spec li ri); [lia|]. reflexivity.
      + destruct (H8 q x a Eq' P) as (P1 & P2 & P3). split; auto. split; [rewrite Lf; unfold l; lia|].
        destruct P3 as [(k & y & Ek & Ea & Dy & Py)|(P3 & P4 & P5 & P6)].
        * left. exists k, y. repeat (split; auto). intros Hk. destruct (Py Hk) as [Q|(j & ej & Ej & Hj & R)]; auto.
          right. exists j, ej. auto.
        * right. repeat (split; auto).
          -- rewrite nth_error_app1 by (rewrite Lh0; exact P2). unfold h0. rewrite nth_error_upd_neq; auto. intros Q. apply P6.
             rewrite Q. apply in_map. eapply nth_error_In; eauto.
          -- rewrite map_app. intros Q. apply in_app_or in Q as [Q|Q]; auto. apply in_map_iff in Q as (y & Ey & Hy).
             destruct (Kid y Hy) as (_ & _ & K1 & _). unfold l in K1. lia.
      + destruct P as [P|[P|P]]; discriminate.
    - intros q x a Eq Ow. destruct (Heap q x Eq) as [[-> ->]|[[Nq Eq']|[G ->]]].
      + cbn. split; [|].
        * intros Q. injection Q as <-. split; [injection; unfold r; lia|].
          destruct (pSplitMissing p); [injection; unfold m, r; lia|congruence].
        * intros Q. injection Q as <-. destruct (pSplitMissing p); [injection; unfold m, r; lia|congruence].
      + apply (H9 q x a Eq'). destruct Ow as (k & y & Ek & Hk & Pk & Ak).
        destruct (Nodes k y Ek) as [[G Ek']|(G & _ & Hy)]; [exists k, y; auto|].
        destruct (Kid y Hy) as (K1 & _). congruence.
      + cbn. split; discriminate.
    - intros q x Eq. destruct (Heap q x Eq) as [[-> ->]|[[Nq Eq']|[G ->]]]; [|eapply H10; eauto|cbn; auto].
      cbn. split; [discriminate|]. split; [discriminate|]. split; [destruct (pSplitMissing p); [discriminate|exact F4]|eauto].
  Qed.

  Lemma redirect_points a b n x : points (redirect a b n) x ->
    ((jL n = Some a -> jR n <> Some a /\ jM n <> Some a) /\ (jR n = Some a -> jM n <> Some a)) ->
    x = b \/ (points n x /\ x <> a).
  Proof.
    intros P [U1 U2].
    assert (Sm : forall y, same y a = true -> y = Some a).
    { intros [y|] Q; cbn in Q; [|discriminate]. apply Nat.eqb_eq in Q. congruence. }
    assert (Nsm : forall y, same y a = false -> y <> Some a).
    { intros y Q ->. cbn in Q. rewrite Nat.eqb_refl in Q. discriminate. }
    assert (Ne : forall y, y <> Some a -> y = Some x -> x <> a) by (intros y Q1 Q2 ->; auto).
    unfold redirect, points in *.
    destruct (same (jL n) a) eqn:E1; [|destruct (same (jR n) a) eqn:E2; [|destruct (same (jM n) a) eqn:E3]];
      cbn [jL jR jM] in P.
    - destruct (U1 (Sm _ E1)) as [V1 V2]. destruct P as [P|[P|P]]; [left; congruence|right; split; eauto..].
    - pose proof (U2 (Sm _ E2)) as V2. destruct P as [P|[P|P]]; [right; split; eauto|left; congruence|right; split; eauto].
    - destruct P as [P|[P|P]]; [right; split; eauto..|left; congruence].
    - right. split; auto. destruct P as [P|[P|P]]; eauto.
  Qed.
  (** A pointer of the changed node is an old one or the new one. *)
  Lemma redirect_fields a b n : let n' := redirect a b n in
    (jL n' = jL n \/ jL n' = Some b) /\ (jR n' = jR n \/ jR n' = Some b) /\ (jM n' = jM n \/ jM n' = Some b).
  Proof.
    unfold redirect. destruct (same (jL n) a); [cbn; auto|]. destruct (same (jR n) a); [cbn; auto|].
    destruct (same (jM n) a); cbn; auto.
  Qed.

  Local Notation merge := (merge A St K).

  Lemma shape_merge first last B depth s i j ei ej : jinv last last depth s -> jshape first last last B s -> 0 < last ->
    last <= i -> last <= j -> nth_error (sNodes s) i = Some ei -> nth_error (sNodes s) j = Some ej ->
    eDead ei = false -> eEnd ei = eStart ej -> eParent ei <> eParent ej ->
    yields (merge i j s) (jshape first last last B).
  Proof.
    intros I Sh Hl Hi Hj Ei Ej Di Adj Par. pose proof I as [I1 I2 I3 I4 I5 I6 I7 I8 I9 I10 I11 I12].
    pose proof Sh as [H1 H2 H3 H4 H5 H6 H7 H8 H9 H10].
    unfold ModelJungle.merge. rewrite (get_nth _ _ Ei). cbn [bind]. rewrite (get_nth _ _ Ej). cbn [bind].
    assert (Lj : j < length (sNodes s)) by (apply nth_error_Some; congruence).
    rewrite set_ok_upd by auto. cbn [bind].
    destruct (I4 j ej Ej) as (B1 & B2 & B3 & B4 & B5). destruct B5 as (Bw & q & Eq & Hq); [lia|]. rewrite Eq.
    destruct (@get_ok _ (sHeap s) q Hq) as (par & Gp & Ep). rewrite Gp. cbn [bind]. rewrite set_ok_upd by auto. cbn [bind].
    set (dj := mkE (eN ej) (eStart ej) (eEnd ej) (eConsts ej) (Some q) true).
    set (par' := redirect (eN ej) (eN ei) par).
    set (h' := upd (sHeap s) q par').
    set (nodes' := upd (sNodes s) j dj).
    destruct (I4 i ei Ei) as (_ & _ & _ & Lei & Wi). destruct Wi as [Wi _]; [lia|].
    assert (Nij : i <> j) by (intros ->; assert (ei = ej) by congruence; subst; auto).
    (* entries after the change *)
    assert (Fwd : forall k e, nth_error (sNodes s) k = Some e -> exists e', nth_error nodes' k = Some e' /\ eN e' = eN e /\
      eStart e' = eStart e /\ eEnd e' = eEnd e /\ eParent e' = eParent e /\ (k <> j -> e' = e)).
    { intros k e Ek. destruct (Nat.eq_dec k j) as [->|Nk].
      - exists dj. unfold nodes'. rewrite nth_error_upd_eq by auto. assert (e = ej) by congruence. subst e. cbn. auto 10 with arith.
        repeat split; auto. congruence.
      - exists e. unfold nodes'. rewrite nth_error_upd_neq by auto. auto 10. }
    assert (Bwd : forall k e', nth_error nodes' k = Some e' -> exists e, nth_error (sNodes s) k = Some e /\ eN e' = eN e /\
      eStart e' = eStart e /\ eEnd e' = eEnd e /\ eParent e' = eParent e).
    { intros k e' Ek. destruct (nth_error (sNodes s) k) as [e|] eqn:E.
      - exists e. split; auto. destruct (Fwd k e E) as (e2 & E2 & R1 & R2 & R3 & R4 & _). assert (e2 = e') by congruence. subst. auto.
      - exfalso. apply nth_error_None in E. assert (k < length nodes') by (apply nth_error_Some; congruence).
        unfold nodes' in *. rewrite upd_length in *. lia. }
    assert (MapN : map eN nodes' = map eN (sNodes s)).
    { apply nth_error_ext'. intros k. rewrite !nth_error_map. destruct (nth_error nodes' k) as [e'|] eqn:E.
      - destruct (Bwd k e' E) as (e & Ee & R & _). rewrite Ee. cbn. congruence.
      - apply nth_error_None in E. unfold nodes' in E. rewrite upd_length in E. apply nth_error_None in E. rewrite E. reflexivity. }
    (* the parent was split on this level *)
    destruct (H3 j ej Ej Hj) as (kp & ep & Hkp & Ekp & Pj & W1 & W2 & W3). assert (Qe : q = eN ep) by congruence.
    destruct (H3 i ei Ei Hi) as (kp' & ep' & Hkp' & Ekp' & Pi & W1' & W2' & W3').
    assert (QB : q < B) by (subst q; eapply H5; [|eauto]; lia).
    pose proof (H6 i ei Hi Ei) as EB.
    assert (Heap : forall a m, nth_error h' a = Some m -> (a = q /\ m = par') \/ (a <> q /\ nth_error (sHeap s) a = Some m)).
    { intros a m Ea. unfold h' in Ea. destruct (Nat.eq_dec a q) as [->|Na].
      - rewrite nth_error_upd_eq in Ea by auto. left. split; congruence.
      - rewrite nth_error_upd_neq in Ea by auto. auto. }
    assert (Addr : forall k e, nth_error (sNodes s) k = Some e -> eN e = eN ej -> k = j).
    { intros k e Ek Ea. apply (nodup_nth (map eN (sNodes s)) k j (eN ej)); auto; rewrite nth_error_map, ?Ek, ?Ej; cbn; congruence. }
    assert (Ownj : own (sNodes s) last q (eN ej)) by (exists j, ej; auto).
    pose proof (H9 q par (eN ej) Ep Ownj) as One.
    (* the node to be merged absorbed nothing *)
    assert (Free : ~ exists j' ej', nth_error (sNodes s) j' = Some ej' /\ last <= j' /\ eEnd ej = eStart ej' /\ eParent ej <> eParent ej').
    { intros (j' & ej' & Ej' & Hj' & Adj' & Par').
      destruct (H3 j' ej' Ej' Hj') as (k2 & e2 & Hk2 & Ek2 & P2 & X1 & X2 & _).
      destruct (I4 j' ej' Ej') as (_ & _ & _ & _ & Wj'). destruct Wj' as [Wj' _]; [lia|].
      assert (kp <> k2) by (intros ->; assert (ep = e2) by congruence; subst; congruence).
      assert (kp <> kp') by (intros ->; assert (ep = ep') by congruence; subst; congruence).
      destruct (H4 kp k2 ep e2) as [Y|Y]; auto; [lia..| |]; destruct (H4 kp kp' ep ep') as [Z|Z]; auto; unfold width in *; lia. }
    eexists. split; [reflexivity|]. constructor; cbn [sHeap sNodes].
    - unfold nodes'. rewrite upd_length. auto.
    - intros e Ee. apply H2. unfold nodes' in Ee. rewrite nth_error_upd_neq in Ee by lia. exact Ee.
    - intros k e Ek Hk. destruct (Bwd k e Ek) as (e0 & E0 & R1 & R2 & R3 & R4).
      destruct (H3 k e0 E0 Hk) as (k1 & e1 & Hk1 & Ek1 & Q). exists k1, e1. split; auto.
      destruct (Fwd k1 e1 Ek1) as (e1' & Ek1' & _ & _ & _ & _ & R). assert (e1' = e1) by (apply R; lia). subst e1'.
      split; auto. rewrite R2, R3, R4. exact Q.
    - intros a b x y Ha Hb Nab Iff Ea Eb. destruct (Bwd a x Ea) as (x0 & Ex0 & _ & R1 & R2 & _).
      destruct (Bwd b y Eb) as (y0 & Ey0 & _ & S1 & S2 & _). rewrite R1, R2, S1, S2. eauto.
    - intros k e Hk Ek. destruct (Bwd k e Ek) as (e0 & E0 & R1 & _). rewrite R1. eauto.
    - intros k e Hk Ek. destruct (Bwd k e Ek) as (e0 & E0 & R1 & _). rewrite R1. eauto.
    - unfold h'. rewrite upd_length. auto.
    - intros a m x Ea P. unfold h'. rewrite upd_length.
      assert (Cases : (a = q /\ m = par' /\ x = eN ei) \/ (exists m0, nth_error (sHeap s) a = Some m0 /\ points m0 x /\
         (a = q -> x <> eN ej /\ m = redirect (eN ej) (eN ei) m0) /\ (a <> q -> m = m0))).
      { destruct (Heap a m Ea) as [[-> ->]|[Na Ea']].
        - destruct (redirect_points _ _ _ _ P One) as [->|[P1 P2]]; [auto|].
          right. exists par. repeat (split; auto); congruence.
        - right. exists m. split; auto. split; auto. split; congruence. }
      destruct Cases as [(-> & -> & ->)|(m0 & Ea' & P' & C1 & C2)].
      + split; [lia|]. split; auto. left. exists i, ei. split.
        { unfold nodes'. rewrite nth_error_upd_neq by auto. auto. }
        split; auto. split; auto. intros _. right. exists j, dj. split; [unfold nodes'; rewrite nth_error_upd_eq by auto; auto|].
        cbn. repeat (split; auto). congruence.
      + destruct (H8 a m0 x Ea' P') as (P1 & P2 & P3). split; auto. split; auto.
        destruct P3 as [(k & e & Ek & Ex & De & Pe)|(P3 & P4 & P5 & P6)].
        * left. assert (Nk : k <> j).
          { intros ->. assert (e = ej) by congruence. subst e. destruct (Nat.eq_dec a q) as [Eaq|Naq].
            - destruct (C1 Eaq) as [Q _]. congruence.
            - destruct (Pe Hj) as [Q|(j' & ej' & Ej' & Hj' & Pj' & Adj' & Par')]; [congruence|].
              apply Free. exists j', ej'. auto. }
          exists k, e. split; [unfold nodes'; rewrite nth_error_upd_neq by auto; auto|]. split; auto. split; auto.
          intros Hk. destruct (Pe Hk) as [Q|(j' & ej' & Ej' & Hj' & Pj' & Adj' & Par')]; auto. right.
          destruct (Fwd j' ej' Ej') as (ej2 & Ej2 & _ & R2 & _ & R4 & _). exists j', ej2.
          rewrite R2, R4. auto.
        * right. assert (Nx : x <> eN ei).
          { intros ->. apply P6. apply in_map. eapply nth_error_In; eauto. }
          assert (Nq : q <> x).
          { intros Q. apply P6. rewrite <- Q, Qe. apply in_map. eapply nth_error_In; eauto. }
          rewrite MapN. assert (Fld : jL m <> Some x /\ jR m <> Some x).
          { destruct (Nat.eq_dec a q) as [Eaq|Naq]; [|rewrite (C2 Naq); auto].
            destruct (C1 Eaq) as [_ ->]. destruct (redirect_fields (eN ej) (eN ei) m0) as ([F1|F1] & [F2|F2] & _); rewrite F1, F2; split; congruence. }
          destruct Fld. repeat (split; auto). rewrite nth_error_upd_neq; auto.
    - intros a m x Ea (k & e & Ek & Hk & Pk & Ex).
      destruct (Bwd k e Ek) as (e0 & E0 & R1 & _ & _ & R4).
      assert (Ow : own (sNodes s) last a x) by (exists k, e0; repeat split; auto; congruence).
      destruct (Heap a m Ea) as [[-> ->]|[Na Ea']]; [|eapply H9; eauto].
      assert (Nx : x <> eN ei).
      { intros Q. apply Par. rewrite Eq, <- Pk, R4. f_equal.
        assert (k = i) by (apply (nodup_nth (map eN (sNodes s)) k i (eN ei)); auto; rewrite nth_error_map, ?E0, ?Ei; cbn; congruence).
        subst. congruence. }
      destruct (H9 q par x Ep Ow) as [U1 U2].
      destruct (redirect_fields (eN ej) (eN ei) par) as ([F1|F1] & [F2|F2] & [F3|F3]); fold par' in F1, F2, F3; rewrite F1, F2, F3;
        (split; [intros Q; try congruence; destruct (U1 Q); split; congruence|intros Q; try congruence; specialize (U2 Q); congruence]).
    - intros a m Ea. destruct (Heap a m Ea) as [[-> ->]|[Na Ea']]; [|eapply H10; eauto].
      pose proof (H10 q par Ep) as F. unfold par'. rewrite redirect_keeps. destruct (dSpl (jD par)).
      + destruct F as (F1 & F2 & F5 & F3). split; [|split; [|split; [|exact F3]]].
        1, 2: destruct (redirect_fields (eN ej) (eN ei) par) as ([G1|G1] & [G2|G2] & _); rewrite ?G1, ?G2; auto; discriminate.
        destruct (pSplitMissing p).
        * destruct (redirect_fields (eN ej) (eN ei) par) as (_ & _ & [G|G]); rewrite G; auto; discriminate.
        * unfold redirect. rewrite F5. destruct (same (jL par) (eN ej)), (same (jR par) (eN ej)); cbn; auto.
      + destruct F as (F1 & F2 & F3 & F4). unfold redirect. rewrite F2, F3, F4. cbn. auto.
  Qed.

  Lemma visit_shape first i last B depth s : jinv i last depth s -> jshape first i last B s -> i < last ->
    yields (jvisit depth i s) (jshape first (S i) last B).
  Proof.
    intros H Sh Hi. pose proof H as [H1 H2 H3 H4 H5 H6 H7 H8 H9 H10 H11 H12].
    unfold ModelJungle.jvisit.
    destruct (@get_ok _ (sNodes s) i) as (e & Ge & E); [lia|]. rewrite Ge. cbn [bind].
    destruct (eDead e) eqn:D.
    { eexists. split; [reflexivity|]. apply shape_skip; auto. }
    destruct (H4 i e E) as (B1 & B2 & B3 & B4 & B5).
    pose proof (Permutation_length H1) as LN.
    rewrite slice_ok by lia. cbn [bind]. fold (win (sCases s) (eStart e) (eEnd e - eStart e)).
    fold (width e). fold (wine (sCases s) e).
    assert (Lw : length (wine (sCases s) e) = width e) by (apply win_length; unfold width; lia).
    assert (Inc : incl (wine (sCases s) e) cases0).
    { intros c Hc. eapply Permutation_in; [symmetry; exact H1|]. eapply win_incl; eauto. }
    assert (Okw : Forall ok (wine (sCases s) e)).
    { rewrite Forall_forall in *. auto. }
    destruct (H8 i e (or_introl (Nat.le_refl i)) E) as (n & En & Dn).
    assert (Dn' : dSpl (jD n) = None) by (rewrite Dn; reflexivity).
    destruct (((depth <? pMaxDepth p) || (pMaxDepth p <=? 0)) && (2 * pLeaf p <=? length (wine (sCases s) e))) eqn:Can.
    2:{ unfold jleaf. rewrite (get_nth _ _ En). cbn [bind].
        destruct (Hpred _ Okw) as (pr & Ep). rewrite Ep. cbn [bind]. rewrite set_ok_upd by auto. cbn [bind].
        eexists. split; [reflexivity|]. apply shape_leaf; auto. }
    destruct (jsearch A St T rnd K kCopyFrom kShuffleCases kTarget p ok ready kok Dep Hsane Hleaf Hvet cans0 oob0 Htry Hoob cases0 (wine (sCases s) e) (eConsts e) (sG s))
      as (b & Eb & Fb & Pb & Cb & Lb); auto.
    { unfold width in *. lia. }
    { eapply data_fits_sub; eauto. }
    rewrite Eb. cbn [bind].
    destruct (isCNil (bCode b)) eqn:Nil.
    { unfold jleaf. cbn [sHeap sNodes sCases sG]. rewrite (get_nth _ _ En). cbn [bind].
      assert (Okb : Forall ok (bCases b)) by (eapply Permutation_Forall; eauto).
      destruct (Hpred _ Okb) as (pr & Ep). rewrite Ep. cbn [bind]. rewrite set_ok_upd by auto. cbn [bind].
      eexists. split; [reflexivity|]. apply shape_leaf; auto. }
    assert (Nc : bCode b <> CNil) by (intros Q; apply isCNil_spec in Q; congruence).
    destruct (Lb Nc) as (Hin & f & Ef & Sf & Cf & Ad1 & Ad2).
    unfold jsplit. cbn [sHeap sNodes sCases sG].
    fold (moved A St K (sG s) b).
    destruct (book_ok A (bFi b) depth (bDec b) (gImp (moved A St K (sG s) b)) (gDepth (moved A St K (sG s) b))) as (imp & du & Ebk & Hc1 & Hc2).
    { intros l El. pose proof (fi_imp _ _ _ _ _ _ _ _ _ _ Fb l El) as F. rewrite Forall_forall in F. auto. }
    { intros l El. pose proof (fi_depth _ _ _ _ _ _ _ _ _ _ Fb l El) as F. rewrite Forall_forall in F. auto. }
    rewrite Ebk. cbn [bind]. rewrite (get_nth _ _ Ef). cbn [bind].
    assert (Hs : exists s, fDecodeSplit f (bCode b) = Ok s).
    { destruct f, (bCode b); cbn in Cf; try contradiction; cbn; eauto. }
    destruct Hs as (spl & Es). rewrite Es. cbn [bind].
    assert (Sf2 : searchable f (bCases b)) by (eapply searchable_perm; eauto).
    destruct Sf2 as (Sf2 & Sc2 & _).
    destruct (fSplit_ok f (bCode b) (bCases b) Cf Sf2 Sc2) as (cs & ll & lr & r & Esp & _ & [T1 T2 T3 T4 T5] & Ecs & El & Er).
    rewrite Esp. cbn [bind]. rewrite (get_nth _ _ En). cbn [bind]. rewrite set_ok_upd by auto. cbn [bind].
    subst cs ll lr.
    set (lc := srL r) in *. set (mc := srM r) in *. set (rc := srR r) in *.
    assert (Pw : Permutation (wine (sCases s) e) (lc ++ mc ++ rc)).
    { etransitivity; [exact Pb|]. rewrite <- T1. auto. }
    assert (Nl : 0 < length lc).
    { rewrite T3, <- (Permutation_length (perm_filter _ _ _ Pb)).
      unfold side, present in Ad1. rewrite filter_filter in Ad1. lia. }
    assert (Nr : 0 < length rc).
    { rewrite T5, <- (Permutation_length (perm_filter _ _ _ Pb)).
      unfold other, present in Ad2. rewrite filter_filter in Ad2. lia. }
    apply Permutation_length in Pw. rewrite !app_length, Lw in Pw. unfold width in Pw.
    eexists. split; [reflexivity|].
    destruct (sh_bounds _ _ _ _ _ Sh) as (Q1 & _).
    eapply shape_split with (f := f); eauto; lia.
  Qed.

  Local Notation merge_pass := (merge_pass A St T K).
  Local Notation merging := (merging A St T K).
  Local Notation living := (living A St K).

  Lemma pass_shape first last B depth s : jinv last last depth s -> jshape first last last B s -> 0 < last ->
    yields (merge_pass last s) (fun '(changed, s') => (jinv last last depth s' /\ jshape first last last B s') /\ length (sNodes s') = length (sNodes s) /\
      living s' <= living s /\ (changed = true -> living s' < living s)).
  Proof.
    intros H Sh Hl. unfold ModelJungle.merge_pass.
    set (Inv := fun (_ : nat) '((changed, s') : bool * jst) => (jinv last last depth s' /\ jshape first last last B s') /\
      length (sNodes s') = length (sNodes s) /\ living s' <= living s /\ (changed = true -> living s' < living s)).
    eapply yields_weaken; [apply (@for_up_total _ Inv _ (length (sNodes s) - last) last)|].
    - intros i [ch s1] Hi ((I1 & I1s) & I2 & I3 & I4).
      destruct (@get_ok _ (sNodes s1) i) as (e & Ge & E); [lia|]. rewrite Ge. cbn [bind].
      destruct (eDead e) eqn:De; [eexists; split; [reflexivity|]; split; auto|].
      eapply yields_bind; [eapply (partner_ok A St T predict K p ok ready kok Dep Hleaf cans0 oob0 Htry cases0 Hcok last depth s1 i I1 Hl); lia|].
      intros [combine tg] (R & Cm & C).
      pose proof (jinv_tgt A St T predict K p ok ready kok cans0 oob0 cases0 _ _ _ _ I1 R) as I1'.
      assert (I1s' : jshape first last last B (with_tgt A St K s1 tg)) by (eapply shape_eq; [| |exact I1s]; reflexivity).
      destruct combine as [j|]; [|eexists; split; [reflexivity|]; split; auto].
      destruct (C j eq_refl) as (Hj & ei & ej & pi & pj & Q1 & Q2 & Q3 & Q4 & Q5 & Q6 & Q7). subst pi pj.
      assert (ei = e) by congruence. subst ei.
      eapply yields_bind; [apply yields_and;
        [apply (merge_ok A St T predict rnd K p ok ready kok Hleaf cans0 oob0 Htry cases0 last depth (with_tgt A St K s1 tg) i j e ej I1' Hl); auto; [lia|]; intros Q; discriminate (Cm Q)
        |apply (shape_merge first last B depth (with_tgt A St K s1 tg) i j e ej I1' I1s' Hl); auto; lia]|].
      intros s2 ((M1 & M2 & M3) & M4). eexists. split; [reflexivity|].
      change (living (with_tgt A St K s1 tg)) with (living s1) in M2.
      change (length (sNodes (with_tgt A St K s1 tg))) with (length (sNodes s1)) in M3.
      split; auto. split; [lia|]. split; [lia|]. lia.
    - split; auto. split; auto. split; auto. discriminate.
    - intros [ch s'] Q. exact Q.
  Qed.

  Lemma merging_shape first last B depth s : jinv last last depth s -> jshape first last last B s -> 0 < last ->
    yields (merging last s) (fun s' => (jinv last last depth s' /\ jshape first last last B s') /\ length (sNodes s') = length (sNodes s)).
  Proof.
    intros H Sh Hl. unfold ModelJungle.merging.
    apply (loop_total (fun s' => (jinv last last depth s' /\ jshape first last last B s') /\ length (sNodes s') = length (sNodes s)) living
      (fun s' => (jinv last last depth s' /\ jshape first last last B s') /\ length (sNodes s') = length (sNodes s))).
    - intros s1 [[I1 I1s] I2]. eapply yields_bind; [apply (pass_shape first last B depth s1 I1 I1s Hl)|].
      intros [ch s2] (P1 & P2 & P3 & P4). destruct ch; (eexists; split; [reflexivity|]).
      + split; [split; [auto|lia]|auto].
      + split; [auto|lia].
    - auto.
    - unfold JungleProofs.living. pose proof (filter_length_le p Hleaf cans0 Htry (fun e => negb (eDead e)) (sNodes s)) as Q. lia.
  Qed.

  Lemma levels_shape fuel s B : jinv 0 (length (sNodes s)) 0 s -> jshape 0 0 (length (sNodes s)) B s -> 0 < length (sNodes s) -> N < fuel ->
    yields (levels A St T predict rnd K kCopyFrom kShuffleCases kTarget p fuel s)
      (fun s' => exists depth first B, jinv (length (sNodes s')) (length (sNodes s')) depth s' /\
         jshape first (length (sNodes s')) (length (sNodes s')) B s').
  Proof.
    intros H Sh Hl Hf. unfold levels.
    apply (loop_total
      (fun '((first, depth, s) : nat * nat * jst) => jinv first (length (sNodes s)) depth s /\ 0 < length (sNodes s) /\
         exists B, jshape first first (length (sNodes s)) B s)
      (fun '((first, depth, s) : nat * nat * jst) => N - depth)
      (fun s' => exists depth first B, jinv (length (sNodes s')) (length (sNodes s')) depth s' /\
         jshape first (length (sNodes s')) (length (sNodes s')) B s')).
    2:{ split; eauto. }
    2:{ lia. }
    intros [[first depth] s1] (I1 & Hl1 & B1 & Sh1).
    set (last := length (sNodes s1)) in *.
    eapply yields_bind.
    { apply (@for_up_total _ (fun i s' => jinv i last depth s' /\ jshape first i last B1 s') _ (last - first) first).
      - intros i s' Hi [Hs' Hs2]. apply yields_and; [eapply visit_ok; eauto; lia|apply visit_shape; auto; lia].
      - auto. }
    intros s2 I2. replace (first + (last - first)) with last in I2.
    2:{ destruct (sh_bounds _ _ _ _ _ Sh1). lia. }
    destruct I2 as [I2 Sh2].
    destruct (Nat.eqb_spec (length (sNodes s2)) last) as [Eq|Ne].
    - eexists. split; [reflexivity|]. exists depth, first, B1. rewrite Eq. auto.
    - destruct (sh_bounds _ _ _ _ _ Sh2) as (_ & _ & B2).
      eapply yields_bind; [apply (merging_shape first last B1 depth s2 I2 Sh2 Hl1)|].
      intros s3 [[I3 Sh3] L3]. eexists. split; [reflexivity|].
      assert (Dp : S depth <= N).
      { destruct (@get_ok _ (sNodes s3) last) as (e & _ & E); [lia|].
        pose proof (j_depth _ _ _ _ _ _ _ _ _ _ _ _ _ _ _ _ I3 last e (Nat.le_refl _) E) as Q.
        destruct (Nat.ltb_spec last last); lia. }
      split; [|lia]. pose proof (shape_next _ _ _ _ _ I3 Sh3) as Sh4. split; [|split; [lia|eauto]].
      destruct I3 as [H1 H2 H3 H4 H5 H6 H7 H8 H9 H10 H11 H12]. constructor; auto.
      + lia.
      + intros i e Hi E. pose proof (H9 i e Hi E) as Q. destruct (Nat.ltb_spec i last); [lia|].
        destruct (Nat.ltb_spec i (length (sNodes s3))) as [G|G]; [lia|]. apply nth_error_None in G. congruence.
  Qed.

  Theorem GrowJungle_shape fuel g : fine N g -> N < fuel ->
    yields (GrowJungle A St T predict rnd K kCopyFrom kShuffleCases kTarget p fuel cases0 g)
      (fun s' => exists depth first B, jinv (length (sNodes s')) (length (sNodes s')) depth s' /\
         jshape first (length (sNodes s')) (length (sNodes s')) B s').
  Proof. intros Hg Hf. apply (levels_shape _ _ 1); auto; [apply jinv_start; auto|apply shape_start]. Qed.
End Shape.
