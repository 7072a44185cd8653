(** Growing a jungle on a used tree and on a new one: the same steps at other addresses. *)
From Verif Require Import Go GoLemmas F64 ModelFeature ModelSplit ModelSample ModelSearch ModelBallot ModelTree ModelGrow
  ModelJungle ModelJungleUsed OrderProofs Lockstep.
Local Open Scope nat_scope.
Local Open Scope list_scope.

(** Where a node of the new tree is in the used one, which has [k] more nodes. *)
Definition ren (k a : nat) : nat := match a with 0 => 0 | S b => k + S b end.
Definition renN (k : nat) (n : jnode) : jnode :=
  mkJ (jD n) (option_map (ren k) (jL n)) (option_map (ren k) (jR n)) (option_map (ren k) (jM n)).
Definition renE (k : nat) (e : entry) : entry :=
  mkE (ren k (eN e)) (eStart e) (eEnd e) (eConsts e) (option_map (ren k) (eParent e)) (eDead e).

Lemma ren_eqb k a b : (ren k a =? ren k b) = (a =? b).
Proof. destruct (Nat.eqb_spec a b) as [->|N]; [apply Nat.eqb_refl|]. apply Nat.eqb_neq. destruct a, b; cbn; lia. Qed.
Lemma ren_S k a : 1 <= a -> ren k (S a) = S (ren k a).
Proof. destruct a; cbn; lia. Qed.
Lemma renN_new k : renN k jnew = jnew.
Proof. reflexivity. Qed.
Lemma ren_same k x a : same (option_map (ren k) x) (ren k a) = same x a.
Proof. destruct x as [y|]; cbn; auto. apply ren_eqb. Qed.
Lemma ren_redirect k a b n : redirect (ren k a) (ren k b) (renN k n) = renN k (redirect a b n).
Proof.
  unfold redirect. cbn [renN jL jR jM]. rewrite !ren_same.
  destruct (same (jL n) a); [reflexivity|]. destruct (same (jR n) a); [reflexivity|]. destruct (same (jM n) a); reflexivity.
Qed.

(** The heap of the used tree. *)
Definition hrel (rest h h' : list jnode) : Prop :=
  exists n0 t, t <> [] /\ h = n0 :: t /\ h' = renN (length rest) n0 :: rest ++ map (renN (length rest)) t.

Lemma hrel_length rest h h' : hrel rest h h' -> 1 < length h /\ length h' = ren (length rest) (length h).
Proof. intros (n0 & t & Nt & -> & ->). cbn. rewrite app_length, map_length. destruct t; [congruence|]. cbn. lia. Qed.
Lemma hrel_get rest h h' a : hrel rest h h' -> follows (fun n n' => n' = renN (length rest) n) (get h a) (get h' (ren (length rest) a)).
Proof.
  intros (n0 & t & Nt & -> & ->) n E. unfold get in *. destruct a as [|a]; cbn [nth_error ren] in *.
  - injection E as <-. eexists. split; reflexivity.
  - rewrite Nat.add_succ_r. cbn [nth_error]. destruct (nth_error t a) as [m|] eqn:Em; [|discriminate]. injection E as <-.
    rewrite nth_error_app2 by lia. replace (length rest + a - length rest) with a by lia. rewrite nth_error_map, Em. cbn. eauto.
Qed.
Lemma upd_app2 {B} (p r : list B) i x : upd (p ++ r) (length p + i) x = p ++ upd r i x.
Proof. induction p as [|a p IH]; cbn; auto. rewrite IH. reflexivity. Qed.
Lemma map_upd {B C} (f : B -> C) l i x : map f (upd l i x) = upd (map f l) i (f x).
Proof. revert i. induction l as [|a l IH]; intros [|i]; cbn; auto. rewrite IH. reflexivity. Qed.
Lemma hrel_set rest h h' a x : hrel rest h h' -> follows (hrel rest) (set h a x) (set h' (ren (length rest) a) (renN (length rest) x)).
Proof.
  intros (n0 & t & Nt & -> & ->) y E. apply set_inv in E as [La ->]. cbn in La.
  rewrite set_ok by (destruct a; cbn; rewrite app_length, map_length; lia). eexists. split; [reflexivity|].
  destruct a as [|a]; cbn [ren upd]; [exists x, t; auto|]. rewrite Nat.add_succ_r. cbn [upd].
  exists n0, (upd t a x). split; [destruct t, a; cbn; congruence|]. split; auto. f_equal. rewrite upd_app2, map_upd. reflexivity.
Qed.
Lemma hrel_app rest h h' l : hrel rest h h' -> hrel rest (h ++ l) (h' ++ map (renN (length rest)) l).
Proof. intros (n0 & t & Nt & -> & ->). exists n0, (t ++ l). split; [destruct t; cbn; congruence|]. split; auto. cbn. rewrite map_app, app_assoc. reflexivity. Qed.

Section Used.
  Variable A : arith.
  Variable St : Type.
  Variable T : target A St.
  Variable predict : list nat -> res string.
  Variable rnd : nat -> nat.
  Variable K : Type.
  Variable kCopyFrom : K -> K.
  Variable kShuffleCases : (nat -> nat) -> list nat -> K -> res K.
  Variable kTarget : K -> target A St.
  Variable p : params.
  Variables (r0 : jnode) (rest : list jnode).
  Local Notation k := (length rest).
  Local Notation jst := (jstate A St K).
  Local Notation jvisit := (jvisit A St T predict rnd K kCopyFrom kShuffleCases kTarget p).

  Definition rel (s s' : jst) : Prop :=
    hrel rest (sHeap s) (sHeap s') /\ sNodes s' = map (renE k) (sNodes s) /\ sCases s' = sCases s /\ sG s' = sG s.

  Lemma rel_entry s s' i : rel s s' -> follows (fun e e' => e' = renE k e) (get (sNodes s) i) (get (sNodes s') i).
  Proof.
    intros (_ & -> & _) e E. unfold get in *. rewrite nth_error_map. destruct (nth_error (sNodes s) i); [|discriminate].
    injection E as <-. cbn. eauto.
  Qed.

  Lemma jleaf_rel e w s s' : rel s s' -> follows rel (jleaf A St predict K e w s) (jleaf A St predict K (renE k e) w s').
  Proof.
    intros (H1 & H2 & H3 & H4). unfold jleaf. cbn [renE eN].
    apply (follows_bind (fun n n' => n' = renN k n)); [apply hrel_get; exact H1|]. intros n ? ->.
    follow. intros pr ? <-.
    apply (follows_bind (hrel rest)); [|intros x x' Hx; apply follows_ok; repeat split; auto].
    apply (hrel_set rest _ _ (eN e) (mkJ (mkNd CNil (dFeat (jD n)) pr None) (jL n) (jR n) (jM n)) H1).
  Qed.

  Lemma jsplit_rel e d b s s' : rel s s' -> follows rel (jsplit A St K p e d b s) (jsplit A St K p (renE k e) d b s').
  Proof.
    intros (H1 & H2 & H3 & H4). unfold jsplit. rewrite H4. cbn [renE eN eStart eEnd].
    follow. intros [imp du] ? <-. follow. intros f ? <-. follow. intros spl ? <-. follow. intros [[cs li] ri] ? <-.
    apply (follows_bind (fun n n' => n' = renN k n)); [apply hrel_get; exact H1|]. intros n ? ->.
    destruct (hrel_length _ _ _ H1) as [L1 L2]. rewrite L2.
    assert (E1 : S (ren k (length (sHeap s))) = ren k (S (length (sHeap s)))) by (rewrite ren_S; [auto|lia]).
    assert (E2 : S (S (ren k (length (sHeap s)))) = ren k (S (S (length (sHeap s))))) by (rewrite (ren_S k (S _)), ren_S; [auto|lia..]).
    rewrite E2, E1.
    apply (follows_bind (hrel rest)).
    - set (x := mkJ _ _ _ _). set (x' := mkJ _ _ _ _). replace x' with (renN k x); [apply hrel_set; exact H1|].
      unfold x, x', renN. cbn. f_equal. destruct (pSplitMissing p); reflexivity.
    - intros h h' Hh. apply follows_ok. repeat split; cbn [sHeap sNodes sCases sG]; auto.
      + assert (Q : [jnew; jnew] ++ (if pSplitMissing p then [jnew] else []) =
          map (renN k) ([jnew; jnew] ++ (if pSplitMissing p then [jnew] else []))) by (destruct (pSplitMissing p); reflexivity).
        rewrite Q at 2. apply hrel_app. exact Hh.
      + rewrite H2, map_app. f_equal. cbn [map app renE eN eStart eEnd eConsts eParent eDead option_map]. do 2 f_equal.
        destruct (pSplitMissing p && negb (li =? ri)); reflexivity.
      + rewrite H3. reflexivity.
  Qed.

  Lemma jvisit_rel d i s s' : rel s s' -> follows rel (jvisit d i s) (jvisit d i s').
  Proof.
    intros H. unfold ModelJungle.jvisit. apply (follows_bind (fun e e' => e' = renE k e)); [apply rel_entry; exact H|].
    intros e ? ->. cbn [renE eDead eStart eEnd eConsts]. destruct (eDead e); [apply follows_ok; exact H|].
    destruct H as (H1 & H2 & H3 & H4). rewrite H3, H4. follow. intros w ? <-.
    destruct (_ && _).
    - follow. intros b ? <-. destruct (isCNil (bCode b)); [apply (jleaf_rel e)|apply (jsplit_rel e)]; repeat split; auto.
    - apply (jleaf_rel e). repeat split; auto.
  Qed.

  Lemma par_eqb x y : match option_map (ren k) x, option_map (ren k) y with Some a, Some b => a =? b | None, None => true | _, _ => false end =
    match x, y with Some a, Some b => a =? b | None, None => true | _, _ => false end.
  Proof. destruct x, y; cbn; auto. apply ren_eqb. Qed.

  Lemma partner_rel i last s s' : rel s s' -> follows eq (partner A St T K i last s) (partner A St T K i last s').
  Proof.
    intros H. unfold partner. apply (follows_bind (fun e e' => e' = renE k e)); [apply rel_entry; exact H|]. intros ei ? ->.
    assert (Len : length (sNodes s') = length (sNodes s)) by (destruct H as (_ & -> & _); apply map_length).
    assert (Hc : sCases s' = sCases s) by apply H. assert (Hg : sG s' = sG s) by apply H. rewrite Len, Hg, Hc.
    apply (follows_bind eq); [|intros [[mx cb] tg] ? <-; apply follows_refl].
    apply follows_for_up; [reflexivity|]. intros j [[mx cb] tg] ? <-.
    apply (follows_bind (fun e e' => e' = renE k e)); [apply rel_entry; exact H|]. intros ej ? ->.
    cbn [renE eDead eEnd eStart eParent]. rewrite par_eqb. apply follows_refl.
  Qed.

  Lemma merge_rel i j s s' : rel s s' -> follows rel (merge A St K i j s) (merge A St K i j s').
  Proof.
    intros H. unfold merge. apply (follows_bind (fun e e' => e' = renE k e)); [apply rel_entry; exact H|]. intros ei ? ->.
    apply (follows_bind (fun e e' => e' = renE k e)); [apply rel_entry; exact H|]. intros ej ? ->.
    destruct H as (H1 & H2 & H3 & H4).
    apply (follows_bind (fun n n' => n' = map (renE k) n)).
    { intros l E. apply set_inv in E as [Lj ->]. rewrite H2, set_ok by (rewrite map_length; exact Lj).
      eexists. split; [reflexivity|]. rewrite map_upd. reflexivity. }
    intros nodes ? ->. cbn [renE eParent eN]. destruct (eParent ej) as [q|]; cbn [option_map]; [|apply follows_panic].
    apply (follows_bind (fun n n' => n' = renN k n)); [apply hrel_get; exact H1|]. intros par ? ->.
    rewrite ren_redirect. apply (follows_bind (hrel rest)); [apply hrel_set; exact H1|].
    intros h h' Hh. apply follows_ok. repeat split; auto.
  Qed.

  Lemma pass_rel last s s' : rel s s' -> follows (fun x x' => fst x' = fst x /\ rel (snd x) (snd x')) (merge_pass A St T K last s) (merge_pass A St T K last s').
  Proof.
    intros H. unfold merge_pass. assert (Len : length (sNodes s') = length (sNodes s)) by (destruct H as (_ & -> & _); apply map_length).
    rewrite Len. apply follows_for_up; [auto|]. intros i [ch s1] [ch' s1'] [E R]. cbn [fst snd] in *. subst ch'.
    apply (follows_bind (fun e e' => e' = renE k e)); [apply rel_entry; exact R|]. intros e ? ->. cbn [renE eDead].
    destruct (eDead e); [apply follows_ok; auto|].
    apply (follows_bind eq); [apply partner_rel; exact R|]. intros [cb tg] ? <-.
    assert (R' : rel (with_tgt A St K s1 tg) (with_tgt A St K s1' tg)).
    { destruct R as (R1 & R2 & R3 & R4). unfold with_tgt. rewrite R4. repeat split; auto. }
    destruct cb as [j|]; [|apply follows_ok; auto].
    apply (follows_bind rel); [apply merge_rel; exact R'|]. intros s2 s2' R2. apply follows_ok. auto.
  Qed.

  Lemma merging_rel last s s' : rel s s' -> follows rel (merging A St T K last s) (merging A St T K last s').
  Proof.
    intros H. unfold merging. assert (Len : length (sNodes s') = length (sNodes s)) by (destruct H as (_ & -> & _); apply map_length).
    rewrite Len. apply (follows_loop rel rel); auto. intros s1 s1' R.
    apply (follows_bind (fun x x' => fst x' = fst x /\ rel (snd x) (snd x'))); [apply pass_rel; exact R|].
    intros [ch s2] [ch' s2'] [E R2]. cbn [fst snd] in *. subst ch'. destruct ch; apply follows_ok; exact R2.
  Qed.

  (** The root stays a leaf: its old children stay too. *)
  Definition leafrel (s s' : jst) : Prop := exists pred,
    sHeap s = [mkJ (mkNd CNil 0 pred None) None None None] /\
    sHeap s' = mkJ (mkNd CNil (dFeat (jD r0)) pred None) (jL r0) (jR r0) (jM r0) :: rest /\
    sNodes s' = sNodes s /\ sCases s' = sCases s /\ sG s' = sG s.

  Theorem used_rel fuel cases g : pSplitMissing p = true \/ jM r0 = None ->
    follows (fun s s' => rel s s' \/ leafrel s s')
      (GrowJungle A St T predict rnd K kCopyFrom kShuffleCases kTarget p fuel cases g)
      (GrowJungleOn A St T predict rnd K kCopyFrom kShuffleCases kTarget p (r0 :: rest) fuel cases g).
  Proof.
    intros Hm. unfold GrowJungle, GrowJungleOn, levels.
    set (s0 := mkS A St K [jnew] [mkE 0 0 (length cases) 0 None false] cases g).
    set (s0' := mkS A St K (r0 :: rest) [mkE 0 0 (length cases) 0 None false] cases g).
    (* what the first visit does *)
    assert (V0 : follows (fun s s' => rel s s' \/ (leafrel s s' /\ length (sNodes s) = 1)) (jvisit 0 0 s0) (jvisit 0 0 s0')).
    { unfold ModelJungle.jvisit, s0, s0'. cbn [sHeap sNodes get nth_error bind eDead eStart eEnd eConsts sCases sG].
      follow. intros w ? <-. destruct (_ && _).
      - follow. intros b ? <-. destruct (isCNil (bCode b)).
        + unfold jleaf. cbn [sHeap get nth_error bind eN]. follow. intros pr ? <-. cbn [set length Nat.ltb Nat.leb upd bind sNodes sCases sG].
          apply follows_ok. right. split; [|reflexivity]. exists pr. cbn. auto.
        + unfold jsplit. cbn [sG sHeap eN eStart eEnd sNodes sCases].
          follow. intros [imp du] ? <-. follow. intros f ? <-. follow. intros spl ? <-. follow. intros [[cs li] ri] ? <-.
          cbn [get nth_error bind set length Nat.ltb Nat.leb upd]. apply follows_ok. left.
          assert (M : (if pSplitMissing p then Some (S (S (S k))) else jM r0) = option_map (ren k) (if pSplitMissing p then Some 3 else None)).
          { destruct (pSplitMissing p); cbn; [f_equal; lia|]. destruct Hm as [Hm|Hm]; [discriminate|exact Hm]. }
          repeat split; cbn [sHeap sNodes sCases sG].
          * eexists _, _. split; [|split; [reflexivity|]]; [discriminate|]. rewrite M. cbn [app map]. unfold renN at 1. cbn [jD jL jR jM option_map ren].
            replace (S (S k)) with (k + 2) by lia. replace (S k) with (k + 1) by lia. destruct (pSplitMissing p); reflexivity.
          * cbn [map app renE eN eStart eEnd eConsts eParent eDead option_map ren].
            replace (S k) with (k + 1) by lia. replace (S (k + 1)) with (k + 2) by lia. replace (S (k + 2)) with (k + 3) by lia.
            do 3 f_equal. destruct (pSplitMissing p && negb (li =? ri)); reflexivity.
      - unfold jleaf. cbn [sHeap get nth_error bind eN]. follow. intros pr ? <-. cbn [set length Nat.ltb Nat.leb upd bind sNodes sCases sG].
        apply follows_ok. right. split; [|reflexivity]. exists pr. cbn. auto. }
    apply (follows_loop (fun x x' => (x = (0, 0, s0) /\ x' = (0, 0, s0')) \/ (fst x' = fst x /\ rel (snd x) (snd x')))
      (fun s s' => rel s s' \/ leafrel s s')); [auto|].
    assert (Tail : forall last depth s s', rel s s' ->
      follows (fflow (fun x x' => (x = (0, 0, s0) /\ x' = (0, 0, s0')) \/ (fst x' = fst x /\ rel (snd x) (snd x'))) (fun s s' => rel s s' \/ leafrel s s'))
        (if length (sNodes s) =? last then Ok (Done s) else let* s := merging A St T K last s in Ok (Next (last, S depth, s)))
        (if length (sNodes s') =? last then Ok (Done s') else let* s := merging A St T K last s' in Ok (Next (last, S depth, s)))).
    { intros last depth s s' R. assert (Len : length (sNodes s') = length (sNodes s)) by (destruct R as (_ & -> & _); apply map_length).
      rewrite Len. destruct (length (sNodes s) =? last); [apply follows_ok; left; exact R|].
      apply (follows_bind rel); [apply merging_rel; exact R|]. intros s1 s1' R1. apply follows_ok. cbn. right. auto. }
    intros [[first depth] s] [[first' depth'] s'] [[E E']|[E R]].
    - injection E as -> -> ->. injection E' as -> -> ->. cbn [s0 s0' sNodes length Nat.sub for_up]. fold s0 s0'.
      apply (follows_bind (fun s s' => rel s s' \/ (leafrel s s' /\ length (sNodes s) = 1))).
      + apply (follows_bind (fun s s' => rel s s' \/ (leafrel s s' /\ length (sNodes s) = 1))); [exact V0|].
        intros s1 s1' H1. apply follows_ok. exact H1.
      + intros s1 s1' [R|[L1 L2]]; [apply Tail; exact R|].
        assert (L3 : length (sNodes s1') = 1) by (destruct L1 as (pr & _ & _ & -> & _); exact L2).
        rewrite L2, L3. cbn. apply follows_ok. right. exact L1.
    - cbn [fst snd] in E, R. injection E as -> ->.
      assert (Len : length (sNodes s') = length (sNodes s)) by (destruct R as (_ & -> & _); apply map_length). rewrite Len.
      apply (follows_bind rel); [apply follows_for_up; [exact R|]; intros i x x' Rx; apply jvisit_rel; exact Rx|].
      intros s1 s1' R1. apply Tail. exact R1.
  Qed.
End Used.
