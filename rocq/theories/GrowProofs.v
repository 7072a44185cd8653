(** Growing a fresh tree: it ends, and the result is a grown tree. *)
From Verif Require Import Go GoLemmas F64 F64Order F64Round ModelFeature ModelSplit SplitSpec SplitProofs ModelTree TreeSpec
  ModelSearch SearchSpec GrowSpec TotalSearch ModelGrow SplitterProofs GrownSpec SortProofs.
From Verif Require PropFeatureSearch PropSplitter.
Local Open Scope nat_scope.
Local Open Scope list_scope.

Arguments gCans {A St K} _.
Arguments gOob {A St K} _.
Arguments gAl {A St K} _.
Arguments gK {A St K} _.
Arguments gImp {A St K} _.
Arguments gDepth {A St K} _.

Lemma searchable_sub f l l' : incl l' l -> searchable f l -> searchable f l'.
Proof.
  intros I (Hf & Hc & Hn). split; auto. split.
  - rewrite Forall_forall in *. auto.
  - destruct f as [g|g]; auto. intros c Hi. apply Hn. unfold present in *. rewrite filter_In in *. destruct Hi; auto.
Qed.
Lemma faithful_sub f l l' : incl l' l -> faithful f l -> faithful f l'.
Proof.
  intros I H. destruct f as [g|g]; auto. destruct H as [H1 H2].
  assert (Q : forall c, In c (present (FNum g) l') -> In c (present (FNum g) l)).
  { intros c Hi. unfold present in *. rewrite filter_In in *. destruct Hi; auto. }
  split; auto. intros c d Hc Hd. apply H2; auto.
Qed.

Lemma counted_trans {A : arith} (us us' : list (use A)) a b c :
  counted us a b -> counted us' b c -> counted (us ++ us') a c.
Proof.
  destruct a as [a|], b as [b|], c as [c|]; cbn; try tauto. intros [L1 H1] [L2 H2]. split; [congruence|].
  intros i rm E. apply H1, H2 in E. rewrite E. f_equal. unfold decreases_of.
  rewrite filter_app, map_app, fold_left_app. reflexivity.
Qed.
Lemma deep_trans {A : arith} (us us' : list (use A)) a b c :
  deep us a b -> deep us' b c -> deep (us ++ us') a c.
Proof.
  destruct a as [a|], b as [b|], c as [c|]; cbn; try tauto. intros [L1 H1] [L2 H2]. split; [congruence|].
  intros i rm E. apply H1, H2 in E. rewrite E. f_equal. unfold depths_of.
  rewrite filter_app, map_app, fold_left_app. reflexivity.
Qed.
Lemma counted_nil {A : arith} a : @counted A [] a a.
Proof. destruct a; cbn; auto. Qed.
Lemma deep_nil {A : arith} a : @deep A [] a a.
Proof. destruct a; cbn; auto. Qed.

Lemma book_ok (A : arith) fi depth (dec : A) imp du :
  (forall l, imp = Some l -> fi < length l) -> (forall l, du = Some l -> fi < length l) ->
  exists imp' du', book A fi depth dec imp du = Ok (imp', du') /\
    counted [(fi, depth, dec)] imp imp' /\ deep [(fi, depth, dec)] du du'.
Proof.
  intros Hi Hd. unfold book.
  assert (E1 : exists imp', match imp with
    | Some l => let* rm := get l fi in let* l := set l fi (rmAdd A dec rm) in Ok (Some l)
    | None => Ok None end = Ok imp' /\ counted [(fi, depth, dec)] imp imp').
  { destruct imp as [l|]; [|exists None; cbn; auto]. specialize (Hi l eq_refl).
    destruct (@get_ok _ l fi Hi) as (rm & -> & Erm). cbn [bind]. unfold set.
    destruct (Nat.ltb_spec fi (length l)); [|lia]. cbn [bind]. eexists. split; [reflexivity|].
    cbn. split; [apply upd_length|]. intros i rm' Ei. unfold decreases_of. cbn.
    destruct (Nat.eqb_spec fi i) as [<-|N]; cbn.
    - rewrite nth_error_upd_eq by auto. congruence.
    - rewrite nth_error_upd_neq by auto. auto. }
  destruct E1 as (imp' & -> & C1). cbn [bind].
  assert (E2 : exists du', match du with
    | Some l => let* d := get l fi in
                if (d =? 0) || (depth <? d) then let* l := set l fi depth in Ok (Some l) else Ok (Some l)
    | None => Ok None end = Ok du' /\ deep [(fi, depth, dec)] du du').
  { destruct du as [l|]; [|exists None; cbn; auto]. specialize (Hd l eq_refl).
    destruct (@get_ok _ l fi Hd) as (d & -> & Ed). cbn [bind]. unfold set.
    destruct (Nat.ltb_spec fi (length l)); [|lia]. cbn [bind].
    destruct ((d =? 0) || (depth <? d)) eqn:B; (eexists; split; [reflexivity|]); cbn.
    - split; [apply upd_length|]. intros i d' Ei. unfold depths_of. cbn.
      destruct (Nat.eqb_spec fi i) as [<-|N]; cbn.
      + rewrite nth_error_upd_eq by auto. assert (d' = d) by congruence. subst. unfold shallower. rewrite B. auto.
      + rewrite nth_error_upd_neq by auto. auto.
    - split; auto. intros i d' Ei. unfold depths_of. cbn.
      destruct (Nat.eqb_spec fi i) as [<-|N]; cbn; auto.
      assert (d' = d) by congruence. subst. unfold shallower. rewrite B. auto. }
  destruct E2 as (du' & -> & C2). cbn [bind]. exists imp', du'. auto.
Qed.

Section Growing.
  Variable A : arith.
  Variable St : Type.
  Variable T : target A St.
  Variable predict : list nat -> res string.
  Variable rnd : nat -> nat.
  Variable K : Type.
  Variable kCopyFrom : K -> K.
  Variable kShuffleCases : (nat -> nat) -> list nat -> K -> res K.
  Variable kTarget : K -> target A St.
  Variable p : params.
  Variables (ok : nat -> Prop) (ready : St -> Prop) (kok : K -> Prop).
  Hypothesis Dep : dependable T ok ready.
  Hypothesis Hsane : sane A.
  Hypothesis Hleaf : 1 <= pLeaf p.
  Hypothesis Hvet : pVet p = true -> vettable A St K kCopyFrom kShuffleCases kTarget ok ready kok.
  Hypothesis Hpred : forall cs, Forall ok cs -> exists s, predict cs = Ok s.
  Variables (cans0 oob0 : list nat).
  Hypothesis Htry : pTry p <= length cans0.
  Hypothesis Hoob : pEvalOob p = true -> Forall ok oob0.

  Local Notation gst := (gstate A St K).
  Local Notation L := (length cans0).

  Definition data_fits (cases : list nat) : Prop :=
    forall i, In i cans0 -> exists f, nth_error (pData p) i = Some f /\ searchable f cases /\ faithful f cases /\
      (pEvalOob p = true -> searchable f oob0).

  (** The state of the growing process stays usable. *)
  Record fine (n : nat) (g : gst) : Prop := {
    fi_cans : Permutation cans0 (gCans g);
    fi_oob : Permutation oob0 (gOob g);
    fi_room : roomy (gAl g) n;
    fi_oroom : pEvalOob p = true -> roomy (gAl g) (length oob0);
    fi_ready : ready (aTgt (gAl g));
    fi_k : pVet p = true -> kok (gK g);
    fi_imp : forall l, gImp g = Some l -> Forall (fun i => i < length l) cans0;
    fi_depth : forall l, gDepth g = Some l -> Forall (fun i => i < length l) cans0
  }.
  Record step (nb : nat) (us : list (use A)) (g g' : gst) : Prop := {
    st_tail : skipn (L - nb) (gCans g') = skipn (L - nb) (gCans g);
    st_imp : counted us (gImp g) (gImp g');
    st_depth : deep us (gDepth g) (gDepth g')
  }.

  Lemma fine_less n m g : m <= n -> fine n g -> fine m g.
  Proof. intros H [A1 A2 [B1 B2] A4 A5 A6 A7 A8]. constructor; auto. split; lia. Qed.

  Lemma skipn_more {B} a b (l l' : list B) : a <= b -> skipn a l = skipn a l' -> skipn b l = skipn b l'.
  Proof.
    intros H E. replace b with (a + (b - a)) by lia.
    assert (Sk : forall x y (l : list B), skipn y (skipn x l) = skipn (x + y) l).
    { intros x y. induction x; intros z; cbn; auto. destruct z; cbn; auto. apply skipn_nil. }
    rewrite <- !Sk, E. reflexivity.
  Qed.
  Lemma step_trans nb nb' us us' g g' g'' : nb <= nb' ->
    step nb us g g' -> step nb' us' g' g'' -> step nb (us ++ us') g g''.
  Proof.
    intros Hn [A1 A2 A3] [B1 B2 B3]. constructor.
    - rewrite <- A1. eapply skipn_more; [|exact B1]. lia.
    - eapply counted_trans; eauto.
    - eapply deep_trans; eauto.
  Qed.

  Lemma data_fits_sub cases sub : incl sub cases -> data_fits cases -> data_fits sub.
  Proof.
    intros I H i Hi. destruct (H i Hi) as (f & E1 & E2 & E3 & E4). exists f. split; auto.
    split; [eapply searchable_sub; eauto|]. split; [eapply faithful_sub; eauto|auto].
  Qed.

  (** The growing state with BestSplitter's results. *)
  Definition moved (g : gst) (b : bstate A St K) : gst := mkG A St K (bCans b) (bOob b) (bAl b) (bK b) (gImp g) (gDepth g).

  Lemma hopeless_kept cans nb cases sub : PropFeatureSearch.part_of sub cases ->
    constants_hopeless p cans nb cases -> constants_hopeless p cans nb sub.
  Proof.
    intros P H i Hi. destruct (H i Hi) as (f & E & Hh). exists f. split; auto.
    eapply PropFeatureSearch.hopeless_below; eauto.
  Qed.

  (** One search for a split. *)
  Lemma search_fits N cases nb (g : gst) : length cases <= N -> Forall ok cases -> data_fits cases -> fine N g -> nb <= L ->
    (plain_search p -> constants_hopeless p (gCans g) nb cases) ->
    exists b, BestSplitter A St T rnd K kCopyFrom kShuffleCases kTarget p cases (gCans g) (gOob g) nb (gAl g) (gK g) = Ok b /\
      fine N (moved g b) /\ step nb [] g (moved g b) /\ Permutation cases (bCases b) /\
      nb <= bConsts b /\ bConsts b <= L /\
      reported A St T rnd K kCopyFrom kShuffleCases kTarget p cases (bFi b) (bCode b) (bDec b) /\
      (plain_search p -> constants_hopeless p (bCans b) (bConsts b) cases) /\
      (bCode b <> CNil -> nltb A (least A) (bDec b) = true /\ In (bFi b) cans0 /\
         exists f, nth_error (pData p) (bFi b) = Some f /\ searchable f cases /\ legal f (bCode b) (pLeaf p) cases).
  Proof.
    intros HN Hok Hd [C1 C2 C3' C4 C5 C6 C7 C8] Hnb Hh.
    assert (C3 : roomy (gAl g) (length cases)) by (destruct C3'; split; lia).
    assert (Lc : length (gCans g) = L) by (symmetry; apply (Permutation_length C1)).
    assert (G1 : pVet p = true -> vettable A St K kCopyFrom kShuffleCases kTarget ok ready kok /\ kok (gK g)) by auto.
    assert (G2 : pEvalOob p = true -> Forall ok (gOob g) /\ roomy (gAl g) (length (gOob g))).
    { intros O. split; [eapply Permutation_Forall; [exact C2|auto]|]. rewrite <- (Permutation_length C2). auto. }
    assert (G3 : forall i, In i (gCans g) -> exists f, nth_error (pData p) i = Some f /\ searchable f cases /\
       (pEvalOob p = true -> searchable f (gOob g))).
    { intros i Hi. destruct (Hd i) as (f & E1 & E2 & E3 & E4).
      { eapply Permutation_in; [symmetry; exact C1|auto]. }
      exists f. split; auto. split; auto. intros O. eapply searchable_perm; [exact C2|auto]. }
    assert (G4 : pTry p <= length (gCans g)) by lia.
    assert (G5 : nb <= length (gCans g)) by lia.
    destruct (BestSplitter_total A St T rnd K kCopyFrom kShuffleCases kTarget p ok ready kok Dep Hsane
      (gCans g) nb cases (gOob g) (gAl g) (gK g) G4 G5 Hleaf G1 Hok C3 C5 G2 G3)
      as (parent & tg & b & Et & E & (j & [Hp Hta Hm Hr Hdr Hc Hf]) & [F1 F2 F3 F4 F5 F6] & Fin).
    exists b. split; auto. rewrite Lc in *.
    assert (Hcans : forall i, In i (bCans b) -> In i cans0).
    { intros i Hi. eapply Permutation_in; [|exact Hi]. symmetry. etransitivity; eauto. }
    assert (Tail : skipn (L - nb) (bCans b) = skipn (L - nb) (gCans g)).
    { apply PropSplitter.nth_suffix; auto. rewrite <- (Permutation_length Hp). reflexivity. }
    destruct F3 as (K1 & K2 & K3).
    split; [|split; [|split; [|split; [|split; [|split; [|split]]]]]]; auto.
    - constructor; cbn; auto.
      + etransitivity; eauto.
      + etransitivity; eauto.
      + unfold roomy in *. rewrite K1, K2. auto.
      + unfold roomy in *. rewrite K1, K2. auto.
    - constructor; cbn; auto using counted_nil, deep_nil.
    - lia.
    - exists cases, (gCans g), (gOob g), nb, (gAl g), (gK g), b. auto 10.
    - intros Ps i Hi. pose proof (Permutation_length Hp) as Lb. rewrite <- Lb, Lc in Hi.
      apply In_nth_error in Hi as (q & Hq). rewrite nth_error_skipn in Hq.
      destruct (le_lt_dec (L - nb) (L - bConsts b + q)) as [Hge|Hlt].
      + destruct (Hh Ps i) as (f & Ef & Hf'); eauto.
        rewrite Lc. rewrite Hta in Hq by auto.
        apply nth_error_In with (n := L - bConsts b + q - (L - nb)). rewrite nth_error_skipn.
        replace (L - nb + (L - bConsts b + q - (L - nb))) with (L - bConsts b + q) by lia. auto.
      + destruct Ps as (Pv & Po & Pd). destruct (F6 Pv Po) as [_ B2 _].
        destruct (B2 (L - bConsts b + q)) as (i' & r & E1 & (f & cs & al & Ef & Pcs & Ra & Ry & Eb) & E3 & _); [rewrite Lc; lia|rewrite Lc; lia|].
        assert (i' = i) by congruence. subst i'.
        exists f. split; auto.
        assert (Hin : In i cans0).
        { apply Hcans. eapply nth_error_In; exact Hq. }
        destruct (Hd i Hin) as (f' & Ef' & Sf & Ff & _). assert (f' = f) by congruence. subst f'.
        destruct (BestSplit_promise A St T ok ready Dep Hsane rnd f cs parent (pLeaf p) (pExtra p) al)
          as (r' & Er & _ & _ & _ & _ & _ & Hh'); auto.
        { eapply Permutation_Forall; eauto. }
        { eapply searchable_perm; eauto. }
        assert (r' = r) by congruence. subst r'.
        assert (Hc' : hopeless f (pLeaf p) cs).
        { apply Hh'; auto. rewrite Forall_forall in Pd. apply Pd. eapply nth_error_In; eauto. }
        eapply PropFeatureSearch.hopeless_below; [|exact Hc']. exists []. rewrite app_nil_r. symmetry; auto.
    - intros Hcode. assert (Hin : In (bFi b) cans0).
      { eapply Permutation_in; [symmetry; exact C1|]. apply Hf. auto. }
      destruct (Hd _ Hin) as (f & Ef & Sf & Ff & _).
      destruct F5 as [[_ H]|[Hdec H]]; [congruence|]. split; auto. split; auto.
      destruct H as (f' & Ef' & Cf & Lg). assert (f' = f) by congruence. subst f'.
      exists f. split; auto.
  Qed.

  Local Notation grown := (grown A St T predict rnd K kCopyFrom kShuffleCases kTarget p cans0).
  Local Notation reported := (reported A St T rnd K kCopyFrom kShuffleCases kTarget p).

  Lemma reported_perm cases cases' fi code dec : Permutation cases cases' ->
    reported cases fi code dec -> reported cases' fi code dec.
  Proof.
    intros P (cs & cans & oob & nb & al & k & b & H1 & H2 & H3 & H4 & H5 & H6).
    exists cs, cans, oob, nb, al, k, b. split; [rewrite <- P; auto|]. do 4 (split; auto).
    intros Ps. eapply hopeless_kept; [|apply H6; auto]. exists []. rewrite app_nil_r. auto.
  Qed.

  Lemma grown_perm n : forall depth cases cases' us, Permutation cases cases' ->
    grown depth cases n us -> grown depth cases' n us.
  Proof.
    induction n as [|d l IHl r IHr m IHm]; intros depth cases cases' us P H; [destruct H|].
    cbn [GrownSpec.grown] in *. destruct (terminal d).
    - destruct H as (H1 & H2 & H3 & H4 & (cs & H5 & H6) & H7). do 4 (split; auto). split.
      + exists cs. split; auto. rewrite <- P; auto.
      + intros [M1 M2]. destruct H7 as (fi & dec & H7).
        { split; auto. rewrite (Permutation_length P). auto. }
        exists fi, dec. eapply reported_perm; eauto.
    - destruct H as (f & dec & ul & ur & um & H0 & H1 & H2 & H3 & [M1 M2] & H5 & H5' & H6 & H7 & H8 & H9 & H10 & H11).
      exists f, dec, ul, ur, um. do 4 (split; auto).
      assert (PL : Permutation (to_left f (dCode d) cases) (to_left f (dCode d) cases')) by (apply perm_filter; auto).
      assert (PR : Permutation (to_right f (dCode d) cases) (to_right f (dCode d) cases')) by (apply perm_filter; auto).
      assert (PM : Permutation (to_missing f cases) (to_missing f cases')) by (apply perm_filter; auto).
      split; [split; auto; rewrite <- (Permutation_length P); auto|].
      split; [eapply reported_perm; eauto|]. split; auto.
      split; [rewrite <- (Permutation_length PL); auto|].
      split; [rewrite <- (Permutation_length PR); auto|].
      split; [eapply IHl; eauto|]. split; [eapply IHr; eauto|]. split; auto.
      rewrite <- (Permutation_length PM). destruct (pSplitMissing p && negb (length (to_missing f cases) =? 0)); auto.
      eapply IHm; eauto.
  Qed.

  Lemma filter_part {B} (g h k : B -> bool) l :
    (forall c, (if g c then 1 else 0) + (if h c then 1 else 0) + (if k c then 1 else 0) = 1) ->
    length (filter g l) + length (filter h l) + length (filter k l) = length l.
  Proof.
    intros H. induction l as [|c l IH]; cbn; auto. specialize (H c).
    destruct (g c), (h c), (k c); cbn in *; lia.
  Qed.
  Lemma three_lengths f code cases :
    length (to_left f code cases) + length (to_right f code cases) + length (to_missing f cases) = length cases.
  Proof. apply filter_part. intros c. destruct (fmissing f c), (coded_left f code c); cbn; auto. Qed.
  Lemma filter_part_of (g : nat -> bool) cases : PropFeatureSearch.part_of (filter g cases) cases.
  Proof.
    exists (filter (fun c => negb (g c)) cases). induction cases as [|c l IH]; cbn; auto.
    destruct (g c); cbn; [constructor; auto|]. etransitivity; [constructor; exact IH|]. apply Permutation_middle.
  Qed.
  Lemma part_perm sub sub' cases : Permutation sub sub' ->
    PropFeatureSearch.part_of sub' cases -> PropFeatureSearch.part_of sub cases.
  Proof. intros P (rest & H). exists rest. rewrite P. auto. Qed.
  Lemma part_incl sub cases : PropFeatureSearch.part_of sub cases -> incl sub cases.
  Proof. intros (rest & P) c Hc. eapply Permutation_in; [symmetry; exact P|]. apply in_or_app; auto. Qed.

  Lemma isCNil_spec c : isCNil c = true <-> c = CNil.
  Proof. destruct c; cbn; split; congruence. Qed.

  Lemma filter_filter {B} (g h : B -> bool) l : filter g (filter h l) = filter (fun c => h c && g c) l.
  Proof. induction l as [|c l IH]; cbn; auto. destruct (h c); cbn; rewrite ?IH; auto. Qed.

  Lemma grow_fresh N : forall fuel cases depth nb (g : gst),
    length cases < fuel -> length cases <= N -> Forall ok cases -> data_fits cases -> fine N g -> nb <= L ->
    (plain_search p -> constants_hopeless p (gCans g) nb cases) ->
    exists n g' us,
      grow_node A St T predict rnd K kCopyFrom kShuffleCases kTarget fuel p newNode cases depth nb g = Ok (n, g') /\
      grown depth cases n us /\ fine N g' /\ step nb us g g'.
  Proof.
    induction fuel as [|fuel IH]; intros cases depth nb g Hf HN Hok Hd Hg Hnb Hh; [lia|].
    cbn [grow_node newNode]. unfold grow_visit. cbn [dFeat].
    destruct (((depth <? pMaxDepth p) || (pMaxDepth p <=? 0)) && (2 * pLeaf p <=? length cases)) eqn:Can.
    2:{ (* too small or too deep *)
        destruct (Hpred cases Hok) as (s & Es). rewrite Es. cbn [bind isCNil gvSplit gvD gvL gvR gvM].
        exists (Node (mkNd CNil 0 s None) Nil Nil Nil), g, []. split; auto. split; [|split; auto].
        - cbn. do 4 (split; auto). split; [exists cases; auto|].
          intros [M1 M2]. exfalso. apply andb_false_iff in Can as [Can|Can].
          + apply orb_false_iff in Can as [C1 C2]. apply Nat.ltb_ge in C1. apply Nat.leb_gt in C2. lia.
          + apply Nat.leb_gt in Can. lia.
        - constructor; auto using counted_nil, deep_nil. }
    assert (Hms : may_split p depth cases).
    { apply andb_true_iff in Can as [C1 C2]. apply Nat.leb_le in C2. split; auto.
      apply orb_true_iff in C1 as [C1|C1]; [apply Nat.ltb_lt in C1|apply Nat.leb_le in C1]; lia. }
    destruct (search_fits N cases nb g HN Hok Hd Hg Hnb Hh)
      as (b & Eb & Hg1 & Hst & Pc & Hn1 & Hn2 & Hrep & Hhop & Hcode).
    rewrite Eb. cbn [bind]. fold (moved g b).
    destruct (isCNil (bCode b)) eqn:Nil.
    { (* no split *)
      assert (Ok2 : Forall ok (bCases b)) by (eapply Permutation_Forall; eauto).
      destruct (Hpred (bCases b) Ok2) as (s & Es). rewrite Es. cbn [bind isCNil gvSplit gvD gvL gvR gvM].
      exists (Node (mkNd CNil 0 s None) ModelTree.Nil ModelTree.Nil ModelTree.Nil), (moved g b), []. split; auto. split; [|split; auto].
      cbn. do 4 (split; auto). split; [exists (bCases b); auto|].
      intros _. exists (bFi b), (bDec b). apply isCNil_spec in Nil. rewrite <- Nil. auto. }
    assert (Nc : bCode b <> CNil) by (intros E; apply isCNil_spec in E; congruence).
    destruct (Hcode Nc) as (Hdec & Hin & f & Ef & Sf & Cf & Ad1 & Ad2).
    destruct (book_ok A (bFi b) depth (bDec b) (gImp (moved g b)) (gDepth (moved g b))) as (imp & du & Ebk & Hc1 & Hc2).
    { intros l El. pose proof (fi_imp _ _ Hg1 l El) as F. rewrite Forall_forall in F. auto. }
    { intros l El. pose proof (fi_depth _ _ Hg1 l El) as F. rewrite Forall_forall in F. auto. }
    rewrite Ebk. cbn [bind]. rewrite (get_nth _ _ Ef). cbn [bind].
    assert (Hs : exists s, fDecodeSplit f (bCode b) = Ok s).
    { destruct f, (bCode b); cbn in Cf; try contradiction; cbn; eauto. }
    destruct Hs as (spl & Es). rewrite Es. cbn [bind isNil orb gvSplit gvFi gvCases gvD gvL gvR gvM gvConsts].
    rewrite Nil. rewrite (get_nth _ _ Ef). cbn [bind].
    assert (Sf2 : searchable f (bCases b)) by (eapply searchable_perm; eauto).
    destruct Sf2 as (Sf2 & Sc2 & _).
    destruct (fSplit_ok f (bCode b) (bCases b) Cf Sf2 Sc2) as (cs & ll & lr & r & Esp & _ & [T1 T2 T3 T4 T5] & Ecs & El & Er).
    rewrite Esp. cbn [bind]. subst cs ll lr. rewrite T1.
    set (lc := srL r) in *. set (mc := srM r) in *. set (rc := srR r) in *.
    change (lc ++ mc ++ rc) with ([] ++ lc ++ (mc ++ rc)) at 1.
    rewrite slice_app by (cbn; lia). cbn [bind].
    (* the three parts *)
    assert (PL : Permutation lc (to_left f (bCode b) cases)).
    { rewrite T3. apply perm_filter. symmetry; auto. }
    assert (PM : Permutation mc (to_missing f cases)).
    { rewrite T4. apply perm_filter. symmetry; auto. }
    assert (PR : Permutation rc (to_right f (bCode b) cases)).
    { rewrite T5. apply perm_filter. symmetry; auto. }
    assert (BL : PropFeatureSearch.part_of lc cases) by (eapply part_perm; [exact PL|apply filter_part_of]).
    assert (BM : PropFeatureSearch.part_of mc cases) by (eapply part_perm; [exact PM|apply filter_part_of]).
    assert (BR : PropFeatureSearch.part_of rc cases) by (eapply part_perm; [exact PR|apply filter_part_of]).
    assert (NL : pLeaf p <= length (to_left f (bCode b) cases)).
    { unfold side, present in Ad1. rewrite filter_filter in Ad1. unfold to_left.
      exact Ad1. }
    assert (NR : pLeaf p <= length (to_right f (bCode b) cases)).
    { unfold other, present in Ad2. rewrite filter_filter in Ad2. unfold to_right.
      exact Ad2. }
    pose proof (three_lengths f (bCode b) cases) as TL.
    pose proof (Permutation_length PL) as LL. pose proof (Permutation_length PR) as LR. pose proof (Permutation_length PM) as LM.
    assert (OkP : forall sub, PropFeatureSearch.part_of sub cases -> Forall ok sub).
    { intros sub Hsub. rewrite Forall_forall in *. intros c Hc. apply Hok. eapply part_incl; eauto. }
    assert (DfP : forall sub, PropFeatureSearch.part_of sub cases -> data_fits sub).
    { intros sub Hsub. eapply data_fits_sub; [eapply part_incl; eauto|auto]. }
    set (g2 := mkG A St K (gCans (moved g b)) (gOob (moved g b)) (gAl (moved g b)) (gK (moved g b)) imp du).
    assert (Hg2 : fine N g2).
    { destruct Hg1 as [A1 A2 A3 A4 A5 A6 A7 A8]. constructor; cbn; auto.
      - intros l ->. cbn in Hc1. destruct (gImp g) as [l0|] eqn:E0; [|destruct Hc1].
        destruct Hc1 as [Lx _]. rewrite Lx. apply (A7 l0). cbn. auto.
      - intros l ->. cbn in Hc2. destruct (gDepth g) as [l0|] eqn:E0; [|destruct Hc2].
        destruct Hc2 as [Lx _]. rewrite Lx. apply (A8 l0). cbn. auto. }
    assert (Hst2 : step nb [(bFi b, depth, bDec b)] g g2).
    { destruct Hst as [S1 S2 S3]. constructor; cbn in *; auto. }
    assert (Hhop2 : forall sub, PropFeatureSearch.part_of sub cases ->
       plain_search p -> constants_hopeless p (gCans g2) (bConsts b) sub).
    { intros sub Hsub Ps. eapply hopeless_kept; [exact Hsub|]. cbn. auto. }
    (* left *)
    destruct (IH lc (S depth) (bConsts b) g2) as (nl & gl & ul & El & Gl & Fl & Stl); auto; try lia.
    rewrite El. cbn [bind].
    (* the constants stay known *)
    assert (keep : forall (ga gb : gst) us, step (bConsts b) us ga gb -> fine N ga -> fine N gb ->
      (forall sub, PropFeatureSearch.part_of sub cases ->
         plain_search p -> constants_hopeless p (gCans ga) (bConsts b) sub) ->
      forall sub, PropFeatureSearch.part_of sub cases ->
         plain_search p -> constants_hopeless p (gCans gb) (bConsts b) sub).
    { intros ga gb us [S1 _ _] Fa Fb H sub Hsub Ps i Hi. apply (H sub Hsub Ps i).
      rewrite <- (Permutation_length (fi_cans _ _ Fa)). rewrite <- (Permutation_length (fi_cans _ _ Fb)) in Hi.
      rewrite <- S1. exact Hi. }
    pose proof (keep _ _ _ Stl Hg2 Fl Hhop2) as Hhop3.
    (* right *)
    assert (Esr : slice (lc ++ mc ++ rc) (length lc + length mc) (length (lc ++ mc ++ rc)) = Ok rc).
    { replace (lc ++ mc ++ rc) with ((lc ++ mc) ++ rc ++ []) by (rewrite app_nil_r, app_assoc; auto).
      apply slice_app; rewrite !app_length; cbn; lia. }
    rewrite Esr. cbn [bind]. clear Esr.
    destruct (IH rc (S depth) (bConsts b) gl) as (nr & gr & ur & Er & Gr & Fr & Str); auto; try lia.
    rewrite Er. cbn [bind].
    pose proof (keep _ _ _ Str Fl Fr Hhop3) as Hhop4.
    (* missing *)
    assert (Hm : exists nm gm um,
      (if negb (length lc =? length lc + length mc) && negb (isNil (if pSplitMissing p then newNode else ModelTree.Nil)) then
         let* mc0 := slice (lc ++ mc ++ rc) (length lc) (length lc + length mc) in
         grow_node A St T predict rnd K kCopyFrom kShuffleCases kTarget fuel p
           (if pSplitMissing p then newNode else ModelTree.Nil) mc0 (S depth) (bConsts b) gr
       else Ok ((if pSplitMissing p then newNode else ModelTree.Nil), gr)) = Ok (nm, gm) /\
      (if pSplitMissing p && negb (length (to_missing f cases) =? 0)
       then grown (S depth) (to_missing f cases) nm um
       else nm = (if pSplitMissing p then newNode else ModelTree.Nil) /\ um = []) /\
      fine N gm /\ step (bConsts b) um gr gm).
    { rewrite <- LM. replace (length lc =? length lc + length mc) with (length mc =? 0).
      2:{ destruct (Nat.eqb_spec (length mc) 0), (Nat.eqb_spec (length lc) (length lc + length mc)); auto; lia. }
      destruct (pSplitMissing p) eqn:Sm; cbn [isNil negb andb].
      2:{ rewrite andb_false_r. exists ModelTree.Nil, gr, []. split; auto. split; auto. split; auto.
          constructor; auto using counted_nil, deep_nil. }
      destruct (Nat.eqb_spec (length mc) 0) as [E0|N0]; cbn [isNil newNode negb andb].
      - exists newNode, gr, []. split; auto. split; auto. split; auto.
        constructor; auto using counted_nil, deep_nil.
      - rewrite slice_app by lia. cbn [bind].
        destruct (IH mc (S depth) (bConsts b) gr) as (nm & gm & um & Em & Gm & Fm & Stm); auto; try lia.
        exists nm, gm, um. split; auto. split; auto. eapply grown_perm; eauto. }
    destruct Hm as (nm & gm & um & -> & Gm & Fm & Stm). cbn [bind].
    eexists _, gm, _. split; [reflexivity|]. split; [|split; [exact Fm|]].
    - cbn [GrownSpec.grown]. unfold terminal. cbn [dCode dSpl]. rewrite Nil. cbn [andb].
      exists f, (bDec b), ul, ur, um. cbn [dFeat dCode dSpl].
      do 3 (split; auto). split; [exists spl; auto|].
      do 5 (split; auto).
      split; [eapply grown_perm; [exact PL|auto]|].
      split; [eapply grown_perm; [exact PR|auto]|].
      split; [exact Gm|reflexivity].
    - change ((bFi b, depth, bDec b) :: ul ++ ur ++ um) with ([(bFi b, depth, bDec b)] ++ (ul ++ ur ++ um)).
      eapply step_trans; [exact Hn1|exact Hst2|].
      eapply step_trans; [apply Nat.le_refl|exact Stl|].
      eapply step_trans; [apply Nat.le_refl|exact Str|exact Stm].
  Qed.

  (** ** The calls made while a tree grows *)
  Local Notation grow_visit := (grow_visit A St T predict rnd K kCopyFrom kShuffleCases kTarget p (mkNd CNil 0 EmptyString None)
    ModelTree.Nil ModelTree.Nil ModelTree.Nil).
  Local Notation grow_node := (grow_node A St T predict rnd K kCopyFrom kShuffleCases kTarget).

  Lemma visit_split N cases depth nb (g : gst) v g1 :
    length cases <= N -> Forall ok cases -> data_fits cases -> fine N g -> nb <= L ->
    (plain_search p -> constants_hopeless p (gCans g) nb cases) ->
    grow_visit cases depth nb g = Ok (v, g1) -> isCNil (gvSplit v) = false ->
    exists f lc mc rc, get (pData p) (gvFi v) = Ok f /\
      fSplitPoints f (gvSplit v) (gvCases v) = Ok (lc ++ mc ++ rc, length lc, length lc + length mc) /\
      (forall sub, sub = lc \/ sub = mc \/ sub = rc -> PropFeatureSearch.part_of sub cases /\ length sub < length cases) /\
      gvL v = newNode /\ gvR v = newNode /\ gvM v = (if pSplitMissing p then newNode else ModelTree.Nil) /\
      fine N g1 /\ gvConsts v <= L /\ (plain_search p -> constants_hopeless p (gCans g1) (gvConsts v) cases).
  Proof.
    intros HN Hok Hd Hg Hnb Hh. unfold ModelGrow.grow_visit. cbn [dFeat].
    destruct (((depth <? pMaxDepth p) || (pMaxDepth p <=? 0)) && (2 * pLeaf p <=? length cases)) eqn:Can.
    2:{ destruct (Hpred cases Hok) as (s & Es). rewrite Es. cbn [bind]. intros E. injection E as <- <-. discriminate. }
    destruct (search_fits N cases nb g HN Hok Hd Hg Hnb Hh)
      as (b & Eb & Hg1 & Hst & Pc & Hn1 & Hn2 & Hrep & Hhop & Hcode).
    rewrite Eb. cbn [bind]. fold (moved g b).
    destruct (isCNil (bCode b)) eqn:Nil.
    { assert (Ok2 : Forall ok (bCases b)) by (eapply Permutation_Forall; eauto).
      destruct (Hpred (bCases b) Ok2) as (s & Es). rewrite Es. cbn [bind]. intros E. injection E as <- <-. discriminate. }
    assert (Nc : bCode b <> CNil) by (intros E; apply isCNil_spec in E; congruence).
    destruct (Hcode Nc) as (Hdec & Hin & f & Ef & Sf & Cf & Ad1 & Ad2).
    destruct (book_ok A (bFi b) depth (bDec b) (gImp (moved g b)) (gDepth (moved g b))) as (imp & du & Ebk & Hc1 & Hc2).
    { intros l El. pose proof (fi_imp _ _ Hg1 l El) as F. rewrite Forall_forall in F. auto. }
    { intros l El. pose proof (fi_depth _ _ Hg1 l El) as F. rewrite Forall_forall in F. auto. }
    rewrite Ebk. cbn [bind]. rewrite (get_nth _ _ Ef). cbn [bind].
    assert (Hs : exists s, fDecodeSplit f (bCode b) = Ok s).
    { destruct f, (bCode b); cbn in Cf; try contradiction; cbn; eauto. }
    destruct Hs as (spl & Es). rewrite Es. cbn [bind isNil orb]. intros E. injection E as <- <-.
    cbn [gvSplit gvFi gvCases gvD gvL gvR gvM gvConsts]. intros _.
    assert (Sf2 : searchable f (bCases b)) by (eapply searchable_perm; eauto).
    destruct Sf2 as (Sf2 & Sc2 & _).
    destruct (fSplit_ok f (bCode b) (bCases b) Cf Sf2 Sc2) as (cs & ll & lr & r & Esp & _ & [T1 T2 T3 T4 T5] & Ecs & El & Er).
    subst cs ll lr. rewrite T1 in Esp.
    exists f, (srL r), (srM r), (srR r). split; [apply get_nth; auto|]. split; [exact Esp|].
    set (lc := srL r) in *. set (mc := srM r) in *. set (rc := srR r) in *.
    assert (PL : Permutation lc (to_left f (bCode b) cases)).
    { rewrite T3. apply perm_filter. symmetry; auto. }
    assert (PM : Permutation mc (to_missing f cases)).
    { rewrite T4. apply perm_filter. symmetry; auto. }
    assert (PR : Permutation rc (to_right f (bCode b) cases)).
    { rewrite T5. apply perm_filter. symmetry; auto. }
    assert (NL : pLeaf p <= length (to_left f (bCode b) cases)).
    { unfold side, present in Ad1. rewrite filter_filter in Ad1. exact Ad1. }
    assert (NR : pLeaf p <= length (to_right f (bCode b) cases)).
    { unfold other, present in Ad2. rewrite filter_filter in Ad2. exact Ad2. }
    pose proof (three_lengths f (bCode b) cases) as TL.
    pose proof (Permutation_length PL) as LL. pose proof (Permutation_length PR) as LR. pose proof (Permutation_length PM) as LM.
    split.
    { intros sub Hsub. destruct Hsub as [Hs'|[Hs'|Hs']]; subst sub; (split; [|lia]); (eapply part_perm; [eassumption|apply filter_part_of]). }
    do 3 (split; auto). split; [|split; auto].
    destruct Hg1 as [A1 A2 A3 A4 A5 A6 A7 A8]. constructor; cbn; auto.
    - intros l ->. cbn in Hc1. destruct (gImp g) as [l0|] eqn:E0; [|destruct Hc1].
      destruct Hc1 as [Lx _]. rewrite Lx. apply (A7 l0). cbn. auto.
    - intros l ->. cbn in Hc2. destruct (gDepth g) as [l0|] eqn:E0; [|destruct Hc2].
      destruct Hc2 as [Lx _]. rewrite Lx. apply (A8 l0). cbn. auto.
  Qed.

  (** More fuel does not change a result. *)
  Lemma grow_more : forall fuel n cases depth nb g x,
    grow_node fuel p n cases depth nb g = Ok x -> grow_node (S fuel) p n cases depth nb g = Ok x.
  Proof.
    induction fuel as [|fuel IH]; intros n cases depth nb g x E; [discriminate|].
    remember (S fuel) as k. cbn [ModelGrow.grow_node] in *. subst k. destruct n as [|d l r m]; [discriminate|].
    cbn [ModelGrow.grow_node] in E.
    destruct (ModelGrow.grow_visit A St T predict rnd K kCopyFrom kShuffleCases kTarget p d l r m cases depth nb g) as [[v g1]| |]; try discriminate.
    cbn [bind] in *. destruct (isCNil (gvSplit v)); auto.
    destruct (get (pData p) (gvFi v)) as [f| |]; try discriminate. cbn [bind] in *.
    destruct (fSplitPoints f (gvSplit v) (gvCases v)) as [[[cs li] ri]| |]; try discriminate. cbn [bind] in *.
    destruct (slice cs 0 li) as [lc| |]; try discriminate. cbn [bind] in *.
    destruct (grow_node fuel p (gvL v) lc (S depth) (gvConsts v) g1) as [[l' g2]| |] eqn:E1; try discriminate.
    rewrite (IH _ _ _ _ _ _ E1). cbn [bind] in *.
    destruct (slice cs ri (length cs)) as [rc| |]; try discriminate. cbn [bind] in *.
    destruct (grow_node fuel p (gvR v) rc (S depth) (gvConsts v) g2) as [[r' g3]| |] eqn:E2; try discriminate.
    rewrite (IH _ _ _ _ _ _ E2). cbn [bind] in *.
    destruct (negb (li =? ri) && negb (isNil (gvM v))); auto.
    destruct (slice cs li ri) as [mc| |]; try discriminate. cbn [bind] in *.
    destruct (grow_node fuel p (gvM v) mc (S depth) (gvConsts v) g3) as [[m' g4]| |] eqn:E3; try discriminate.
    rewrite (IH _ _ _ _ _ _ E3). auto.
  Qed.
  Lemma grow_enough fuel fuel' n cases depth nb g x : fuel <= fuel' ->
    grow_node fuel p n cases depth nb g = Ok x -> grow_node fuel' p n cases depth nb g = Ok x.
  Proof. induction 1; auto. intros E. apply grow_more; auto. Qed.

  (** [invoked cases0 g0 cases depth nb g]: while the tree of [cases0] grows from the
      state [g0], a node is grown from [cases] at this depth, with [nb] features known
      to be constant, from the state [g]. *)
  Inductive invoked (cases0 : list nat) (g0 : gst) : list nat -> nat -> nat -> gst -> Prop :=
  | inv_root : invoked cases0 g0 cases0 0 0 g0
  | inv_left cases depth nb g v g1 f cs li ri lc :
      invoked cases0 g0 cases depth nb g -> grow_visit cases depth nb g = Ok (v, g1) ->
      isCNil (gvSplit v) = false -> get (pData p) (gvFi v) = Ok f ->
      fSplitPoints f (gvSplit v) (gvCases v) = Ok (cs, li, ri) -> slice cs 0 li = Ok lc ->
      invoked cases0 g0 lc (S depth) (gvConsts v) g1
  | inv_right cases depth nb g v g1 f cs li ri lc rc fuel l' g2 :
      invoked cases0 g0 cases depth nb g -> grow_visit cases depth nb g = Ok (v, g1) ->
      isCNil (gvSplit v) = false -> get (pData p) (gvFi v) = Ok f ->
      fSplitPoints f (gvSplit v) (gvCases v) = Ok (cs, li, ri) -> slice cs 0 li = Ok lc ->
      grow_node fuel p (gvL v) lc (S depth) (gvConsts v) g1 = Ok (l', g2) ->
      slice cs ri (length cs) = Ok rc ->
      invoked cases0 g0 rc (S depth) (gvConsts v) g2
  | inv_missing cases depth nb g v g1 f cs li ri lc rc mc fuel l' g2 r' g3 :
      invoked cases0 g0 cases depth nb g -> grow_visit cases depth nb g = Ok (v, g1) ->
      isCNil (gvSplit v) = false -> get (pData p) (gvFi v) = Ok f ->
      fSplitPoints f (gvSplit v) (gvCases v) = Ok (cs, li, ri) -> slice cs 0 li = Ok lc ->
      grow_node fuel p (gvL v) lc (S depth) (gvConsts v) g1 = Ok (l', g2) ->
      slice cs ri (length cs) = Ok rc ->
      grow_node fuel p (gvR v) rc (S depth) (gvConsts v) g2 = Ok (r', g3) ->
      negb (li =? ri) && negb (isNil (gvM v)) = true -> slice cs li ri = Ok mc ->
      invoked cases0 g0 mc (S depth) (gvConsts v) g3.

  Lemma invoked_fits N cases0 g0 cases depth nb g :
    length cases0 <= N -> Forall ok cases0 -> data_fits cases0 -> fine N g0 ->
    invoked cases0 g0 cases depth nb g ->
    PropFeatureSearch.part_of cases cases0 /\ fine N g /\ nb <= L /\
    (plain_search p -> constants_hopeless p (gCans g) nb cases).
  Proof.
    intros HN Hok Hd Hg H.
    assert (Self : PropFeatureSearch.part_of cases0 cases0) by (exists []; rewrite app_nil_r; auto).
    assert (Sub : forall a b, PropFeatureSearch.part_of a b -> PropFeatureSearch.part_of b cases0 -> PropFeatureSearch.part_of a cases0).
    { intros a b (x & Px) (y & Py). exists (x ++ y). rewrite app_assoc, <- Px. auto. }
    assert (Len : forall a b, PropFeatureSearch.part_of a b -> length a <= length b).
    { intros a b (x & Px). rewrite (Permutation_length Px), app_length. lia. }
    assert (OkP : forall sub, PropFeatureSearch.part_of sub cases0 -> Forall ok sub).
    { intros sub Hsub. rewrite Forall_forall in *. intros c Hc. apply Hok. eapply part_incl; eauto. }
    assert (DfP : forall sub, PropFeatureSearch.part_of sub cases0 -> data_fits sub).
    { intros sub Hsub. eapply data_fits_sub; [eapply part_incl; eauto|auto]. }
    assert (keep : forall nb us (ga gb : gst) sub, step nb us ga gb -> fine N ga -> fine N gb ->
      (plain_search p -> constants_hopeless p (gCans ga) nb sub) ->
      plain_search p -> constants_hopeless p (gCans gb) nb sub).
    { intros n us ga gb sub [S1 _ _] Fa Fb Hc Ps i Hi. apply (Hc Ps i).
      rewrite <- (Permutation_length (fi_cans _ _ Fa)). rewrite <- (Permutation_length (fi_cans _ _ Fb)) in Hi.
      rewrite <- S1. exact Hi. }
    assert (sibling : forall fuel sub d nb' (ga gb : gst) n, PropFeatureSearch.part_of sub cases0 -> fine N ga -> nb' <= L ->
      (plain_search p -> constants_hopeless p (gCans ga) nb' sub) ->
      grow_node fuel p newNode sub d nb' ga = Ok (n, gb) -> exists us, fine N gb /\ step nb' us ga gb).
    { intros fuel sub d nb' ga gb n Hsub Fa Hn Hc E.
      destruct (grow_fresh N (S (length sub)) sub d nb' ga) as (n2 & g2 & us & E2 & _ & F2 & S2); auto.
      { apply Len in Hsub. lia. }
      exists us. assert (Eq : (n2, g2) = (n, gb)).
      { destruct (le_lt_dec fuel (S (length sub))) as [Hl|Hl].
        - pose proof (grow_enough _ _ _ _ _ _ _ _ Hl E). congruence.
        - pose proof (grow_enough _ _ _ _ _ _ _ _ (Nat.lt_le_incl _ _ Hl) E2). congruence. }
      injection Eq as -> ->. auto. }
    induction H as [|cases depth nb g v g1 f cs li ri lc H IH V Nc Ef Es Sl
      |cases depth nb g v g1 f cs li ri lc rc fuel l' g2 H IH V Nc Ef Es Sl Gl Sr
      |cases depth nb g v g1 f cs li ri lc rc mc fuel l' g2 r' g3 H IH V Nc Ef Es Sl Gl Sr Gr Hm Sm].
    - split; auto. split; auto. split; [lia|]. intros _ i Hi.
      rewrite <- (Permutation_length (fi_cans _ _ Hg)), Nat.sub_0_r in Hi.
      rewrite (Permutation_length (fi_cans _ _ Hg)), skipn_all in Hi. destruct Hi.
    - destruct IH as (I1 & I2 & I3 & I4).
      destruct (visit_split N cases depth nb g v g1) as (f' & lc' & mc' & rc' & Ef' & Es' & Pt & EL & ER & EM & Fg & Hc1 & Hc2); auto.
      { apply Len in I1. lia. }
      assert (f' = f) by congruence. subst f'. rewrite Es in Es'. injection Es' as -> -> ->.
      change (lc' ++ mc' ++ rc') with ([] ++ lc' ++ mc' ++ rc') in Sl. rewrite slice_app in Sl by (cbn; lia). injection Sl as <-.
      destruct (Pt lc') as [P1 P2]; auto.
      split; [eapply Sub; eauto|]. split; auto. split; auto. intros Ps. eapply hopeless_kept; eauto.
    - destruct IH as (I1 & I2 & I3 & I4).
      destruct (visit_split N cases depth nb g v g1) as (f' & lc' & mc' & rc' & Ef' & Es' & Pt & EL & ER & EM & Fg & Hc1 & Hc2); auto.
      { apply Len in I1. lia. }
      assert (f' = f) by congruence. subst f'. rewrite Es in Es'. injection Es' as -> -> ->.
      change (lc' ++ mc' ++ rc') with ([] ++ lc' ++ mc' ++ rc') in Sl. rewrite slice_app in Sl by (cbn; lia). injection Sl as <-.
      replace (lc' ++ mc' ++ rc') with ((lc' ++ mc') ++ rc' ++ []) in Sr by (rewrite app_nil_r, app_assoc; auto).
      rewrite slice_app in Sr by (rewrite !app_length; cbn; lia). injection Sr as <-.
      destruct (Pt lc') as [P1 P2]; auto. destruct (Pt rc') as [P3 P4]; auto.
      rewrite EL in Gl. destruct (sibling fuel lc' (S depth) (gvConsts v) g1 g2 l') as (us & F2 & S2); auto.
      { eapply Sub; eauto. }
      { intros Ps. eapply hopeless_kept; eauto. }
      split; [eapply Sub; eauto|]. split; auto. split; auto. eapply keep; eauto. intros Ps. eapply hopeless_kept; eauto.
    - destruct IH as (I1 & I2 & I3 & I4).
      destruct (visit_split N cases depth nb g v g1) as (f' & lc' & mc' & rc' & Ef' & Es' & Pt & EL & ER & EM & Fg & Hc1 & Hc2); auto.
      { apply Len in I1. lia. }
      assert (f' = f) by congruence. subst f'. rewrite Es in Es'. injection Es' as -> -> ->.
      change (lc' ++ mc' ++ rc') with ([] ++ lc' ++ mc' ++ rc') in Sl. rewrite slice_app in Sl by (cbn; lia). injection Sl as <-.
      replace (lc' ++ mc' ++ rc') with ((lc' ++ mc') ++ rc' ++ []) in Sr by (rewrite app_nil_r, app_assoc; auto).
      rewrite slice_app in Sr by (rewrite !app_length; cbn; lia). injection Sr as <-.
      rewrite slice_app in Sm by lia. injection Sm as <-.
      destruct (Pt lc') as [P1 P2]; auto. destruct (Pt rc') as [P3 P4]; auto. destruct (Pt mc') as [P5 P6]; auto.
      rewrite EL in Gl. destruct (sibling fuel lc' (S depth) (gvConsts v) g1 g2 l') as (us & F2 & S2); auto.
      { eapply Sub; eauto. }
      { intros Ps. eapply hopeless_kept; eauto. }
      assert (Hk2 : plain_search p -> constants_hopeless p (gCans g2) (gvConsts v) cases) by (eapply keep; eauto).
      rewrite ER in Gr. destruct (sibling fuel rc' (S depth) (gvConsts v) g2 g3 r') as (us2 & F3 & S3); auto.
      { eapply Sub; eauto. }
      { intros Ps. eapply hopeless_kept; eauto. }
      split; [eapply Sub; eauto|]. split; auto. split; auto. eapply keep; eauto. intros Ps. eapply hopeless_kept; eauto.
  Qed.
End Growing.
