(** C29, C30: the search over the cuts of a numerical feature. *)
From Verif Require Import Go GoLemmas F64 F64Order ModelFeature ModelSplit SplitSpec SplitProofs
  F64Round ModelSearch SearchSpec SearchProofs ModelTargets TargetProofs ModelImpurity.
Local Open Scope nat_scope.
Local Open Scope list_scope.

Section Cuts.
  Variable f : numF.
  Variables cases cs : list nat.
  Hypothesis P : Permutation cases cs.
  Hypothesis Hnn : forall c, In c cases -> nn (nvalue f c).
  Hypothesis Hs : forall i j, i <= j -> j < length cs ->
    fleb (nvalue f (nth i cs 0)) (nvalue f (nth j cs 0)) = true.

  Lemma nth_in_cases i : i < length cs -> In (nth i cs 0) cases.
  Proof. intros. eapply Permutation_in; [symmetry; exact P|]. apply nth_In; auto. Qed.

  Lemma upto_closed x i j : i <= j -> j < length cs ->
    upto f x (nth j cs 0) = true -> upto f x (nth i cs 0) = true.
  Proof. intros. unfold upto in *. eapply fle_trans; [apply Hs|]; eauto. Qed.

  (** A threshold cuts the sorted list at the number of cases below it. *)
  Lemma cut_prefix x :
    let p := length (side (upto f x) cases) in
    Permutation (side (upto f x) cases) (firstn p cs) /\
    Permutation (other (upto f x) cases) (skipn p cs) /\
    length (other (upto f x) cases) = length cases - p /\ p <= length cases.
  Proof.
    intros p. unfold side, other in *.
    pose proof (filter_prefix (upto f x) cs (upto_closed x)) as [F1 F2].
    assert (Q1 : Permutation (filter (upto f x) cases) (filter (upto f x) cs)) by (apply Permutation_filter; auto).
    assert (Q2 : Permutation (filter (fun c => negb (upto f x c)) cases) (filter (fun c => negb (upto f x c)) cs))
      by (apply Permutation_filter; auto).
    assert (Ep : length (filter (upto f x) cs) = p) by (symmetry; apply Permutation_length; auto).
    rewrite Ep in F1, F2. rewrite F1 in Q1. rewrite F2 in Q2. split; auto. split; auto.
    rewrite (Permutation_length Q2), skipn_length, (Permutation_length P). split; auto.
    unfold p. rewrite (Permutation_length Q1), firstn_length. lia.
  Qed.

  Lemma cut_far x p j : wide_cut f cases x -> p = length (side (upto f x) cases) -> p < length cs -> j < p ->
    near f cs j p = false.
  Proof.
    intros Ha Ep Hp Hj.
    pose proof (filter_prefix (upto f x) cs (upto_closed x)) as [F1 F2].
    assert (Ep' : length (filter (upto f x) cs) = p).
    { rewrite Ep. symmetry. apply Permutation_length. apply Permutation_filter; auto. }
    rewrite Ep' in F1, F2.
    assert (B1 : upto f x (nth j cs 0) = true).
    { assert (In (nth j cs 0) (filter (upto f x) cs)).
      { rewrite F1. rewrite <- (firstn_skipn p cs) at 1. rewrite app_nth1 by (rewrite firstn_length; lia).
        apply nth_In. rewrite firstn_length. lia. }
      apply filter_In in H. tauto. }
    assert (B2 : upto f x (nth p cs 0) = false).
    { assert (In (nth p cs 0) (filter (fun c => negb (upto f x c)) cs)).
      { rewrite F2. rewrite <- (firstn_skipn p cs) at 1. rewrite app_nth2 by (rewrite firstn_length; lia).
        rewrite firstn_length, Nat.min_l, Nat.sub_diag by lia.
        apply nth_In. rewrite skipn_length. lia. }
      apply filter_In in H. destruct H as [_ H]. destruct (upto f x (nth p cs 0)); auto. }
    assert (L : fltb (fadd (nvalue f (nth j cs 0)) f1e_7) (nvalue f (nth p cs 0)) = true).
    { apply Ha; apply filter_In; (split; [apply nth_in_cases; lia|]); auto. rewrite B2. reflexivity. }
    unfold near. clear - L. ford.
  Qed.

  (** What the scan remembers is realised by its threshold. *)
  Lemma jump_cut q p x : apart f cases -> midpoints f cases -> tolerance_up f cases ->
    p < length cs -> jump f cs q p ->
    x = fdiv (fadd (nvalue f (nth q cs 0)) (nvalue f (nth p cs 0))) f2 ->
    Permutation (side (upto f x) cases) (firstn p cs) /\
    Permutation (other (upto f x) cases) (skipn p cs).
  Proof.
    intros Ha Hm Ht Hp (Hq & Hf & Hb) Ex.
    assert (Iq : In (nth q cs 0) cases) by (apply nth_in_cases; lia).
    assert (Ip : In (nth p cs 0) cases) by (apply nth_in_cases; lia).
    assert (L : fltb (nvalue f (nth q cs 0)) (nvalue f (nth p cs 0)) = true).
    { pose proof (Ht _ Iq). pose proof (Hnn _ Iq). pose proof (Hnn _ Ip). unfold near in Hf.
      clear - H H0 H1 Hf. ford. }
    destruct (Hm _ _ Iq Ip L) as [M1 M2]. rewrite <- Ex in M1, M2.
    destruct (filter_at (upto f x) cs p) as [F1 F2]; [lia| | |].
    - intros i Hi. apply (upto_closed x i (p - 1)); try lia.
      unfold upto. destruct (Nat.eq_dec (p - 1) q) as [->|]; auto.
      assert (Nb : near f cs q (p - 1) = true) by (apply Hb; lia).
      assert (I1 : In (nth (p - 1) cs 0) cases) by (apply nth_in_cases; lia).
      assert (Le : fleb (nvalue f (nth (p - 1) cs 0)) (nvalue f (nth q cs 0)) = true).
      { destruct (fltb (nvalue f (nth q cs 0)) (nvalue f (nth (p - 1) cs 0))) eqn:E.
        - apply Ha in E; auto. unfold near in Nb. clear - E Nb. exfalso. ford.
        - apply flt_not_le; auto. }
      eapply fle_trans; eauto.
    - intros i Hi. pose proof (Hs p i ltac:(lia) ltac:(lia)). unfold upto. clear - M2 H. ford.
    - unfold side, other. rewrite <- F1, <- F2. split; apply Permutation_filter; auto.
  Qed.
End Cuts.

(** C29, the part that holds: without randomisation the reported decrease is not
    below that of any wide cut leaving at least [leaf] cases on the left and MORE
    than [leaf] cases on the right.  The property asks for "at least [leaf]" on the
    right as well; see [C29_exhaustive_refuted].  Cuts through values less than
    1e-7 apart are passed over by design (the code's constant_cutoff). *)
Theorem C29_exhaustive_partial :
  forall (A : arith) (St : Type) (T : target A St) ok imp cost ready holds,
  honest T ok imp cost ready holds -> ordered A ->
  forall rnd f cases parent leaf al,
  1 <= leaf -> Forall ok cases -> ready (aTgt al) -> length cases <= length (aVals al) ->
  Forall (fun c => c < length (nData f) /\ nn (nvalue f c)) cases ->
  exists r, BestNumSplit A St T rnd f cases parent leaf false al = Ok r /\
    nltb A (fDec r) (least A) = false /\
    forall x, wide_cut f cases x ->
      leaf <= length (side (upto f x) cases) -> leaf < length (other (upto f x) cases) ->
      nltb A (fDec r) (gain A parent cost (side (upto f x) cases) (other (upto f x) cases)) = false.
Proof.
  intros A St T ok imp cost ready holds Hon Hord rnd f cases parent leaf al Hleaf Hok Hr Hl Hv.
  destruct (BestNumSplit_ok A St T ok imp cost ready holds Hon Hord rnd f cases parent leaf false al)
    as (r & E & _ & _ & _ & _ & Out); auto.
  exists r. split; auto.
  assert (Hnn : forall c, In c cases -> nn (nvalue f c)).
  { intros c Hc. rewrite Forall_forall in Hv. apply Hv; auto. }
  assert (Hsum : forall x, length (side (upto f x) cases) + length (other (upto f x) cases) = length cases).
  { intros x. unfold side, other. clear. induction cases as [|c l IH]; cbn; auto.
    destruct (upto f x c); cbn; lia. }
  destruct Out as [(Hn & _ & -> & _)|[(Hn & _ & -> & _ & c & Hc & Hmin & d & Hd & Hmax & Hcd)
                  |(Hn & _ & cs & lo & stop & x0 & P & Hs & _ & _ & Hrs & _ & _ & Hge & Hall)]].
  - split; [apply (proj1 Hord)|]. intros x Ha H1 H2. specialize (Hsum x). lia.
  - split; [apply (proj1 Hord)|]. intros x Ha H1 H2. exfalso.
    (* every case is within the tolerance of the smallest *)
    destruct (side (upto f x) cases) as [|a la] eqn:EL; [cbn in H1; lia|].
    destruct (other (upto f x) cases) as [|b lb] eqn:ER; [cbn in H2; lia|].
    assert (Ia : In a (side (upto f x) cases)) by (rewrite EL; cbn; auto).
    assert (Ib : In b (other (upto f x) cases)) by (rewrite ER; cbn; auto).
    apply filter_In in Ia as [Ia Ua].
    assert (Ic : In c (side (upto f x) cases)).
    { apply filter_In. split; auto. unfold upto in *. eapply fle_trans; eauto. }
    assert (Ib' : In b cases) by (apply filter_In in Ib; tauto).
    pose proof (Ha c b Ic Ib) as L. pose proof (Hmax b Ib'). clear - L H Hcd. ford.
  - split; auto. intros x Ha H1 H2. destruct (Hrs eq_refl) as [-> ->].
    destruct (cut_prefix f cases cs P Hs x) as (Q1 & Q2 & Q3 & Q4).
    rewrite (gain_perm A St T ok imp cost ready holds parent _ _ _ _ Hon Q1 Q2).
    rewrite Q3 in H2. pose proof (Permutation_length P).
    apply Hall; [lia|]. intros j _ Hj.
    eapply cut_far; eauto. lia.
Qed.

(** When a split better than the least decrease is reported, the returned
    threshold really produces a split with that decrease, and both sides have at
    least [leaf] cases (with and without randomisation). *)
Lemma applied_is_evaluated :
  forall (A : arith) (St : Type) (T : target A St) ok imp cost ready holds,
  honest T ok imp cost ready holds -> ordered A ->
  forall rnd f cases parent leaf rs al,
  1 <= leaf -> Forall ok cases -> ready (aTgt al) -> length cases <= length (aVals al) ->
  Forall (fun c => c < length (nData f) /\ nn (nvalue f c)) cases ->
  apart f cases -> midpoints f cases -> tolerance_up f cases ->
  exists r, BestNumSplit A St T rnd f cases parent leaf rs al = Ok r /\
    Permutation cases (fCases r) /\
    (nltb A (least A) (fDec r) = true ->
     exists x, fCode r = CNum x /\
       fDec r = gain A parent cost (side (upto f x) cases) (other (upto f x) cases) /\
       leaf <= length (side (upto f x) cases) /\ leaf <= length (other (upto f x) cases)) /\
    (nltb A (least A) (fDec r) = false -> fDec r = least A).
Proof.
  intros A St T ok imp cost ready holds Hon Hord rnd f cases parent leaf rs al Hleaf Hok Hr Hl Hv Ha Hm Ht.
  destruct (BestNumSplit_ok A St T ok imp cost ready holds Hon Hord rnd f cases parent leaf rs al)
    as (r & E & Pc & _ & _ & _ & Out); auto.
  exists r. split; auto. split; auto.
  assert (Hnn : forall c, In c cases -> nn (nvalue f c)).
  { intros c Hc. rewrite Forall_forall in Hv. apply Hv; auto. }
  pose proof (proj1 Hord) as Irr.
  destruct Out as [(Hn & _ & -> & _)|[(Hn & _ & -> & _)
                  |(Hn & _ & cs & lo & stop & x & P & Hs & Hlo & Hst & _ & Ec & Hb & Hge & Hall)]].
  - rewrite Irr. split; [discriminate|auto].
  - rewrite Irr. split; [discriminate|auto].
  - destruct Hb as [[-> _]|(q & p & Hq & Hp & Hj & Ed & Hlt & Ex)].
    + rewrite Irr. split; [discriminate|auto].
    + split; [|congruence]. intros _. exists x. split; auto.
      pose proof (Permutation_length P) as PL.
      destruct (jump_cut f cases cs P Hnn Hs q p x Ha Hm Ht) as [J1 J2]; auto; [lia|].
      rewrite Ed. split.
      { symmetry. eapply gain_perm; eauto. }
      rewrite (Permutation_length J1), (Permutation_length J2), firstn_length, skipn_length. lia.
Qed.

(** C30: when a split better than the least decrease is reported, the returned
    threshold really produces a split with that decrease, and both sides have at
    least [leaf] cases (with and without randomisation).  It holds for values of
    magnitude at most 2^29 that differ by more than 1e-7 or not at all; it fails
    already just above 2^30, see [C30_rounding_refuted]. *)
Theorem C30_applied_is_evaluated_partial :
  forall (A : arith) (St : Type) (T : target A St) ok imp cost ready holds,
  honest T ok imp cost ready holds -> ordered A ->
  forall rnd f cases parent leaf rs al,
  1 <= leaf -> Forall ok cases -> ready (aTgt al) -> length cases <= length (aVals al) ->
  Forall (fun c => c < length (nData f) /\ valid (nvalue f c) /\ moderate (nvalue f c)) cases ->
  apart f cases ->
  exists r, BestNumSplit A St T rnd f cases parent leaf rs al = Ok r /\
    Permutation cases (fCases r) /\
    (nltb A (least A) (fDec r) = true ->
     exists x, fCode r = CNum x /\
       fDec r = gain A parent cost (side (upto f x) cases) (other (upto f x) cases) /\
       leaf <= length (side (upto f x) cases) /\ leaf <= length (other (upto f x) cases)) /\
    (nltb A (least A) (fDec r) = false -> fDec r = least A).
Proof.
  intros A St T ok imp cost ready holds Hon Hord rnd f cases parent leaf rs al Hleaf Hok Hr Hl Hv Ha.
  rewrite Forall_forall in Hv.
  assert (Hnn : forall c, In c cases -> nn (nvalue f c)).
  { intros c Hc. destruct (Hv c Hc) as (_ & V & M). destruct (moderate_key _ V M) as [F _].
    destruct (nvalue f c); try reflexivity; destruct F. }
  eapply applied_is_evaluated; eauto.
  - apply Forall_forall. intros c Hc. split; [apply Hv; auto|auto].
  - intros c d Hc Hd L. apply midpoint_separates; try (apply Hv; auto). apply Ha; auto.
  - intros c Hc. apply fadd_up; [apply Hv; auto|reflexivity|exact I|vm_compute; discriminate|apply Hnn; auto].
Qed.

(** A numerical feature without missing values and fresh allocations for it and
    for a two-class target. *)
Definition plain (vs : list f64) : numF := mkNum vs (map (fun _ => false) vs) EmptyString false.
Definition fresh (n : nat) : allocs cst :=
  mkAl (repeat f0 n) (repeat 0%Z n) (repeat 0%Z 2, mkK (repeat 0%Z 2) (repeat 0%Z 2) (repeat 0%Z 2)) 0.
Definition run_gini (classes : list nat) (vs : list f64) (parent : f64) (leaf : nat) : res (found F64 cst) :=
  BestNumSplit F64 cst (gini_target F64 classes) (fun _ => 0) (plain vs) (seq 0 (length vs)) parent leaf false
    (fresh (length vs)).
(** The decrease that was reported, and the threshold. *)
Definition reported (r : res (found F64 cst)) : f64 := match r with Ok r => fDec r | _ => S754_nan end.
Definition threshold (r : res (found F64 cst)) : f64 :=
  match r with Ok r => match fCode r with CNum x => x | _ => S754_nan end | _ => S754_nan end.
Definition real_gain (classes : list nat) (vs : list f64) (parent x : f64) : f64 :=
  gain F64 parent (gini_cost F64 classes 2) (side (upto (plain vs) x) (seq 0 (length vs)))
    (other (upto (plain vs) x) (seq 0 (length vs))).
Definition lsize (vs : list f64) (x : f64) : nat := length (side (upto (plain vs) x) (seq 0 (length vs))).
Definition rsize (vs : list f64) (x : f64) : nat := length (other (upto (plain vs) x) (seq 0 (length vs))).

(** The cut that leaves exactly [leaf] cases on the right is never looked at: with
    values 0, 0, 1 and classes a, a, b the perfect split at 0 is missed. *)
Theorem C29_exhaustive_refuted :
  ~ (forall classes vs parent leaf,
       1 <= leaf -> length classes = length vs -> (forall v, In v vs -> nn v) -> apart (plain vs) (seq 0 (length vs)) ->
       forall x, leaf <= lsize vs x -> leaf <= rsize vs x ->
       fltb (reported (run_gini classes vs parent leaf)) (real_gain classes vs parent x) = false).
Proof.
  intros H.
  assert (B : fltb (reported (run_gini [0; 0; 1] [f0; f0; f1] f1 1)) (real_gain [0; 0; 1] [f0; f0; f1] f1 f0) = true)
    by (vm_compute; reflexivity).
  rewrite H in B; [discriminate|..]; auto; try (vm_compute; lia).
  - intros v [<-|[<-|[<-|[]]]]; reflexivity.
  - intros c d [<-|[<-|[<-|[]]]] [<-|[<-|[<-|[]]]]; vm_compute; congruence.
Qed.

(** Without its hypotheses C30 fails in float64, for three different reasons.

    Near ties: values 0, 0.9e-7 and 1.1e-7.  The second is skipped because it is too
    near the first, the third is evaluated as the right side, but the threshold is
    the middle of the first and the third and sends the second to the right. *)
Definition near_ties : list f64 :=
  [f0; f0; fdiv (f_of_Z 9) (f_of_Z 100000000); fdiv (f_of_Z 11) (f_of_Z 100000000); fdiv (f_of_Z 11) (f_of_Z 100000000)].
(** Rounding: the middle of 2^30+2^-22 and 2^30+2^-21 is rounded to the latter. *)
Definition adjacent : list f64 :=
  map (fun k => fdiv (f_of_Z (2 ^ 52 + k)) (f_of_Z (2 ^ 22))) [1; 1; 2; 2]%Z.
(** Overflow: 1e308 + 1.5e308 is +Inf. *)
Definition huge : list f64 :=
  [f_of_Z (10 ^ 308); f_of_Z (10 ^ 308); f_of_Z (15 * 10 ^ 307); f_of_Z (15 * 10 ^ 307)].

Definition applies (classes : list nat) (vs : list f64) (parent : f64) (leaf : nat) : Prop :=
  let r := run_gini classes vs parent leaf in
  fltb (least F64) (reported r) = true ->
  reported r = real_gain classes vs parent (threshold r) /\
  leaf <= lsize vs (threshold r) /\ leaf <= rsize vs (threshold r).

Theorem C30_near_ties_refuted :
  ~ (forall classes vs parent leaf, 1 <= leaf -> length classes = length vs -> (forall v, In v vs -> nn v) ->
       midpoints (plain vs) (seq 0 (length vs)) -> applies classes vs parent leaf).
Proof.
  intros H. specialize (H [0; 0; 0; 1; 1] near_ties f1 1).
  destruct H as (H & _); [lia|reflexivity| | |vm_compute; reflexivity|].
  - intros v [<-|[<-|[<-|[<-|[<-|[]]]]]]; reflexivity.
  - intros c d [<-|[<-|[<-|[<-|[<-|[]]]]]] [<-|[<-|[<-|[<-|[<-|[]]]]]]; vm_compute; auto; discriminate.
  - vm_compute in H. discriminate.
Qed.

Theorem C30_rounding_refuted :
  ~ (forall classes vs parent leaf, 1 <= leaf -> length classes = length vs -> (forall v, In v vs -> nn v) ->
       apart (plain vs) (seq 0 (length vs)) -> (forall v, In v vs -> fltb (fabs v) (f_of_Z (2 ^ 30 + 1)) = true) ->
       applies classes vs parent leaf).
Proof.
  intros H. specialize (H [0; 0; 1; 1] adjacent f1 1).
  destruct H as (_ & _ & H); [lia|reflexivity| | | |vm_compute; reflexivity|].
  - intros v [<-|[<-|[<-|[<-|[]]]]]; reflexivity.
  - intros c d [<-|[<-|[<-|[<-|[]]]]] [<-|[<-|[<-|[<-|[]]]]]; vm_compute; auto; discriminate.
  - intros v [<-|[<-|[<-|[<-|[]]]]]; vm_compute; reflexivity.
  - vm_compute in H. lia.
Qed.

(** Far apart values do not help either: the sum overflows. *)
Theorem C30_overflow_refuted :
  ~ (forall classes vs parent leaf, 1 <= leaf -> length classes = length vs -> (forall v, In v vs -> nn v) ->
       apart (plain vs) (seq 0 (length vs)) ->
       (forall v w, In v vs -> In w vs -> fltb v w = true -> fltb (fadd v f1) w = true) ->
       applies classes vs parent leaf).
Proof.
  intros H. specialize (H [0; 0; 1; 1] huge f1 1).
  destruct H as (_ & _ & H); [lia|reflexivity| | | |vm_compute; reflexivity|].
  - intros v [<-|[<-|[<-|[<-|[]]]]]; reflexivity.
  - intros c d [<-|[<-|[<-|[<-|[]]]]] [<-|[<-|[<-|[<-|[]]]]]; vm_compute; auto; discriminate.
  - intros c d [<-|[<-|[<-|[<-|[]]]]] [<-|[<-|[<-|[<-|[]]]]]; vm_compute; auto; discriminate.
  - vm_compute in H. lia.
Qed.

(** A case meeting the hypotheses of both theorems: values 1, 2, 3, 4, 5 with
    classes a, a, b, b, b; the split at 2.5 is found and it is worth 0.48. *)
Definition five : list f64 := map f_of_Z [3; 1; 4; 2; 5]%Z.
Definition five_classes : list nat := [1; 0; 1; 0; 1].
Example ex_five_hyps :
  apart (plain five) (seq 0 5) /\ wide_cut (plain five) (seq 0 5) (fdiv (f_of_Z 5) f2) /\
  Forall (fun c => c < length (nData (plain five)) /\ valid (nvalue (plain five) c) /\ moderate (nvalue (plain five) c))
    (seq 0 5) /\
  Forall (in_data five_classes 2) (seq 0 5) /\ cst_ready 2 (aTgt (fresh 5)).
Proof.
  split; [|split; [|split; [|split]]].
  - intros c d [<-|[<-|[<-|[<-|[<-|[]]]]]] [<-|[<-|[<-|[<-|[<-|[]]]]]]; vm_compute; auto; discriminate.
  - intros c d Hc Hd. unfold side, other in *. apply filter_In in Hc as [Hc Hx]. apply filter_In in Hd as [Hd Hy].
    revert Hx Hy. revert Hc Hd.
    intros [<-|[<-|[<-|[<-|[<-|[]]]]]] [<-|[<-|[<-|[<-|[<-|[]]]]]]; vm_compute; auto; discriminate.
  - repeat constructor; vm_compute; auto; lia.
  - repeat constructor; vm_compute; auto; lia.
  - repeat split.
Qed.
Example ex_five_found :
  let parent := gini_val F64 five_classes 2 (seq 0 5) in
  threshold (run_gini five_classes five parent 2) = fdiv (f_of_Z 5) f2 /\
  reported (run_gini five_classes five parent 2) = parent /\
  lsize five (fdiv (f_of_Z 5) f2) = 2 /\ rsize five (fdiv (f_of_Z 5) f2) = 3.
Proof. vm_compute. repeat split. Qed.

Print Assumptions C29_exhaustive_partial.
Print Assumptions C29_exhaustive_refuted.
Print Assumptions C30_applied_is_evaluated_partial.
Print Assumptions C30_near_ties_refuted.
Print Assumptions C30_rounding_refuted.
Print Assumptions C30_overflow_refuted.
