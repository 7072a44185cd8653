(** C131 for the targets with costs, weights or boosting. *)
From Verif Require Import Go GoLemmas F64 F64Order Exact ModelFeature ModelSample ModelImpurity ModelSplit SplitSpec ModelSearch SearchSpec TargetProofs
  ModelTargets ModelTargets2 ModelTargets3 ModelTree TreeSpec ModelGrow OrderProofs OrderSearch OrderlessTargets OrderlessSearch OrderlessGrow PropOrderless SearchProofs PropRows PropByName SearchProofs.
Local Open Scope string_scope.
Local Open Scope nat_scope.
Local Open Scope list_scope.

(** ** Targets that count *)
(** The targets of -cost, -rfweights and -NP, each with its prediction; [name] is
    NumToCat. *)
Inductive counted (tf : catF) (name : nat -> res string) : target F64 cst -> (list nat -> res string) -> Prop :=
| counted_regret costs : counted tf name
    (counting_target F64 (RegretImpurity F64 costs (cData tf)) (UpdateSImp F64 (cData tf) (RegretFromCounts F64 costs)))
    (fun l => bind (RegretPredicted F64 costs (cData tf) (NCats (cMap tf)) l) name)
| counted_np posi alpha kappa : counted tf name
    (counting_target F64 (NPImpurity F64 posi alpha kappa (cData tf)) (UpdateSImp F64 (cData tf) (NPFromCounts F64 posi alpha kappa)))
    (fun l => bind (NPPredicted F64 posi alpha (cData tf) (NCats (cMap tf)) l) name)
| counted_wrf weights : counted tf name
    (counting_target F64 (WRFImpurity F64 weights (cData tf)) (UpdateSImp F64 (cData tf) (WRFFromCounts F64 weights)))
    (fun l => bind (WRFPredicted F64 weights tf l) name).

Lemma counted_orderless tf name T predict : counted tf name T predict ->
  orderless T /\ forall l l' r, Permutation l l' -> predict l = Ok r -> predict l' = Ok r.
Proof.
  intros H. destruct H as [costs|posi alpha kappa|weights]; (split; [apply counting_orderless; [|apply UpdateSImp_perm]|]).
  - intros l l' k r P E. unfold RegretImpurity in *. apply bind_ok in E as (c & E1 & E). rewrite (CountPerCat_perm _ _ _ _ P _ E1). cbn [bind].
    unfold RegretFromCounts in *. rewrite <- (Permutation_length P). exact E.
  - intros l l' k Hl. unfold RegretFromCounts. rewrite Hl. reflexivity.
  - intros l l' r P E. apply bind_ok in E as (i & E1 & E). unfold RegretPredicted in *. apply bind_ok in E1 as (c & E1 & E2).
    rewrite (CountPerCat_perm _ _ _ _ P _ E1). cbn [bind]. rewrite E2. exact E.
  - intros l l' k r P E. unfold NPImpurity in *. apply bind_ok in E as (c & E1 & E). rewrite (CountPerCat_perm _ _ _ _ P _ E1). cbn [bind].
    unfold NPFromCounts in *. rewrite <- (Permutation_length P). exact E.
  - intros l l' k Hl. unfold NPFromCounts. rewrite Hl. reflexivity.
  - intros l l' r P E. apply bind_ok in E as (i & E1 & E). unfold NPPredicted in *. apply bind_ok in E1 as (c & E1 & E2).
    rewrite (CountPerCat_perm _ _ _ _ P _ E1). cbn [bind]. rewrite E2. exact E.
  - intros l l' k r P E. unfold WRFImpurity in *. apply bind_ok in E as (c & E1 & E). rewrite (CountPerCat_perm _ _ _ _ P _ E1). exact E.
  - intros l l' k Hl. reflexivity.
  - intros l l' r P E. apply bind_ok in E as (i & E1 & E). unfold WRFPredicted in *. apply bind_ok in E1 as (c & E1 & E2).
    rewrite (mode_counts_perm _ _ _ P _ E1). cbn [bind]. rewrite E2. exact E.
Qed.

(** In float64 as computed. *)
Theorem C131_costs_and_weights : forall K kCopyFrom kShuffleCases kTarget rnd tf name T predict p cases cases' oob' fuel root g n s,
  counted tf name T predict ->
  pVet p = false -> 1 <= pLeaf p -> Forall (legible cases) (pData p) -> (pEvalOob p = true -> Forall (fun f => Forall (has_case f) (gOob g)) (pData p)) ->
  length cases <= length (aVals (gAl g)) -> length cases <= length (aCat (gAl g)) -> Permutation cases cases' -> Permutation (gOob g) oob' ->
  Grow F64 cst T predict rnd K kCopyFrom kShuffleCases kTarget fuel p root cases g = Ok (n, s) ->
  same_run n s (Grow F64 cst T predict rnd K kCopyFrom kShuffleCases kTarget fuel p root cases' (with_oob g oob')).
Proof.
  intros K kCopyFrom kShuffleCases kTarget rnd tf name T predict p cases cases' oob' fuel root g n s HT Hv Hl Hc Ho L1 L2 P Po E.
  destruct (counted_orderless _ _ _ _ HT) as [H1 H2].
  eapply C131_same_tree with (cases := cases); eauto.
  exact ordered_F64.
Qed.
Print Assumptions C131_costs_and_weights.

(** ** Disutility entropy: the splits count, the prediction adds costs *)
Definition dentropy_target (A : arith) (nlog : A -> A) (costs : list A) (data : list nat) : target A cst :=
  counting_target A (DEntropyImpurity A nlog data) (UpdateSImp A data (DEntropyFromCounts A nlog costs)).
Lemma dentropy_orderless A nlog costs data : orderless (dentropy_target A nlog costs data).
Proof.
  apply counting_orderless; [|apply UpdateSImp_perm].
  - intros l l' k r P E. unfold DEntropyImpurity in *. rewrite <- (Permutation_length P). apply bind_ok in E as (c & E1 & E). rewrite (CountPerCat_perm _ _ _ _ P _ E1). exact E.
  - intros l l' k Hl. unfold DEntropyFromCounts. rewrite Hl. reflexivity.
Qed.
Lemma DEntropyPredicted_perm A tf costs : adds_any_order A -> forall l l' r, Permutation l l' -> DEntropyPredicted A tf costs l = Ok r -> DEntropyPredicted A tf costs l' = Ok r.
Proof.
  intros Hadd l l' r P E. unfold DEntropyPredicted in *. destruct (CatToNum (cMap tf) "True") as [cm t].
  apply bind_ok in E as ([c t0] & E1 & E). rewrite (fun Hb => foreach_perm _ l l' Hb P _ _ E1); [exact E|].
  clear - Hadd. intros a b [c u] [c1 u1] [c2 u2] X1 X2. apply bind_ok in X1 as (x & -> & X1). apply bind_ok in X2 as (y & -> & X2). cbn [bind].
  apply bind_ok in X1 as (v & -> & X1). apply bind_ok in X2 as (w & -> & X2). cbn [bind]. injection X1 as <- <-. injection X2 as <- <-.
  eexists. split; [reflexivity|]. cbn [bind]. do 2 f_equal; [|apply Hadd]. destruct (x =? t), (y =? t); auto.
Qed.
Theorem C131_disutility_exact : forall K kCopyFrom kShuffleCases kTarget rnd tf nlog (costs : list XR) fmt p cases cases' oob' fuel root g n s,
  pVet p = false -> 1 <= pLeaf p -> Forall (legible cases) (pData p) -> (pEvalOob p = true -> Forall (fun f => Forall (has_case f) (gOob g)) (pData p)) ->
  length cases <= length (aVals (gAl g)) -> length cases <= length (aCat (gAl g)) -> Permutation cases cases' -> Permutation (gOob g) oob' ->
  let predict l := rmap (fun x : XR * catF => fmt (fst x)) (DEntropyPredicted XR tf costs l) in
  let T := dentropy_target XR nlog costs (cData tf) in
  Grow XR cst T predict rnd K kCopyFrom kShuffleCases kTarget fuel p root cases g = Ok (n, s) ->
  same_run n s (Grow XR cst T predict rnd K kCopyFrom kShuffleCases kTarget fuel p root cases' (with_oob g oob')).
Proof.
  intros K kCopyFrom kShuffleCases kTarget rnd tf nlog costs fmt p cases cases' oob' fuel root g n s Hv Hl Hc Ho L1 L2 P Po predict T E.
  eapply C131_same_tree with (cases := cases); eauto.
  - exact ordered_XR.
  - exact min_pos_XR.
  - apply dentropy_orderless.
  - intros l l' r Pl Er. unfold predict in *. destruct (DEntropyPredicted XR tf costs l) as [x| |] eqn:Ex; try discriminate.
    rewrite (DEntropyPredicted_perm XR tf costs XR_adds l l' _ Pl Ex). exact Er.
Qed.
Print Assumptions C131_disutility_exact.
(** In float64 the prediction of a leaf depends on the order of its cases. *)
Theorem C131_disutility_refuted : exists tf costs l l' x y,
  Permutation l l' /\ rmap fst (DEntropyPredicted F64 tf costs l) = Ok x /\ rmap fst (DEntropyPredicted F64 tf costs l') = Ok y /\ fltb y x = true.
Proof.
  exists (mkCat (mkCM [("False", 1); ("True", 0)] ["True"; "False"]) [0; 0; 1] (repeat false 3) "C:t" false false), [f1; f_of_Z (2 ^ 53)], [2; 0; 1], [0; 1; 2].
  eexists. eexists. split; [|split; [vm_compute; reflexivity|split; [vm_compute; reflexivity|vm_compute; reflexivity]]].
  apply (Permutation_cons_app [0; 1] [] 2). apply Permutation_refl.
Qed.
Print Assumptions C131_disutility_refuted.

(** ** Adaptive boosting: sums of case weights *)
Section Weights.
  Variable A : arith.
  Hypothesis Hadd : adds_any_order A.
  Variables (data : list nat) (weights : list A).
  Definition from_orderless (from : recount A) : Prop := forall l l' k r, Permutation l l' -> from l k = Ok r -> from l' k = Ok r.
  Lemma UpdateSImp_perm' from : from_orderless from -> forall l l' r r' m m' v v' k x, Permutation l l' -> Permutation r r' -> mperm m m' -> Permutation v v' ->
    UpdateSImp A data from l r m k v = Ok x -> UpdateSImp A data from l' r' m' k v' = Ok x.
  Proof.
    intros Hf l l' r r' m m' v v' k x Pl Pr Pm Pv E. unfold UpdateSImp in *. rewrite <- (len_perm A l l' Pl), <- (len_perm A r r' Pr).
    apply bind_ok in E as ([lc rc] & E1 & E). rewrite (MoveCounts_perm _ _ _ _ _ Pv _ E1). cbn [bind].
    apply bind_ok in E as (il & E2 & E). rewrite (Hf _ _ _ _ Pl E2). cbn [bind]. apply bind_ok in E as (ir & E3 & E). rewrite (Hf _ _ _ _ Pr E3). cbn [bind].
    apply has_m_perm in Pm. destruct (has_m m) as [mm|], (has_m m') as [mm'|]; try contradiction; [|exact E].
    rewrite <- (len_perm A mm mm' Pm). apply bind_ok in E as (im & E4 & E). rewrite (Hf _ _ _ _ Pm E4). exact E.
  Qed.
  Lemma AdaFromCounts_perm : from_orderless (AdaFromCounts A weights data).
  Proof.
    intros l l' k r P. unfold AdaFromCounts. apply foreach_perm; [|exact P]. intros a b s s1 s2 E1 E2.
    apply bind_ok in E1 as (c & Ec & E1). apply bind_ok in E2 as (d & Ed & E2). rewrite Ec, Ed. cbn [bind].
    destruct (c =? count_mode k), (d =? count_mode k); eauto.
    - injection E1 as ->. eauto.
    - injection E2 as ->. exists s. split; [reflexivity|exact E1].
    - apply bind_ok in E1 as (w & Ew & E1). apply bind_ok in E2 as (v & Ev & E2). injection E1 as <-. injection E2 as <-. rewrite Ew, Ev. cbn [bind].
      eexists. split; [reflexivity|]. rewrite Hadd. reflexivity.
  Qed.
  Lemma AdaCostFromCounts_perm costs : from_orderless (AdaCostFromCounts A weights costs data).
  Proof.
    intros l l' k r P. unfold AdaCostFromCounts. apply foreach_perm; [|exact P]. intros a b s s1 s2 E1 E2.
    apply bind_ok in E1 as (c & Ec & E1). apply bind_ok in E2 as (d & Ed & E2). rewrite Ec, Ed. cbn [bind].
    destruct (c =? count_mode k), (d =? count_mode k); eauto.
    - injection E1 as ->. eauto.
    - injection E2 as ->. exists s. split; [reflexivity|exact E1].
    - apply bind_ok in E1 as (w & Ew & E1). apply bind_ok in E2 as (v & Ev & E2). apply bind_ok in E1 as (x & Ex & E1). apply bind_ok in E2 as (y & Ey & E2).
      injection E1 as <-. injection E2 as <-. rewrite Ew, Ev. cbn [bind]. rewrite Ex, Ey. cbn [bind].
      eexists. split; [reflexivity|]. rewrite Hadd. reflexivity.
  Qed.
  Definition ada_target : target A cst := counting_target A (AdaImpurity A weights data) (UpdateSImp A data (AdaFromCounts A weights data)).
  Definition adacost_target (costs : list A) : target A cst :=
    counting_target A (AdaCostImpurity A weights costs data) (UpdateSImp A data (AdaCostFromCounts A weights costs data)).
  Lemma ada_orderless : orderless ada_target.
  Proof.
    apply counting_orderless; [|apply UpdateSImp_perm', AdaFromCounts_perm].
    intros l l' k r P E. unfold AdaImpurity in *. apply bind_ok in E as (c & E1 & E). rewrite (CountPerCat_perm _ _ _ _ P _ E1). cbn [bind].
    apply bind_ok in E as (e & E2 & E). rewrite (AdaFromCounts_perm _ _ _ _ P E2). exact E.
  Qed.
  Lemma adacost_orderless costs : orderless (adacost_target costs).
  Proof.
    apply counting_orderless; [|apply UpdateSImp_perm', AdaCostFromCounts_perm].
    intros l l' k r P E. unfold AdaCostImpurity in *. apply bind_ok in E as (c & E1 & E). rewrite (CountPerCat_perm _ _ _ _ P _ E1). cbn [bind].
    apply bind_ok in E as (e & E2 & E). rewrite (AdaCostFromCounts_perm _ _ _ _ _ P E2). exact E.
  Qed.
End Weights.

Theorem C131_adaptive_boosting_exact : forall K kCopyFrom kShuffleCases kTarget rnd tf (weights costs : list XR) (withcosts : bool) p cases cases' oob' fuel root g n s,
  pVet p = false -> 1 <= pLeaf p -> Forall (legible cases) (pData p) -> (pEvalOob p = true -> Forall (fun f => Forall (has_case f) (gOob g)) (pData p)) ->
  length cases <= length (aVals (gAl g)) -> length cases <= length (aCat (gAl g)) -> Permutation cases cases' -> Permutation (gOob g) oob' ->
  let T := if withcosts then adacost_target XR (cData tf) weights costs else ada_target XR (cData tf) weights in
  Grow XR cst T (cFindPredicted tf) rnd K kCopyFrom kShuffleCases kTarget fuel p root cases g = Ok (n, s) ->
  same_run n s (Grow XR cst T (cFindPredicted tf) rnd K kCopyFrom kShuffleCases kTarget fuel p root cases' (with_oob g oob')).
Proof.
  intros K kCopyFrom kShuffleCases kTarget rnd tf weights costs withcosts p cases cases' oob' fuel root g n s Hv Hl Hc Ho L1 L2 P Po T E.
  eapply C131_same_tree with (cases := cases); eauto.
  - exact ordered_XR.
  - exact min_pos_XR.
  - unfold T. destruct withcosts; [apply adacost_orderless|apply ada_orderless]; exact XR_adds.
  - intros l l' r Pl. apply cFindPredicted_perm. exact Pl.
Qed.
Print Assumptions C131_adaptive_boosting_exact.

(** The hypotheses hold for the columns of C131_ex; here the trees of the three targets have a
    split. *)
Example C131_counted_ex :
  let name i := get (cmBack (cMap ord_t)) i in
  let tree T predict cs oob := is_split (grow_cat F64 cst (fun _ => T) (fun _ => predict) (fun _ => 0) ord_t 5 ord_p newNode cs [0] oob (PropSearch.fresh 8) None None) in
  let both T predict := counted ord_t name T predict /\ tree T predict [0; 1; 2; 2; 3; 4] [5; 4] = Some true /\ tree T predict [2; 4; 0; 3; 1; 2] [4; 5] = Some true in
  (exists T predict, both T predict) /\
  both (counting_target F64 (NPImpurity F64 1 (fdiv f1 (f_of_Z 8)) f2 (cData ord_t)) (UpdateSImp F64 (cData ord_t) (NPFromCounts F64 1 (fdiv f1 (f_of_Z 8)) f2)))
    (fun l => bind (NPPredicted F64 1 (fdiv f1 (f_of_Z 8)) (cData ord_t) (NCats (cMap ord_t)) l) name) /\
  both (counting_target F64 (WRFImpurity F64 [f1; f2] (cData ord_t)) (UpdateSImp F64 (cData ord_t) (WRFFromCounts F64 [f1; f2])))
    (fun l => bind (WRFPredicted F64 [f1; f2] ord_t l) name).
Proof.
  cbv zeta. split; [|split].
  - exists (counting_target F64 (RegretImpurity F64 [f1; f2] (cData ord_t)) (UpdateSImp F64 (cData ord_t) (RegretFromCounts F64 [f1; f2]))).
    exists (fun l => bind (RegretPredicted F64 [f1; f2] (cData ord_t) (NCats (cMap ord_t)) l) (fun i => get (cmBack (cMap ord_t)) i)).
    split; [constructor|]. split; vm_compute; reflexivity.
  - split; [constructor|]. split; vm_compute; reflexivity.
  - split; [constructor|]. split; vm_compute; reflexivity.
Qed.

(** ** Absolute error, adaptive boosting of numbers, ordinal targets: sums in exact arithmetic *)
Lemma plain_orderless (A : arith) (imp : list nat -> res A) : (forall l l' r, Permutation l l' -> imp l = Ok r -> imp l' = Ok r) -> orderless (plain_target A imp).
Proof.
  intros Hi.
  assert (S1 : forall l l' r r' m m' x, Permutation l l' -> Permutation r r' -> mperm m m' -> split_by A imp l r m = Ok x -> split_by A imp l' r' m' = Ok x).
  { intros l l' r r' m m' x Pl Pr Pm E. unfold split_by in *. rewrite <- (len_perm A l l' Pl), <- (len_perm A r r' Pr).
    apply bind_ok in E as (il & E1 & E). rewrite (Hi _ _ _ Pl E1). cbn [bind]. apply bind_ok in E as (ir & E2 & E). rewrite (Hi _ _ _ Pr E2). cbn [bind].
    apply has_m_perm in Pm. destruct (has_m m) as [mm|], (has_m m') as [mm'|]; try contradiction; [|exact E].
    rewrite <- (len_perm A mm mm' Pm). apply bind_ok in E as (im & E3 & E). rewrite (Hi _ _ _ Pm E3). exact E. }
  split; cbn [tImp tSplit tUpdate plain_target].
  - intros l l' s r P E. apply bind_ok in E as (e & E1 & E). rewrite (Hi _ _ _ P E1). exact E.
  - intros l l' r r' m m' s x P1 P2 P3 E. apply bind_ok in E as (e & E1 & E). rewrite (S1 _ _ _ _ _ _ _ P1 P2 P3 E1). exact E.
  - intros l l' r r' m m' v v' s x P1 P2 P3 P4 E. apply bind_ok in E as (e & E1 & E). rewrite (S1 _ _ _ _ _ _ _ P1 P2 P3 E1). exact E.
Qed.
Section Numbers.
  Variable A : arith.
  Hypothesis Hadd : adds_any_order A.
  Variables (nabs : A -> A) (data : list A) (missing : list bool).
  Lemma L1Impurity_perm : forall l l' r, Permutation l l' -> L1Impurity A nabs data missing l = Ok r -> L1Impurity A nabs data missing l' = Ok r.
  Proof.
    intros l l' r P E. unfold L1Impurity in *. apply bind_ok in E as (m & E1 & E). rewrite (NumMean_perm A Hadd _ _ _ _ P _ E1). cbn [bind].
    unfold L1Error in *. apply bind_ok in E as ([e n] & E2 & E). rewrite (fun Hb => foreach_perm _ l l' Hb P _ _ E2); [exact E|].
    clear - Hadd. intros a b [s k] [s1 k1] [s2 k2] E1 E2. apply bind_ok in E1 as (u & -> & E1). apply bind_ok in E2 as (v & -> & E2). cbn [bind].
    destruct u; [|apply bind_ok in E1 as (x & -> & E1); cbn [bind]]; injection E1 as <- <-;
      (destruct v; [|apply bind_ok in E2 as (y & -> & E2); cbn [bind]]); injection E2 as <- <-; (eexists; split; [reflexivity|]); cbn [bind]; try reflexivity.
    do 2 f_equal. apply Hadd.
  Qed.
  Lemma NumAdaImpurity_perm weights : forall l l' r, Permutation l l' -> NumAdaImpurity A nabs data missing weights l = Ok r -> NumAdaImpurity A nabs data missing weights l' = Ok r.
  Proof.
    intros l l' r P E. unfold NumAdaImpurity in *. apply bind_ok in E as (m & E1 & E). rewrite (NumMean_perm A Hadd _ _ _ _ P _ E1). cbn [bind].
    revert E. apply foreach_perm; [|exact P].
    clear - Hadd. intros a b s s1 s2 E1 E2. apply bind_ok in E1 as (u & -> & E1). apply bind_ok in E2 as (v & -> & E2). cbn [bind].
    destruct u; [|apply bind_ok in E1 as (w & -> & E1); cbn [bind]; apply bind_ok in E1 as (x & -> & E1); cbn [bind]]; injection E1 as <-;
      (destruct v; [|apply bind_ok in E2 as (w' & -> & E2); cbn [bind]; apply bind_ok in E2 as (y & -> & E2); cbn [bind]]); injection E2 as <-;
      (eexists; split; [reflexivity|]); cbn [bind]; try reflexivity.
    f_equal. apply Hadd.
  Qed.
  Lemma NumError_perm m : forall l l' r, Permutation l l' -> NumError A data missing l m = Ok r -> NumError A data missing l' m = Ok r.
  Proof.
    intros l l' r P E. unfold NumError in *. apply bind_ok in E as ([e n] & E2 & E). rewrite (fun Hb => foreach_perm _ l l' Hb P _ _ E2); [exact E|].
    clear - Hadd. intros a b [s k] [s1 k1] [s2 k2] E1 E2. apply bind_ok in E1 as (u & -> & E1). apply bind_ok in E2 as (v & -> & E2). cbn [bind].
    destruct u; [|apply bind_ok in E1 as (x & -> & E1); cbn [bind]]; injection E1 as <- <-;
      (destruct v; [|apply bind_ok in E2 as (y & -> & E2); cbn [bind]]); injection E2 as <- <-; (eexists; split; [reflexivity|]); cbn [bind]; try reflexivity.
    do 2 f_equal. apply Hadd.
  Qed.
  Lemma OrdMode_perm toint k : forall l l' r, Permutation l l' -> OrdMode A toint k data missing l = Ok r -> OrdMode A toint k data missing l' = Ok r.
  Proof.
    intros l l' r P E. unfold OrdMode in *. destruct (k <? 0)%Z; [discriminate|]. apply bind_ok in E as (c & E1 & E).
    rewrite (fun Hb => foreach_perm _ l l' Hb P _ _ E1); [exact E|]. clear. intros a b s s1 s2 E1 E2.
    apply bind_ok in E1 as (u & -> & E1). apply bind_ok in E2 as (v & -> & E2). cbn [bind].
    assert (G : forall z (t : list nat), (let* c := getZ t z in set t (Z.to_nat z) (c + 1)) = if (z <? 0)%Z then Panic else bump (fun n => n + 1) t (Z.to_nat z)).
    { intros z t. unfold getZ, bump. destruct (z <? 0)%Z; reflexivity. }
    destruct u; [injection E1 as ->|apply bind_ok in E1 as (x & -> & E1); cbn [bind]];
      (destruct v; [injection E2 as ->|apply bind_ok in E2 as (y & -> & E2); cbn [bind]]); cbn [bind].
    - eauto.
    - eauto.
    - eauto.
    - rewrite G in E1, E2. destruct (toint x <? 0)%Z eqn:Ex; [discriminate|]. destruct (toint y <? 0)%Z eqn:Ey; [discriminate|].
      destruct (bump_swap _ _ _ _ _ _ E1 E2) as (t & T1 & T2). exists t. rewrite !G, Ex, Ey. auto.
  Qed.
End Numbers.

Inductive numeric (data : list XR) (missing : list bool) (fmt : XR -> string) : target XR unit -> (list nat -> res string) -> Prop :=
| numeric_l1 nabs : numeric data missing fmt (plain_target XR (L1Impurity XR nabs data missing)) (fun l => rmap fmt (NumMean XR data missing l))
| numeric_ada nabs weights : numeric data missing fmt (plain_target XR (NumAdaImpurity XR nabs data missing weights)) (fun l => rmap fmt (NumMean XR data missing l))
| numeric_ordinal toint k : numeric data missing fmt (plain_target XR (OrdImpurity XR toint k data missing)) (fun l => rmap fmt (OrdMode XR toint k data missing l)).
Theorem C131_other_numbers_exact : forall K kCopyFrom kShuffleCases kTarget rnd fmt data missing T predict p cases cases' oob' fuel root g n s,
  numeric data missing fmt T predict ->
  pVet p = false -> 1 <= pLeaf p -> Forall (legible cases) (pData p) -> (pEvalOob p = true -> Forall (fun f => Forall (has_case f) (gOob g)) (pData p)) ->
  length cases <= length (aVals (gAl g)) -> length cases <= length (aCat (gAl g)) -> Permutation cases cases' -> Permutation (gOob g) oob' ->
  Grow XR unit T predict rnd K kCopyFrom kShuffleCases kTarget fuel p root cases g = Ok (n, s) ->
  same_run n s (Grow XR unit T predict rnd K kCopyFrom kShuffleCases kTarget fuel p root cases' (with_oob g oob')).
Proof.
  intros K kCopyFrom kShuffleCases kTarget rnd fmt data missing T predict p cases cases' oob' fuel root g n s HT Hv Hl Hc Ho L1 L2 P Po E.
  assert (HM : forall l l' r, Permutation l l' -> rmap fmt (NumMean XR data missing l) = Ok r -> rmap fmt (NumMean XR data missing l') = Ok r).
  { intros l l' r Pl Er. destruct (NumMean XR data missing l) as [m| |] eqn:Em; try discriminate. rewrite (NumMean_perm XR XR_adds data missing l l' Pl _ Em). exact Er. }
  eapply C131_same_tree with (cases := cases); eauto.
  - exact ordered_XR.
  - exact min_pos_XR.
  - destruct HT; apply plain_orderless.
    + apply L1Impurity_perm, XR_adds.
    + apply NumAdaImpurity_perm, XR_adds.
    + intros l l' r Pl Er. unfold OrdImpurity in *. apply bind_ok in Er as (m & E1 & Er). rewrite (OrdMode_perm XR _ _ _ _ _ _ _ Pl E1). cbn [bind].
      revert Er. apply NumError_perm; [exact XR_adds|exact Pl].
  - destruct HT; [exact HM|exact HM|]. intros l l' r Pl Er. destruct (OrdMode XR toint k data missing l) as [m| |] eqn:Em; try discriminate.
    rewrite (OrdMode_perm XR _ _ _ _ _ _ _ Pl Em). exact Er.
Qed.
Print Assumptions C131_other_numbers_exact.
