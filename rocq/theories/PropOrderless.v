(** C131: the order of the cases a tree is grown from. *)
From Verif Require Import Go GoLemmas F64 F64Order F64Round Exact ModelFeature ModelSample ModelImpurity ModelSplit SplitSpec ModelSearch SearchSpec SearchProofs TargetProofs
  ModelTargets ModelTargets2 ModelTree TreeSpec ModelGrow PropByName PropRows OrderProofs OrderSearch OrderlessTargets OrderlessSearch OrderlessGrow.
From Verif Require PropSearch PropCatSearch.
From Coq Require Import SpecFloat.
Local Open Scope string_scope.
Local Open Scope nat_scope.
Local Open Scope list_scope.

(** ** C131.  The claim in full: a tree depends on the cases it is grown from and on how often each
    of them was drawn, not on the order in which they are given; likewise for the out of bag
    cases.  Nodes, thresholds, predictions, importances and the random draws are the same. *)

(** The columns can be read for all the cases, and their numbers are floats as the code can hold
    them, other than NaN. *)
Definition legible (cases : list nat) (f : feature) : Prop :=
  flag_sound f /\ Forall (has_case f) cases /\
  match f with
  | FNum f => forall c, In c cases -> nmissing f c = false -> valid (nvalue f c) /\ is_nan (nvalue f c) = false
  | FCat _ => True
  end.

Lemma legible_ok cases f : legible cases f -> flag_sound f /\ column_ok cases f.
Proof.
  intros (H1 & H2 & H3). split; [exact H1|]. split; [exact H2|]. destruct f as [f|f]; [|exact I].
  assert (G : forall c, In c (filter (known f) cases) -> c < length (nData f) /\ valid (nvalue f c) /\ is_nan (nvalue f c) = false).
  { intros c Hc. apply filter_In in Hc as [Hc Hk]. rewrite Forall_forall in H2. split; [apply (H2 c Hc)|]. apply H3; [exact Hc|].
    unfold nmissing. destruct (nth c (nMissing f) false) eqn:E; [|reflexivity]. unfold known in Hk. rewrite E, andb_true_r in Hk.
    specialize (H1 c). cbn in H1. unfold nmissing in H1. rewrite (H1 E) in Hk. discriminate. }
  split.
  - rewrite Forall_forall. intros c Hc. destruct (G c Hc) as (L & V & Nn). split; [exact L|]. exact Nn.
  - intros c Hc. destruct (G c Hc) as (L & V & Nn). apply fadd_up; [exact V|reflexivity|exact I|vm_compute; discriminate|exact Nn].
Qed.

(** What a run of Grow returns. *)
Definition same_run {A St K} (n : node) (s : gstate A St K) (r : res (node * gstate A St K)) : Prop :=
  exists s', r = Ok (n, s') /\ gCans s = gCans s' /\ gImp s = gImp s' /\ gDepth s = gDepth s' /\ aDraw (gAl s) = aDraw (gAl s').
Definition with_oob {A St K} (g : gstate A St K) (oob : list nat) : gstate A St K :=
  mkG A St K (gCans g) oob (gAl g) (gK g) (gImp g) (gDepth g).

(** For any arithmetic, target and prediction that do not depend on the order. *)
Theorem C131_same_tree : forall A St T predict rnd K kCopyFrom kShuffleCases kTarget p cases cases' oob' fuel root g n s,
  ordered A -> nltb A (minImp A) (nofZ A 0) = false ->
  orderless T -> (forall l l' r, Permutation l l' -> predict l = Ok r -> predict l' = Ok r) ->
  pVet p = false -> 1 <= pLeaf p ->
  Forall (legible cases) (pData p) -> (pEvalOob p = true -> Forall (fun f => Forall (has_case f) (gOob g)) (pData p)) ->
  length cases <= length (aVals (gAl g)) -> length cases <= length (aCat (gAl g)) ->
  Permutation cases cases' -> Permutation (gOob g) oob' ->
  Grow A St T predict rnd K kCopyFrom kShuffleCases kTarget fuel p root cases g = Ok (n, s) ->
  same_run n s (Grow A St T predict rnd K kCopyFrom kShuffleCases kTarget fuel p root cases' (with_oob g oob')).
Proof.
  intros A St T predict rnd K kCopyFrom kShuffleCases kTarget p cases cases' oob' fuel root g n s Hord Hmin HT Hpr Hv Hl Hc Ho L1 L2 P Po E.
  assert (Hc' : Forall (fun f => flag_sound f /\ column_ok cases f) (pData p)) by (eapply Forall_impl; [|exact Hc]; intros f; apply legible_ok).
  destruct (grow_same A St T predict rnd K kCopyFrom kShuffleCases kTarget p (length cases) cases (gOob g) Hord Hmin HT Hpr Hv Hl Hc' Ho fuel root
    cases cases' 0 0 g (with_oob g oob') (incl_refl _) (le_n _) P) with (a := (n, s)) as ([n' s'] & E' & En & G1 & _ & _ & Ga & _ & Gi & Gd).
  - unfold gsame, alsame, with_oob. cbn. repeat (split; auto).
  - exact E.
  - cbn [fst snd] in *. subst n'. exists s'. repeat (split; auto). apply Ga.
Qed.
Print Assumptions C131_same_tree.

Lemma min_pos_F64 : nltb F64 (minImp F64) (nofZ F64 0) = false.
Proof. reflexivity. Qed.
Lemma min_pos_XR : nltb XR (minImp XR) (nofZ XR 0) = false.
Proof.
  unfold minImp. cbn [XR nltb ndiv nofZ]. rewrite xdiv_some by (apply not_0_IZR; lia). cbn. apply Rltb_false.
  apply Rlt_le. apply Rdiv_lt_0_compat; apply IZR_lt; lia.
Qed.

(** The code's own arithmetic: Gini impurity, entropy and the Hellinger distance count cases. *)
Theorem C131_classification : forall rnd tf p cases cases' oob oob' fuel root cans al imp du n s (F : list nat -> target F64 cst),
  F = gini_target F64 \/ (exists nlog, F = entropy_target F64 nlog) ->
  pVet p = false -> 1 <= pLeaf p -> Forall (legible cases) (pData p) -> (pEvalOob p = true -> Forall (fun f => Forall (has_case f) oob) (pData p)) ->
  length cases <= length (aVals al) -> length cases <= length (aCat al) -> Permutation cases cases' -> Permutation oob oob' ->
  grow_cat F64 cst F cFindPredicted rnd tf fuel p root cases cans oob al imp du = Ok (n, s) ->
  same_run n s (grow_cat F64 cst F cFindPredicted rnd tf fuel p root cases' cans oob' al imp du).
Proof.
  intros rnd tf p cases cases' oob oob' fuel root cans al imp du n s F HF Hv Hl Hc Ho L1 L2 P Po E. unfold grow_cat in *.
  assert (HT : orderless (F (cData tf))) by (destruct HF as [->|[nlog ->]]; [apply gini_orderless|apply entropy_orderless]).
  refine (C131_same_tree F64 cst (F (cData tf)) (cFindPredicted tf) rnd catF _ _ _ p cases cases' oob' fuel root _ n s ordered_F64 min_pos_F64 HT _ Hv Hl Hc _ _ _ P _ E); auto.
  intros l l' r Pl. apply cFindPredicted_perm. exact Pl.
Qed.
Print Assumptions C131_classification.
Theorem C131_hellinger : forall K kCopyFrom kShuffleCases kTarget rnd tf pos fmt p cases cases' oob' fuel root g n s,
  pVet p = false -> 1 <= pLeaf p -> Forall (legible cases) (pData p) -> (pEvalOob p = true -> Forall (fun f => Forall (has_case f) (gOob g)) (pData p)) ->
  length cases <= length (aVals (gAl g)) -> length cases <= length (aCat (gAl g)) -> Permutation cases cases' -> Permutation (gOob g) oob' ->
  let predict l := rmap (fun xm : f64 * catmap => fmt (fst xm)) (HDistPredicted F64 tf pos l) in
  Grow F64 counters (hdist_target F64 (cData tf)) predict rnd K kCopyFrom kShuffleCases kTarget fuel p root cases g = Ok (n, s) ->
  same_run n s (Grow F64 counters (hdist_target F64 (cData tf)) predict rnd K kCopyFrom kShuffleCases kTarget fuel p root cases' (with_oob g oob')).
Proof.
  intros. eapply C131_same_tree with (cases := cases); eauto.
  - exact ordered_F64.
  - apply hdist_orderless.
  - intros l l' r Pl E. unfold predict in *. destruct (HDistPredicted F64 tf pos l) as [xm| |] eqn:Ex; try discriminate.
    assert (E' : HDistPredicted F64 tf pos l' = Ok xm); [|rewrite E'; exact E].
    unfold HDistPredicted in *. destruct (CatToNum (cMap tf) pos) as [cm t]. rewrite <- (len_perm F64 l l' Pl).
    apply bind_ok in Ex as (c & E1 & Ex). rewrite (fun Hb => foreach_perm _ l l' Hb Pl _ _ E1); [exact Ex|].
    intros a b u u1 u2 X1 X2. apply bind_ok in X1 as (x & -> & X1). apply bind_ok in X2 as (y & -> & X2). cbn [bind].
    injection X1 as <-. injection X2 as <-. eexists. split; [reflexivity|]. f_equal. destruct (x =? t), (y =? t); lia.
Qed.
Print Assumptions C131_hellinger.

(** Sums do not depend on the order when they are exact: squared error and gradient boosting. *)
Lemma exact_same : forall St (T : target XR St) K kCopyFrom kShuffleCases kTarget rnd fmt data missing p cases cases' oob' fuel root g n s,
  orderless T ->
  pVet p = false -> 1 <= pLeaf p -> Forall (legible cases) (pData p) -> (pEvalOob p = true -> Forall (fun f => Forall (has_case f) (gOob g)) (pData p)) ->
  length cases <= length (aVals (gAl g)) -> length cases <= length (aCat (gAl g)) -> Permutation cases cases' -> Permutation (gOob g) oob' ->
  let predict l := rmap fmt (NumMean XR data missing l) in
  Grow XR St T predict rnd K kCopyFrom kShuffleCases kTarget fuel p root cases g = Ok (n, s) ->
  same_run n s (Grow XR St T predict rnd K kCopyFrom kShuffleCases kTarget fuel p root cases' (with_oob g oob')).
Proof.
  intros St T K kCopyFrom kShuffleCases kTarget rnd fmt data missing p cases cases' oob' fuel root g n s HT Hv Hl Hc Ho L1 L2 P Po predict E.
  eapply C131_same_tree with (cases := cases); eauto.
  - exact ordered_XR.
  - exact min_pos_XR.
  - intros l l' r Pl Er. unfold predict in *. destruct (NumMean XR data missing l) as [m| |] eqn:Em; try discriminate.
    rewrite (NumMean_perm XR XR_adds data missing l l' Pl _ Em). exact Er.
Qed.
Theorem C131_squared_error_exact : forall K kCopyFrom kShuffleCases kTarget rnd fmt data missing p cases cases' oob' fuel root g n s,
  pVet p = false -> 1 <= pLeaf p -> Forall (legible cases) (pData p) -> (pEvalOob p = true -> Forall (fun f => Forall (has_case f) (gOob g)) (pData p)) ->
  length cases <= length (aVals (gAl g)) -> length cases <= length (aCat (gAl g)) -> Permutation cases cases' -> Permutation (gOob g) oob' ->
  let grow cs g := Grow XR (sums XR) (num_target XR data) (fun l => rmap fmt (NumMean XR data missing l)) rnd K kCopyFrom kShuffleCases kTarget fuel p root cs g in
  grow cases g = Ok (n, s) -> same_run n s (grow cases' (with_oob g oob')).
Proof. intros. eapply exact_same with (cases := cases); eauto. apply num_orderless. exact XR_adds. Qed.
Print Assumptions C131_squared_error_exact.
Theorem C131_gradient_exact : forall K kCopyFrom kShuffleCases kTarget rnd fmt data missing p cases cases' oob' fuel root g n s,
  pVet p = false -> 1 <= pLeaf p -> Forall (legible cases) (pData p) -> (pEvalOob p = true -> Forall (fun f => Forall (has_case f) (gOob g)) (pData p)) ->
  length cases <= length (aVals (gAl g)) -> length cases <= length (aCat (gAl g)) -> Permutation cases cases' -> Permutation (gOob g) oob' ->
  let grow cs g := Grow XR (XR * XR) (grad_target XR data) (fun l => rmap fmt (NumMean XR data missing l)) rnd K kCopyFrom kShuffleCases kTarget fuel p root cs g in
  grow cases g = Ok (n, s) -> same_run n s (grow cases' (with_oob g oob')).
Proof. intros. eapply exact_same with (cases := cases); eauto. apply grad_orderless. exact XR_adds. Qed.
Print Assumptions C131_gradient_exact.

(** ** What fails: regression in float64.  The sums over the cases of a node depend on their
    order; here the same three cases give a leaf or a split. *)
Definition noisy_t : numF := PropSearch.plain (map f_of_Z [800000002; 800000009; 800000009]%Z).
Definition noisy_p : params := mkP [FNum (PropSearch.plain (map f_of_Z [0; 1; 2]%Z))] 1 1 false false false false 0 false.
Definition noisy_al : allocs (sums F64) := mkAl (repeat f0 3) (repeat 0%Z 3) (@mkSums F64 f0 f0 f0 f0 f0 f0) 0.
Theorem C131_regression_refuted :
  exists tf p cases cases' al,
    pVet p = false /\ pEvalOob p = false /\ pLeaf p = 1 /\ Forall (legible cases) (pData p) /\ Permutation cases cases' /\
    length cases <= length (aVals al) /\ length cases <= length (aCat al) /\
    forall fmtF rnd,
      let tree cs := is_split (grow_num F64 (sums F64) (num_target F64) (predict_mean fmtF) rnd tf 5 p newNode cs [0] [] al None None) in
      tree cases = Some false /\ tree cases' = Some true.
Proof.
  exists noisy_t, noisy_p, [0; 1; 2], [1; 2; 0], noisy_al.
  refine (conj eq_refl (conj eq_refl (conj eq_refl (conj _ (conj _ (conj _ (conj _ _))))))).
  - constructor; [|constructor]. refine (conj _ (conj _ _)).
    + intros c. cbn. unfold nmissing. cbn. do 4 (destruct c; [discriminate|]). discriminate.
    + repeat constructor.
    + intros c Hc _. cbn in Hc. repeat (destruct Hc as [<-|Hc]; [split; reflexivity|]). destruct Hc.
  - apply (Permutation_cons_append [1; 2] 0).
  - cbn. lia.
  - cbn. lia.
  - intros fmtF rnd. split; vm_compute; reflexivity.
Qed.
Print Assumptions C131_regression_refuted.

(** ** What fails: -vet.  The contrast target is shuffled along the list of cases, so with the
    same random draws another order gives another contrast. *)
Definition vetted_p : params := mkP [FNum (PropSearch.plain (map f_of_Z [0; 0; 0; 1; 1]%Z))] 1 1 false true false false 0 false.
Definition vetted_t : catF := PropCatSearch.cats ["x"; "y"] [0; 0; 1; 1; 1] false.
Theorem C131_vet_refuted :
  exists tf p cases cases' al,
    pVet p = true /\ pEvalOob p = false /\ pLeaf p = 1 /\ Forall (legible cases) (pData p) /\ Permutation cases cases' /\
    length cases <= length (aVals al) /\ length cases <= length (aCat al) /\
    let tree cs := is_split (grow_cat F64 cst (gini_target F64) cFindPredicted (fun _ => 1) tf 5 p newNode cs [0] [] al None None) in
    tree cases = Some true /\ tree cases' = Some false.
Proof.
  exists vetted_t, vetted_p, [0; 1; 2; 3; 4], [2; 0; 1; 3; 4], (PropSearch.fresh 6).
  refine (conj eq_refl (conj eq_refl (conj eq_refl (conj _ (conj _ (conj _ (conj _ _))))))).
  - constructor; [|constructor]. refine (conj _ (conj _ _)).
    + intros c. cbn. unfold nmissing. cbn. do 6 (destruct c; [discriminate|]). discriminate.
    + repeat constructor.
    + intros c Hc _. cbn in Hc. repeat (destruct Hc as [<-|Hc]; [split; reflexivity|]). destruct Hc.
  - symmetry. apply (Permutation_middle [0; 1] [3; 4] 2).
  - cbn. lia.
  - cbn. lia.
  - split; vm_compute; reflexivity.
Qed.
Print Assumptions C131_vet_refuted.

(** A case that meets the hypotheses: a numerical column with a tie and a missing value, a
    categorical one, cases drawn twice, out of bag evaluation; the tree has a split. *)
Definition ord_col : numF := mkNum (map f_of_Z [1; 7; 3; 3; 2; 0]%Z) [false; true; false; false; false; false] "N:x" true.
Definition ord_t : catF := PropCatSearch.cats ["x"; "y"] [0; 0; 1; 1; 1; 0] false.
Definition ord_p : params := mkP [FNum ord_col; FCat ord_t] 1 1 false false true false 0 true.
Example C131_ex :
  Forall (legible [0; 1; 2; 2; 3; 4]) (pData ord_p) /\ Forall (fun f => Forall (has_case f) [5; 4]) (pData ord_p) /\
  Permutation [0; 1; 2; 2; 3; 4] [2; 4; 0; 3; 1; 2] /\
  let tree cs oob := is_split (grow_cat F64 cst (gini_target F64) cFindPredicted (fun _ => 0) ord_t 5 ord_p newNode cs [0] oob (PropSearch.fresh 8) None None) in
  tree [0; 1; 2; 2; 3; 4] [5; 4] = Some true /\ tree [2; 4; 0; 3; 1; 2] [4; 5] = Some true.
Proof.
  refine (conj _ (conj _ (conj _ _))).
  - constructor; [|constructor; [|constructor]]; (refine (conj _ (conj _ _))).
    + intros c _. reflexivity.
    + repeat constructor.
    + intros c Hc Hm. cbn in Hc. repeat (destruct Hc as [<-|Hc]; [first [split; reflexivity|discriminate]|]). destruct Hc.
    + intros c. cbn. unfold cmissing. cbn. do 7 (destruct c; [discriminate|]). discriminate.
    + repeat constructor.
    + exact I.
  - repeat constructor.
  - symmetry.
    change [2; 4; 0; 3; 1; 2] with ([2; 4] ++ 0 :: [3; 1; 2]). apply Permutation_sym, Permutation_cons_app. cbn.
    change [2; 4; 3; 1; 2] with ([2; 4; 3] ++ 1 :: [2]). apply Permutation_cons_app. cbn.
    apply perm_skip. change [4; 3; 2] with ([4; 3] ++ 2 :: []). apply Permutation_cons_app. cbn. apply perm_swap.
  - split; vm_compute; reflexivity.
Qed.
