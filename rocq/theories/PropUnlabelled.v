(** C117: cases without a target value (densenumfeature.go, densecatfeature.go, forrest.go). *)
From Verif Require Import Go GoLemmas F64 Exact ModelFeature ModelSample SampleProofs ModelImpurity ModelTargets2
  ImpuritySpec ImpurityProofs PropImpurity PropImpurity3 PropTargets2.
Local Open Scope nat_scope.
Local Open Scope list_scope.

(** A leaf for numbers predicts the mean of the known values of its cases (NaN if there are
    none), whatever is stored for the other cases. *)
Theorem C117_leaf_predicts_the_mean : forall xs ms cases, within xs ms cases ->
  NumMean XR (numeric xs) ms cases = Ok (match kvals xs ms cases with [] => None | vs => Some (mean vs) end) /\
  forall xs', length xs' = length xs -> (forall i, In i (known ms cases) -> nth i xs' 0%R = nth i xs 0%R) ->
    NumMean XR (numeric xs') ms cases = NumMean XR (numeric xs) ms cases.
Proof.
  intros xs ms cases Hw. split.
  - rewrite num_mean_value by exact Hw. unfold kvals, values. destruct (known ms cases); reflexivity.
  - intros xs' Hl Hs. rewrite !num_mean_value; [|exact Hw|unfold within in *; rewrite Hl; exact Hw].
    do 2 f_equal. replace (kvals xs' ms cases) with (kvals xs ms cases); [reflexivity|].
    unfold kvals, values. apply map_ext_in. intros i Hi. symmetry. apply Hs. exact Hi.
Qed.
Print Assumptions C117_leaf_predicts_the_mean.

Lemma square_shift (c m : R) vs : Rsum (map (fun v => (c - v) * (c - v))%R vs) =
  (Rsum (map (fun v => (m - v) * (m - v)) vs) + INR (length vs) * ((c - m) * (c - m)) + 2 * (c - m) * (INR (length vs) * m - Rsum vs))%R.
Proof.
  induction vs as [|v vs IH]; [cbn; ring|]. cbn [map Rsum length]. rewrite IH, S_INR. ring.
Qed.

(** That prediction has the smallest mean squared error over the known cases, and with all
    the values known this error is the impurity per case. *)
Theorem C117_leaf_least_squares : forall xs ms cases, within xs ms cases -> known ms cases <> [] ->
  exists e, NumError XR (numeric xs) ms cases (Some (mean (kvals xs ms cases))) = Ok (Some e) /\
    (forall c, exists e', NumError XR (numeric xs) ms cases (Some c) = Ok (Some e') /\ (e <= e')%R) /\
    (known ms cases = cases -> NumImpurity XR (numeric xs) cases = Ok (Some (INR (length cases) * e)%R)).
Proof.
  intros xs ms cases Hw Hk. rewrite num_error_value by assumption. eexists. split; [reflexivity|].
  assert (Hp : (0 < INR (length (kvals xs ms cases)))%R).
  { unfold kvals. rewrite values_length. exact (len_pos _ Hk). }
  split.
  - intros c. rewrite num_error_value by assumption. eexists. split; [reflexivity|]. unfold sqdev.
    rewrite (square_shift c (mean (kvals xs ms cases))). set (vs := kvals xs ms cases) in *.
    assert (Z : (INR (length vs) * mean vs - Rsum vs = 0)%R) by (unfold mean; field; lra).
    rewrite Z. unfold Rdiv. apply Rmult_le_compat_r; [left; apply Rinv_0_lt_compat; exact Hp|].
    assert (0 <= INR (length vs) * ((c - mean vs) * (c - mean vs)))%R by (apply Rmult_le_pos; [lra|apply Rle_0_sqr]). lra.
  - intros E. rewrite num_impurity_value.
    + do 2 f_equal. unfold kvals in *. rewrite E in *. unfold sse, sqdev. rewrite values_length in *.
      rewrite (map_ext (fun v => (v - mean (values xs cases)) * (v - mean (values xs cases)))%R (fun v => (mean (values xs cases) - v) * (mean (values xs cases) - v))%R) by (intros; ring).
      field. lra.
    + unfold inside. eapply Forall_impl; [|exact Hw]. cbn. tauto.
    + intros X. rewrite X in E. congruence.
Qed.
Print Assumptions C117_leaf_least_squares.

(** The impurity does not ask for the mask: a missing value counts as the stored number,
    which is 0.  A node whose known values are all the same is then impure. *)
Theorem C117_missing_numbers_count_refuted : forall xs ms cases i, within xs ms cases ->
  In i cases -> nth i ms true = true -> nth i xs 0%R = 0%R ->
  known ms cases <> [] -> (forall j, In j (known ms cases) -> nth j xs 0%R <> 0%R) ->
  exists v, NumImpurity XR (numeric xs) cases = Ok (Some v) /\ (0 < v)%R /\
    forall c, (forall j, In j (known ms cases) -> nth j xs 0%R = c) ->
      NumError XR (numeric xs) ms cases (Some (mean (kvals xs ms cases))) = Ok (Some 0%R).
Proof.
  intros xs ms cases i Hw Hi Hm Hx Hk Hn.
  assert (Hne : cases <> []) by (intros ->; destruct Hi).
  assert (Hin : inside xs cases) by (eapply Forall_impl; [|exact Hw]; cbn; tauto).
  destruct (C44_squared_deviation_properties xs cases Hin Hne) as (v & E & _ & H0 & H1 & _).
  exists v. split; [exact E|]. split.
  - destruct H0 as [H0|H0]; [exact H0|]. symmetry in H0. apply H1 in H0. exfalso.
    destruct (known ms cases) as [|j l] eqn:Ek; [congruence|].
    assert (Hj : In j cases). { assert (X : In j (known ms cases)) by (rewrite Ek; left; reflexivity). unfold known in X. apply filter_In in X. apply X. }
    apply (Hn j); [left; reflexivity|]. transitivity (nth i xs 0%R); [|exact Hx]. apply H0; unfold values; apply in_map_iff; [exists j|exists i]; auto.
  - intros c Hc. rewrite num_error_value by assumption. do 2 f_equal. unfold sqdev.
    assert (Hs : forall vs, vs <> [] -> (forall v, In v vs -> v = c) -> Rsum (map (fun v => (mean vs - v) * (mean vs - v))%R vs) = 0%R).
    { intros vs Hv Hall. assert (Em : mean vs = c).
      { unfold mean. assert (Es : Rsum vs = (INR (length vs) * c)%R).
        { clear Hv. induction vs as [|a vs IH]; [cbn; ring|]. cbn [Rsum length]. rewrite IH by (intros; apply Hall; right; assumption). rewrite S_INR, (Hall a) by (left; reflexivity). ring. }
        rewrite Es. field. apply not_0_INR. destruct vs; [congruence|discriminate]. }
      rewrite Em. clear Em Hv. induction vs as [|a vs IH]; [reflexivity|]. cbn [map Rsum]. rewrite IH by (intros; apply Hall; right; assumption).
      rewrite (Hall a) by (left; reflexivity). ring. }
    rewrite Hs; [unfold Rdiv; ring| |].
    + unfold kvals, values. intros X. apply map_eq_nil in X. contradiction.
    + intros a Ha. unfold kvals, values in Ha. apply in_map_iff in Ha as (j & <- & Hj). apply Hc. exact Hj.
Qed.
Print Assumptions C117_missing_numbers_count_refuted.

(** The same with labels: a case without a label counts as a case of the first category. *)
Theorem C117_missing_labels_count_refuted : forall data ms k cases i, labelled data k cases ->
  In i cases -> nth i ms true = true -> nth i data 0 = 0 ->
  known ms cases <> [] -> (forall j, In j (known ms cases) -> nth j data 0 <> 0) ->
  exists v, Gini XR data k cases = Ok (Some v) /\ (0 < v)%R.
Proof.
  intros data ms k cases i Hl Hi Hm Hx Hk Hn.
  assert (Hne : cases <> []) by (intros ->; destruct Hi).
  destruct (C43_gini_range_purity_order data k cases Hl Hne) as (v & E & [H0 _] & H1 & _).
  exists v. split; [exact E|]. destruct H0 as [H0|H0]; [exact H0|]. symmetry in H0. apply H1 in H0. exfalso.
  destruct (known ms cases) as [|j l] eqn:Ek; [congruence|].
  assert (Hj : In j cases). { assert (X : In j (known ms cases)) by (rewrite Ek; left; reflexivity). unfold known in X. apply filter_In in X. apply X. }
  apply (Hn j); [left; reflexivity|]. transitivity (nth i data 0); [|exact Hx]. apply H0; unfold labels; apply in_map_iff; [exists j|exists i]; auto.
Qed.
Print Assumptions C117_missing_labels_count_refuted.

(** The command draws only cases with a target value (C14); the library's GrowRandomForest
    (forrest.go:47-52) draws from all the cases, so a tree can even be grown on nothing but
    cases without a target value. *)
Theorem C117_unlabelled_cases_drawn_refuted : forall n total c, c < total ->
  exists rnd, SampleWithReplacment rnd n total = Ok (repeat c n).
Proof.
  intros n total c Hc. exists (fun _ => c).
  destruct (SampleWithReplacment_ok (fun _ => c) n total ltac:(lia)) as (cs & E & ->). rewrite E. f_equal.
  rewrite Nat.mod_small by exact Hc. clear E. generalize 0 as s. induction n; intros s; cbn; [reflexivity|]. now rewrite IHn.
Qed.
Print Assumptions C117_unlabelled_cases_drawn_refuted.

(** Three cases with target 5, 5 and missing (stored as 0). *)
Example C117_example :
  within [5; 5; 0]%R [false; false; true] [0; 1; 2] /\ known [false; false; true] [0; 1; 2] = [0; 1] /\
  NumMean XR (numeric [5; 5; 0]%R) [false; false; true] [0; 1; 2] = Ok (Some 5%R) /\
  exists v, NumImpurity XR (numeric [5; 5; 0]%R) [0; 1; 2] = Ok (Some v) /\ (0 < v)%R.
Proof.
  assert (Hw : within [5; 5; 0]%R [false; false; true] [0; 1; 2]) by (unfold within; repeat constructor).
  split; [exact Hw|]. split; [reflexivity|]. split.
  - destruct (C117_leaf_predicts_the_mean _ _ _ Hw) as [-> _]. cbn. unfold mean. cbn. do 2 f_equal. field.
  - destruct (C117_missing_numbers_count_refuted _ _ _ 2 Hw) as (v & E & H & _); cbn; auto; try discriminate.
    + intros j [<-|[<-|[]]]; cbn; lra.
    + exists v. auto.
Qed.

(** A leaf with the values 1, 3 and a missing one: error 1 at the mean 2, 2 at the value 3. *)
Example C117_least_squares_example :
  within [1; 3; 0]%R [false; false; true] [0; 1; 2] /\ known [false; false; true] [0; 1; 2] <> [] /\
  NumError XR (numeric [1; 3; 0]%R) [false; false; true] [0; 1; 2] (Some 2%R) = Ok (Some 1%R) /\
  NumError XR (numeric [1; 3; 0]%R) [false; false; true] [0; 1; 2] (Some 3%R) = Ok (Some 2%R).
Proof.
  assert (Hw : within [1; 3; 0]%R [false; false; true] [0; 1; 2]) by (unfold within; repeat constructor).
  split; [exact Hw|]. split; [discriminate|].
  rewrite !num_error_value by (assumption || discriminate). unfold sqdev, kvals, values. cbn. split; do 2 f_equal; field.
Qed.
