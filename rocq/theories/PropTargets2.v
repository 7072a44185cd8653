(** C92: absolute error regression (l1target.go).  C93: ordinal regression
    (ordinaltarget.go).  C94: boosting of numerical targets (numadaboostingtarget.go).
    C95: Hellinger distance trees (hdistancetarget.go). *)
From Verif Require Import Go GoLemmas F64 Exact ModelFeature ModelImpurity ModelSearch ModelTargets
  ImpuritySpec ImpurityProofs PropImpurity PropImpurity3 PropBoost PropAda ModelTargets2.
Local Open Scope nat_scope.
Local Open Scope list_scope.

(** ** Exact readings of the known cases *)

(** math.Abs on the reals *)
Definition xabs (x : XR) : XR := match x with Some r => Some (Rabs r) | None => None end.

(** The values of the cases that are not missing. *)
Definition kvals (xs : list R) (ms : list bool) (cases : list nat) : list R := values xs (known ms cases).
(** Both columns of the feature reach all the cases. *)
Definition within (xs : list R) (ms : list bool) (cases : list nat) : Prop :=
  Forall (fun i => i < length xs /\ i < length ms) cases.

Lemma known_cons ms i cases : known ms (i :: cases) = if nth i ms true then known ms cases else i :: known ms cases.
Proof. unfold known. cbn [filter]. destruct (nth i ms true); reflexivity. Qed.

Lemma known_loop xs ms (body : nat -> xr * nat -> res (xr * nat)) (g : R -> R) :
  (forall i e n, i < length xs -> i < length ms ->
     body i (Some e, n) = Ok (if nth i ms true then (Some e, n) else (Some (e + g (nth i xs 0))%R, n + 1))) ->
  forall cases e n, within xs ms cases ->
  foreach cases body (Some e, n)
  = Ok (Some (e + Rsum (map g (kvals xs ms cases)))%R, n + length (known ms cases)).
Proof.
  intros Hb. induction cases as [|i cases IH]; intros e n Hw.
  - cbn. rewrite Nat.add_0_r. do 3 f_equal. lra.
  - inversion Hw as [|? ? [W1 W2] W3]; subst. cbn [foreach]. rewrite Hb by assumption. unfold kvals. rewrite known_cons.
    destruct (nth i ms true); cbn [bind]; rewrite IH by assumption; [reflexivity|].
    unfold kvals. cbn [values map Rsum length]. f_equal. f_equal; [f_equal; unfold values; lra|lia].
Qed.

Lemma num_mean_value xs ms cases : within xs ms cases ->
  NumMean XR (numeric xs) ms cases = Ok (if length (known ms cases) =? 0 then None else Some (mean (kvals xs ms cases))).
Proof.
  intros Hw. unfold NumMean.
  match goal with |- context [foreach cases ?b ?i] =>
    assert (E : foreach cases b i = Ok (Some (0 + Rsum (map (fun v => v) (kvals xs ms cases)))%R, 0 + length (known ms cases)))
  end.
  { apply (known_loop xs ms); [|assumption]. intros i e n H1 H2. rewrite (get_lt ms i true) by assumption. cbn [bind].
    destruct (nth i ms true); [reflexivity|]. rewrite numeric_get by assumption. reflexivity. }
  rewrite E. cbn [bind]. rewrite map_id. cbn [plus]. unfold num. cbn [ndiv nofZ XR].
  destruct (length (known ms cases) =? 0) eqn:Z0.
  - apply Nat.eqb_eq in Z0. rewrite Z0. cbn [Z.of_nat]. unfold xdiv. destruct (Req_EM_T 0 0); [reflexivity|contradiction].
  - apply Nat.eqb_neq in Z0. rewrite IZR_of_nat, xdiv_some by (apply not_0_INR; assumption). unfold mean, kvals. rewrite values_length.
    do 3 f_equal. lra.
Qed.

(** ** C92 *)

(** Mean absolute distance of the values from [c]. *)
Definition absdev (c : R) (vs : list R) : R := (Rsum (map (fun v => Rabs (c - v)) vs) / INR (length vs))%R.
(** Mean absolute deviation from the mean. *)
Definition mad (vs : list R) : R := absdev (mean vs) vs.

Lemma l1_error_value xs ms cases c : within xs ms cases -> known ms cases <> [] ->
  L1Error XR xabs (numeric xs) ms cases (Some c) = Ok (Some (absdev c (kvals xs ms cases))).
Proof.
  intros Hw Hk. pose proof (len_pos _ Hk) as Hp. unfold L1Error.
  match goal with |- context [foreach cases ?b ?i] =>
    assert (E : foreach cases b i = Ok (Some (0 + Rsum (map (fun v => Rabs (c - v)) (kvals xs ms cases)))%R, 0 + length (known ms cases)))
  end.
  { apply (known_loop xs ms); [|assumption]. intros i e n H1 H2. rewrite (get_lt ms i true) by assumption. cbn [bind].
    destruct (nth i ms true); [reflexivity|]. rewrite numeric_get by assumption. reflexivity. }
  rewrite E. cbn [bind plus]. unfold num. cbn [ndiv nofZ XR]. rewrite IZR_of_nat, xdiv_some by lra.
  unfold absdev, kvals. rewrite values_length. do 3 f_equal. lra.
Qed.

Lemma l1_impurity_value xs ms cases : within xs ms cases -> known ms cases <> [] ->
  L1Impurity XR xabs (numeric xs) ms cases = Ok (Some (mad (kvals xs ms cases))).
Proof.
  intros Hw Hk. unfold L1Impurity. rewrite num_mean_value by assumption.
  destruct (length (known ms cases) =? 0) eqn:Z0; [apply Nat.eqb_eq in Z0; destruct (known ms cases); [congruence|discriminate]|].
  cbn [bind]. apply l1_error_value; assumption.
Qed.

Lemma Rsum_abs_nonneg {T} (f : T -> R) l : (0 <= Rsum (map (fun v => Rabs (f v)) l))%R.
Proof. induction l as [|a l IH]; cbn; [lra|]. pose proof (Rabs_pos (f a)). lra. Qed.
Lemma Rsum_abs_zero {T} (f : T -> R) l : Rsum (map (fun v => Rabs (f v)) l) = 0%R -> forall v, In v l -> f v = 0%R.
Proof.
  induction l as [|a l IH]; intros H v Hv; [contradiction|]. cbn in H. pose proof (Rabs_pos (f a)). pose proof (Rsum_abs_nonneg f l).
  destruct Hv as [->|Hv]; [|apply IH; [lra|assumption]].
  destruct (Req_dec (f v) 0) as [E|E]; [assumption|]. pose proof (Rabs_pos_lt _ E). lra.
Qed.
Lemma absdev_nonneg c vs : vs <> [] -> (0 <= absdev c vs)%R.
Proof.
  intros H. pose proof (len_pos vs H). unfold absdev. apply Rmult_le_pos; [apply Rsum_abs_nonneg|].
  left. apply Rinv_0_lt_compat. assumption.
Qed.
Lemma mean_constant vs : vs <> [] -> constant_list vs -> forall v, In v vs -> mean vs = v.
Proof.
  intros H Hc v Hv. pose proof (len_pos vs H). unfold mean.
  assert (E : Rsum vs = (INR (length vs) * v)%R).
  { assert (G : forall l, (forall a, In a l -> a = v) -> Rsum l = (INR (length l) * v)%R).
    { induction l as [|a l IH]; intros Ha; [cbn; lra|]. cbn [Rsum length]. rewrite S_INR, IH by (intros; apply Ha; right; assumption).
      rewrite (Ha a) by (left; reflexivity). lra. }
    apply G. intros a Ha. apply Hc; assumption. }
  rewrite E. field. lra.
Qed.
Lemma mad_zero vs : vs <> [] -> (mad vs = 0%R <-> constant_list vs).
Proof.
  intros H. pose proof (len_pos vs H) as Hp. unfold mad, absdev. split.
  - intros E a b Ha Hb.
    assert (E' : Rsum (map (fun v => Rabs (mean vs - v)) vs) = 0%R).
    { apply (Rmult_eq_reg_r (/ INR (length vs))); [lra|]. apply Rinv_neq_0_compat. lra. }
    pose proof (Rsum_abs_zero _ _ E' a Ha). pose proof (Rsum_abs_zero _ _ E' b Hb). lra.
  - intros Hc. rewrite (Rsum_ext _ (fun _ => 0%R)).
    + assert (Z : forall l : list R, Rsum (map (fun _ => 0%R) l) = 0%R) by (induction l as [|a l IH]; cbn; [reflexivity|rewrite IH; lra]).
      rewrite Z. lra.
    + intros v Hv. rewrite (mean_constant vs H Hc v Hv). unfold Rminus. rewrite Rplus_opp_r. apply Rabs_R0.
Qed.
Lemma absdev_perm c vs vs' : Permutation vs vs' -> absdev c vs = absdev c vs'.
Proof.
  intros P. unfold absdev. rewrite (Permutation_length P). f_equal. apply Rsum_perm, Permutation_map, P.
Qed.
Lemma mad_perm vs vs' : Permutation vs vs' -> mad vs = mad vs'.
Proof.
  intros P. unfold mad. assert (E : mean vs = mean vs') by (unfold mean; rewrite (Permutation_length P), (Rsum_perm _ _ P); reflexivity).
  rewrite E. apply absdev_perm, P.
Qed.
Lemma kvals_perm xs ms cases cases' : Permutation cases cases' -> Permutation (kvals xs ms cases) (kvals xs ms cases').
Proof.
  intros P. unfold kvals, values. apply Permutation_map. unfold known. induction P; cbn [filter].
  - constructor.
  - destruct (negb _); [constructor|]; assumption.
  - destruct (negb _), (negb _); try constructor; try apply Permutation_refl.
  - etransitivity; eassumption.
Qed.
Lemma kvals_nonnil xs ms cases : known ms cases <> [] -> kvals xs ms cases <> [].
Proof. apply values_nonnil. Qed.

(** The impurity of a node is the mean absolute deviation of its known values, it is zero
    for a constant node only, and the order of the cases does not matter. *)
Theorem C92_absolute_deviation : forall xs ms cases, within xs ms cases -> known ms cases <> [] ->
  exists v, L1Impurity XR xabs (numeric xs) ms cases = Ok (Some v)
    /\ v = mad (kvals xs ms cases)
    /\ (0 <= v)%R
    /\ (v = 0%R <-> constant_list (kvals xs ms cases))
    /\ (forall cases', Permutation cases cases' -> L1Impurity XR xabs (numeric xs) ms cases' = Ok (Some v)).
Proof.
  intros xs ms cases Hw Hk. eexists. split; [apply l1_impurity_value; assumption|]. split; [reflexivity|].
  pose proof (kvals_nonnil xs ms cases Hk) as Hv.
  split; [apply absdev_nonneg; assumption|]. split; [apply mad_zero; assumption|].
  intros cases' P. rewrite l1_impurity_value.
  - rewrite (mad_perm _ _ (kvals_perm xs ms _ _ P)). reflexivity.
  - eapply Permutation_Forall; eassumption.
  - intros E. apply Hv. pose proof (kvals_perm xs ms _ _ P) as P'. unfold kvals in *. rewrite E in P'. cbn in P'.
    apply Permutation_nil, Permutation_sym, P'.
Qed.

Lemma split_by_average (imp : list nat -> res XR) (g : list nat -> R) l r m : l <> [] -> r <> [] ->
  (forall p, In p (parts l r m) -> imp p = Ok (Some (g p))) ->
  split_by XR imp l r m = Ok (Some (weighted_average g (parts l r m))).
Proof.
  intros Hl Hr Hi. pose proof (len_pos l Hl) as Pl. pose proof (len_pos r Hr) as Pr.
  unfold split_by. rewrite (Hi l) by (left; reflexivity). rewrite (Hi r) by (right; left; reflexivity). cbn [bind].
  unfold weighted_average, parts in *.
  destruct m as [[|c mm]|]; cbn [has_m].
  2: { rewrite (Hi (c :: mm)) by (right; right; left; reflexivity). cbn [bind].
    pose proof (len_pos (c :: mm) ltac:(discriminate)) as Pm.
    unfold len. cbn [nadd nmul nofZ XR lift2 ndiv]. rewrite !IZR_of_nat, xdiv_some by lra. cbn [map Rsum]. do 3 f_equal; lra. }
  all: unfold len; cbn [nadd nmul nofZ XR lift2 ndiv]; rewrite !IZR_of_nat, xdiv_some by lra; cbn [map Rsum]; do 3 f_equal; lra.
Qed.

(** The sum of the absolute deviations of a part from its own mean is at most twice the
    sum from any other point. *)
Lemma mad_twice c vs : vs <> [] -> (mad vs <= 2 * absdev c vs)%R.
Proof.
  intros H. pose proof (len_pos vs H) as Hp. unfold mad.
  assert (Hm : (Rabs (mean vs - c) <= absdev c vs)%R).
  { unfold mean, absdev.
    assert (G : forall l, (Rabs (Rsum l - INR (length l) * c) <= Rsum (map (fun v => Rabs (c - v)) l))%R).
    { induction l as [|a l IH]; cbn [Rsum map length].
      - cbn [INR]. rewrite Rmult_0_l, Rminus_0_r, Rabs_R0. lra.
      - rewrite S_INR. replace (a + Rsum l - (INR (length l) + 1) * c)%R with ((a - c) + (Rsum l - INR (length l) * c))%R by ring.
        eapply Rle_trans; [apply Rabs_triang|]. rewrite (Rabs_minus_sym a c). lra. }
    replace (Rsum vs / INR (length vs) - c)%R with ((Rsum vs - INR (length vs) * c) * / INR (length vs))%R by (field; lra).
    rewrite Rabs_mult, (Rabs_pos_eq (/ _)) by (left; apply Rinv_0_lt_compat; assumption).
    apply Rmult_le_compat_r; [left; apply Rinv_0_lt_compat; assumption|apply G]. }
  assert (G : forall l, (Rsum (map (fun v => Rabs (mean vs - v)) l) <= INR (length l) * Rabs (mean vs - c) + Rsum (map (fun v => Rabs (c - v)) l))%R).
  { induction l as [|a l IH]; cbn [Rsum map length]; [cbn; lra|]. rewrite S_INR.
    pose proof (Rabs_triang (mean vs - c) (c - a)) as T. replace (mean vs - c + (c - a))%R with (mean vs - a)%R in T by ring. lra. }
  specialize (G vs). unfold absdev at 1. apply Rmult_le_reg_r with (INR (length vs)); [assumption|].
  unfold Rdiv. rewrite Rmult_assoc, Rinv_l by lra.
  assert (E : (absdev c vs * INR (length vs) = Rsum (map (fun v => Rabs (c - v)) vs))%R) by (unfold absdev; field; lra).
  assert (Rabs (mean vs - c) * INR (length vs) <= absdev c vs * INR (length vs))%R by (apply Rmult_le_compat_r; lra).
  nra.
Qed.

Lemma known_all ms cases : (forall i, In i cases -> nth i ms true = false) -> known ms cases = cases.
Proof.
  intros H. unfold known. induction cases as [|i cases IH]; cbn [filter]; [reflexivity|].
  rewrite (H i) by (left; reflexivity). cbn [negb]. f_equal. apply IH. intros; apply H; right; assumption.
Qed.

(** What holds for a split: its impurity is the average of the parts, and it is at most
    twice that of the parent.  The claim that it is at most that of the parent fails. *)
Theorem C92_split_at_most_doubles_partial : forall xs ms l r m, l <> [] -> r <> [] ->
  (forall p, In p (parts l r m) -> within xs ms p) ->
  (forall p i, In p (parts l r m) -> In i p -> nth i ms true = false) ->
  exists v, split_by XR (L1Impurity XR xabs (numeric xs) ms) l r m = Ok (Some v)
    /\ v = weighted_average (fun p => mad (values xs p)) (parts l r m)
    /\ exists parent, L1Impurity XR xabs (numeric xs) ms (concat (parts l r m)) = Ok (Some parent)
    /\ (v <= 2 * parent)%R.
Proof.
  intros xs ms l r m Hl Hr Hw Hk.
  assert (Hne : forall p, In p (parts l r m) -> p <> []).
  { unfold parts. intros p [<-|[<-|Hp]]; try assumption. destruct m as [[|c mm]|]; [contradiction| |contradiction].
    destruct Hp as [<-|[]]. discriminate. }
  assert (Ek : forall p, In p (parts l r m) -> known ms p = p).
  { intros p Hp. apply known_all. intros i Hi. eapply Hk; eassumption. }
  exists (weighted_average (fun p => mad (values xs p)) (parts l r m)). split; [|split; [reflexivity|]].
  { apply split_by_average; auto. intros p Hp. rewrite l1_impurity_value.
    - unfold kvals. rewrite Ek by assumption. reflexivity.
    - apply Hw; assumption.
    - rewrite Ek by assumption. apply Hne; assumption. }
  assert (Hwc : within xs ms (concat (parts l r m))) by (apply Forall_concat, Forall_forall, Hw).
  assert (Ekc : known ms (concat (parts l r m)) = concat (parts l r m)).
  { apply known_all. intros i Hi. apply in_concat in Hi as (p & Hp & Hi). eapply Hk; eassumption. }
  assert (Hc : concat (parts l r m) <> []).
  { unfold parts. cbn [concat]. destruct l; [congruence|discriminate]. }
  exists (mad (values xs (concat (parts l r m)))). split.
  { rewrite l1_impurity_value; [|assumption|rewrite Ekc; assumption]. unfold kvals. rewrite Ekc. reflexivity. }
  unfold weighted_average. set (c := mean (values xs (concat (parts l r m)))).
  assert (Hs : (0 < Rsum (map (fun p => INR (length p)) (parts l r m)))%R).
  { assert (Ht : (0 <= Rsum (map (fun p : list nat => INR (length p)) (skipn 1 (parts l r m))))%R).
    { generalize (skipn 1 (parts l r m)). induction l0 as [|p l0 IH]; cbn; [lra|]. pose proof (pos_INR (length p)). lra. }
    unfold parts in Ht |- *. cbn [skipn map Rsum] in Ht |- *. pose proof (len_pos l Hl). lra. }
  apply Rmult_le_reg_r with (1 := Hs). unfold Rdiv. rewrite Rmult_assoc, Rinv_l by lra. rewrite Rmult_1_r.
  assert (E : forall ps : list (list nat), (forall p, In p ps -> p <> []) ->
     (Rsum (map (fun p => INR (length p) * mad (values xs p)) ps) <= 2 * Rsum (map (fun v => Rabs (c - v)) (values xs (concat ps))))%R
     /\ INR (length (concat ps)) = Rsum (map (fun p => INR (length p)) ps)).
  { induction ps as [|p ps IH]; intros Hp; [cbn; split; [lra|reflexivity]|].
    destruct IH as [I1 I2]; [intros; apply Hp; right; assumption|]. cbn [map Rsum concat].
    rewrite values_app, map_app, Rsum_app, app_length, plus_INR, I2. split; [|reflexivity].
    assert (Np : p <> []) by (apply Hp; left; reflexivity). pose proof (len_pos p Np) as Lp.
    pose proof (mad_twice c (values xs p) (values_nonnil xs p Np)) as T.
    assert (T2 : (INR (length p) * mad (values xs p) <= INR (length p) * (2 * absdev c (values xs p)))%R) by (apply Rmult_le_compat_l; lra).
    assert (E3 : (INR (length p) * (2 * absdev c (values xs p)) = 2 * Rsum (map (fun v => Rabs (c - v)) (values xs p)))%R).
    { unfold absdev. rewrite values_length. field. lra. }
    lra. }
  destruct (E (parts l r m) Hne) as [E1 E2]. rewrite <- E2.
  unfold mad at 2. fold c. unfold absdev. rewrite values_length.
  pose proof (len_pos _ Hc) as Lc. unfold Rdiv. rewrite !Rmult_assoc, Rinv_l by lra. lra.
Qed.

(** Two halves of six cases with a larger absolute error than the whole. *)
Theorem C92_split_increases_refuted : exists xs ms l r v parent,
  within xs ms (l ++ r) /\ (forall i, In i (l ++ r) -> nth i ms true = false) /\ l <> [] /\ r <> [] /\
  split_by XR (L1Impurity XR xabs (numeric xs) ms) l r None = Ok (Some v) /\
  L1Impurity XR xabs (numeric xs) ms (l ++ r) = Ok (Some parent) /\ (parent < v)%R.
Proof.
  set (xs := [0; 0; 3; 2; 2; -2]%R). set (ms := repeat false 6).
  assert (W : within xs ms (seq 0 6)) by (repeat constructor).
  exists xs, ms, [0; 1; 2], [3; 4; 5], (14 / 9)%R, (3 / 2)%R.
  split; [exact W|]. split.
  { intros i Hi. cbn in Hi. repeat (destruct Hi as [<-|Hi]; [reflexivity|]). contradiction. }
  split; [discriminate|]. split; [discriminate|].
  assert (V : forall cases, within xs ms cases -> known ms cases <> [] ->
     L1Impurity XR xabs (numeric xs) ms cases = Ok (Some (mad (kvals xs ms cases)))) by (intros; apply l1_impurity_value; assumption).
  assert (A1 : forall a, (0 <= a)%R -> Rabs a = a) by (intros; apply Rabs_pos_eq; assumption).
  assert (A2 : forall a, (a <= 0)%R -> Rabs a = (- a)%R) by (intros; apply Rabs_left1; assumption).
  assert (M1 : mad (kvals xs ms [0; 1; 2]) = (4 / 3)%R).
  { cbn. unfold mad, absdev, mean. cbn. replace ((0 + (0 + (3 + 0))) / (1 + 1 + 1))%R with 1%R by lra.
    rewrite (A1 (1 - 0)%R), (A2 (1 - 3)%R) by lra. lra. }
  assert (M2 : mad (kvals xs ms [3; 4; 5]) = (16 / 9)%R).
  { cbn. unfold mad, absdev, mean. cbn. replace ((2 + (2 + (-2 + 0))) / (1 + 1 + 1))%R with (2 / 3)%R by lra.
    rewrite (A2 (2 / 3 - 2)%R), (A1 (2 / 3 - - 2)%R) by lra. lra. }
  assert (M3 : mad (kvals xs ms (seq 0 6)) = (3 / 2)%R).
  { cbn. unfold mad, absdev, mean. cbn. replace ((0 + (0 + (3 + (2 + (2 + (-2 + 0)))))) / (1 + 1 + 1 + 1 + 1 + 1))%R with (5 / 6)%R by lra.
    rewrite (A1 (5 / 6 - 0)%R), (A2 (5 / 6 - 3)%R), (A2 (5 / 6 - 2)%R), (A1 (5 / 6 - - 2)%R) by lra. lra. }
  split; [|split; [|lra]].
  - rewrite (split_by_average _ (fun p => mad (kvals xs ms p))) by
      (try discriminate; intros p [<-|[<-|[]]]; apply V; try discriminate; repeat constructor).
    unfold weighted_average, parts. cbn [map Rsum length]. rewrite M1, M2. do 2 f_equal. cbn. lra.
  - change ([0; 1; 2] ++ [3; 4; 5]) with (seq 0 6). rewrite V by (try exact W; discriminate). rewrite M3. reflexivity.
Qed.

(** The value a leaf predicts, the mean, does not have the least absolute error. *)
Theorem C92_prediction_not_best_refuted : exists xs ms cases p e c e',
  within xs ms cases /\ (forall i, In i cases -> nth i ms true = false) /\
  NumMean XR (numeric xs) ms cases = Ok (Some p) /\
  L1Error XR xabs (numeric xs) ms cases (Some p) = Ok (Some e) /\
  L1Error XR xabs (numeric xs) ms cases (Some c) = Ok (Some e') /\ (e' < e)%R.
Proof.
  set (xs := [0; 0; 3]%R). set (ms := repeat false 3).
  assert (W : within xs ms (seq 0 3)) by (repeat constructor).
  exists xs, ms, (seq 0 3), 1%R, (4 / 3)%R, 0%R, 1%R. split; [exact W|]. split.
  { intros i Hi. cbn in Hi. repeat (destruct Hi as [<-|Hi]; [reflexivity|]). contradiction. }
  split; [|split; [|split; [|lra]]].
  - rewrite num_mean_value by exact W. cbn. unfold mean. cbn. do 2 f_equal. lra.
  - rewrite l1_error_value by (try exact W; discriminate). cbn. unfold absdev. cbn.
    rewrite (Rabs_pos_eq (1 - 0)%R), (Rabs_left1 (1 - 3)%R) by lra. do 2 f_equal. lra.
  - rewrite l1_error_value by (try exact W; discriminate). cbn. unfold absdev. cbn.
    rewrite (Rabs_pos_eq (0 - 0)%R), (Rabs_left1 (0 - 3)%R) by lra. do 2 f_equal. lra.
Qed.

(** A part without known values makes the impurity of the split NaN, so that the split is
    never chosen, however good the other part is. *)
Theorem C92_all_missing_refuted : forall nabs data ms l r m p v, In p (parts l r m) -> p <> [] ->
  Forall (fun i => i < length ms) p -> known ms p = [] ->
  L1Impurity F64 nabs data ms p = Ok S754_nan /\
  (split_by F64 (L1Impurity F64 nabs data ms) l r m = Ok v -> v = S754_nan).
Proof.
  intros nabs data ms l r m p v Hp Hne Hw Hk.
  assert (E : L1Impurity F64 nabs data ms p = Ok S754_nan).
  { unfold L1Impurity, NumMean, L1Error.
    assert (G : forall (T : Type) (f : nat -> T -> res T) cs s, Forall (fun i => i < length ms) cs -> known ms cs = [] ->
      foreach cs (fun i s => let* miss := get ms i in if miss then Ok s else f i s) s = Ok s).
    { intros T f. induction cs as [|i cs IH]; intros s H1 H2; [reflexivity|]. inversion H1; subst. rewrite known_cons in H2. cbn [foreach].
      rewrite (get_lt ms i true) by assumption. cbn [bind]. destruct (nth i ms true); [|discriminate]. cbn [bind]. apply IH; assumption. }
    assert (G2 : forall (f : nat -> F64 * nat -> res (F64 * nat)),
      foreach p (fun i '((e, n) : F64 * nat) => let* miss := get ms i in if miss then Ok (e, n) else f i (e, n)) (f0, 0) = Ok (f0, 0)).
    { intros f. erewrite <- (G (F64 * nat)%type f p (f0, 0) Hw Hk) at 1. apply foreach_ext. intros i [e n]. reflexivity. }
    match goal with |- context [bind (foreach p ?b ?s0) _] =>
      assert (E1 : foreach p b s0 = Ok (f0, 0)) by exact (G2 (fun i '((e, n) : F64 * nat) => let* x := get data i in Ok (nadd F64 e x, n + 1))) end.
    rewrite E1. cbn [bind].
    match goal with |- context [bind (foreach p ?b ?s0) _] =>
      assert (E2 : foreach p b s0 = Ok (f0, 0)) by exact (G2 (fun i '((e, n) : F64 * nat) =>
         let* x := get data i in Ok (nadd F64 e (nabs (nsub F64 (ndiv F64 f0 (num F64 (Z.of_nat 0))) x)), n + 1))) end.
    rewrite E2. reflexivity. }
  split; [exact E|]. unfold split_by.
  assert (N1 : forall x, nmul F64 x S754_nan = S754_nan) by (intros [[]|[]| |[] ? ?]; reflexivity).
  assert (N2 : forall x, nadd F64 x S754_nan = S754_nan) by (intros [[]|[]| |[] ? ?]; reflexivity).
  assert (N3 : forall x, nadd F64 S754_nan x = S754_nan) by (intros [[]|[]| |[] ? ?]; reflexivity).
  assert (N4 : forall x, ndiv F64 S754_nan x = S754_nan) by (intros [[]|[]| |[] ? ?]; reflexivity).
  unfold parts in Hp. destruct Hp as [<-|[<-|Hp]].
  - rewrite E. cbn [bind]. rewrite N1. destruct (L1Impurity F64 nabs data ms r) as [ir| |]; cbn [bind]; try discriminate.
    rewrite N3. destruct (has_m m) as [mm|]; [|rewrite N4; congruence].
    destruct (L1Impurity F64 nabs data ms mm) as [im| |]; cbn [bind]; try discriminate. rewrite N3, N4. congruence.
  - rewrite E. destruct (L1Impurity F64 nabs data ms l) as [il| |]; cbn [bind]; try discriminate.
    rewrite N1, N2. destruct (has_m m) as [mm|]; [|rewrite N4; congruence].
    destruct (L1Impurity F64 nabs data ms mm) as [im| |]; cbn [bind]; try discriminate. rewrite N3, N4. congruence.
  - destruct m as [[|c mm]|]; [contradiction| |contradiction]. destruct Hp as [<-|[]]. cbn [has_m]. rewrite E.
    destruct (L1Impurity F64 nabs data ms l) as [il| |]; cbn [bind]; try discriminate.
    destruct (L1Impurity F64 nabs data ms r) as [ir| |]; cbn [bind]; try discriminate.
    rewrite N1, N2, N4. congruence.
Qed.

Example ex_l1 : within [0; 0; 3]%R (repeat false 3) [0; 2] /\ known (repeat false 3) [0; 2] <> [].
Proof. split; [repeat constructor; cbn; lia|discriminate]. Qed.
Example ex_l1_missing : known [false; true; true] [1; 2] = [] /\ In [1; 2] (parts [0] [1; 2] None).
Proof. split; [reflexivity|]. right. left. reflexivity. Qed.

(** ** C93 *)

(** The conversion to int: towards zero. *)
Definition rint (x : XR) : Z :=
  match x with
  | Some r => if Rle_dec 0 r then Int_part r else (- Int_part (- r))%Z
  | None => 0%Z
  end.

(** The number of known cases in class [k]. *)
Definition in_class (xs : list R) (ms : list bool) (cases : list nat) (k : nat) : nat :=
  length (filter (fun i => (rint (Some (nth i xs 0%R)) =? Z.of_nat k)%Z) (known ms cases)).
(** Mean squared distance of the values from [c]. *)
Definition sqdev (c : R) (vs : list R) : R := (Rsum (map (fun v => (c - v) * (c - v)) vs) / INR (length vs))%R.

Lemma Int_part_IZR z : Int_part (IZR z) = z.
Proof.
  destruct (base_Int_part (IZR z)) as [H1 H2]. apply le_IZR in H1.
  assert (IZR z < IZR (Int_part (IZR z) + 1))%R by (rewrite plus_IZR; lra). apply lt_IZR in H. lia.
Qed.
Lemma Int_part_le a b : (a <= b)%R -> (Int_part a <= Int_part b)%Z.
Proof.
  intros H. destruct (base_Int_part a) as [A1 A2], (base_Int_part b) as [B1 B2].
  assert (IZR (Int_part a) < IZR (Int_part b + 1))%R by (rewrite plus_IZR; lra). apply lt_IZR in H0. lia.
Qed.
Lemma rint_IZR z : rint (Some (IZR z)) = z.
Proof.
  unfold rint. destruct (Rle_dec 0 (IZR z)); [apply Int_part_IZR|]. rewrite <- opp_IZR, Int_part_IZR. lia.
Qed.
Lemma rint_nonneg r : (-1 < r)%R -> (0 <= rint (Some r))%Z.
Proof.
  intros H. unfold rint. destruct (Rle_dec 0 r) as [H0|H0].
  - pose proof (Int_part_le 0 r H0) as L. rewrite (Int_part_IZR 0) in L. exact L.
  - assert (E : (Int_part (- r) <= 0)%Z); [|lia]. destruct (base_Int_part (- r)) as [B1 _].
    assert (IZR (Int_part (- r)) < IZR 1)%R by lra. apply lt_IZR in H1. lia.
Qed.
Lemma rint_neg r : (r <= -1)%R -> (rint (Some r) < 0)%Z.
Proof.
  intros H. unfold rint. destruct (Rle_dec 0 r); [lra|].
  assert (L : (Int_part 1 <= Int_part (- r))%Z) by (apply Int_part_le; lra). rewrite (Int_part_IZR 1) in L. lia.
Qed.

Lemma ord_max_loop : forall xs mx, exists M,
  fold_left (fun (mx : XR) v => if nltb XR mx v then v else mx) (numeric xs) (Some mx) = Some M /\
  (mx <= M)%R /\ Forall (fun x => (x <= M)%R) xs /\ In M (mx :: xs).
Proof.
  induction xs as [|x xs IH]; intros mx; [exists mx; repeat split; [lra|constructor|left; reflexivity]|].
  cbn [numeric map fold_left]. cbn [nltb XR xcmp]. unfold Rltb. destruct (Rlt_dec mx x) as [H|H].
  - destruct (IH x) as (M & E & H1 & H2 & H3). exists M. split; [exact E|]. split; [lra|]. split; [constructor; assumption|]. right. exact H3.
  - destruct (IH mx) as (M & E & H1 & H2 & H3). exists M. split; [exact E|]. split; [lra|]. split; [constructor; [lra|assumption]|].
    destruct H3; [left|right; right]; assumption.
Qed.
Lemma ord_classes xs : exists M, OrdClasses XR rint (numeric xs) = (Int_part M + 1)%Z /\ (0 <= M)%R /\
  Forall (fun x => (x <= M)%R) xs /\ In M (0%R :: xs).
Proof.
  destruct (ord_max_loop xs 0) as (M & E & H1 & H2 & H3). exists M. split; [|auto]. unfold OrdClasses. cbn [nofZ XR].
  rewrite E. unfold rint. destruct (Rle_dec 0 M); [reflexivity|contradiction].
Qed.

Lemma ord_counts xs ms n : forall cases pre,
  within xs ms cases -> Forall (fun i => (0 <= rint (Some (nth i xs 0%R)) < Z.of_nat n)%Z) (known ms cases) ->
  foreach cases (fun i counts =>
        let* miss := get ms i in
        if miss then Ok counts
        else
          let* x := get (numeric xs) i in
          let k := rint x in
          let* c := getZ counts k in
          set counts (Z.to_nat k) (c + 1)) (map pre (seq 0 n))
  = Ok (map (fun k => pre k + in_class xs ms cases k) (seq 0 n)).
Proof.
  induction cases as [|i cases IH]; intros pre Hw Hr.
  - cbn. f_equal. apply map_ext. intros. lia.
  - inversion Hw as [|? ? [W1 W2] W3]; subst. cbn [foreach]. rewrite (get_lt ms i true) by assumption. cbn [bind].
    rewrite known_cons in Hr. destruct (nth i ms true) eqn:Em.
    + cbn [bind]. rewrite IH by assumption. f_equal. apply map_ext. intros k. unfold in_class. rewrite known_cons, Em. reflexivity.
    + inversion Hr as [|? ? R1 R2]; subst. rewrite numeric_get by assumption. cbn [bind]. set (z := rint (Some (nth i xs 0%R))) in *.
      assert (Lz : Z.to_nat z < n) by lia.
      unfold getZ. destruct (z <? 0)%Z eqn:Zn; [apply Z.ltb_lt in Zn; lia|].
      rewrite (get_lt _ (Z.to_nat z) 0) by (rewrite map_length, seq_length; assumption). cbn [bind].
      rewrite set_ok by (rewrite map_length, seq_length; assumption).
      assert (EU : upd (map pre (seq 0 n)) (Z.to_nat z) (nth (Z.to_nat z) (map pre (seq 0 n)) 0 + 1)
        = map (fun k => pre k + (if (z =? Z.of_nat k)%Z then 1 else 0)) (seq 0 n)).
      { apply nth_ext with (d := 0) (d' := 0); [rewrite upd_length, !map_length; reflexivity|].
        rewrite upd_length, map_length, seq_length. intros j Hj.
        assert (Hm : forall f : nat -> nat, nth j (map f (seq 0 n)) 0 = f j).
        { intros f. rewrite (nth_indep _ 0 (f 0)) by (rewrite map_length, seq_length; assumption). rewrite map_nth, seq_nth by assumption. reflexivity. }
        rewrite nth_upd by (rewrite map_length, seq_length; assumption). rewrite !Hm.
        destruct (j =? Z.to_nat z) eqn:Ej.
        - apply Nat.eqb_eq in Ej. subst j. rewrite Hm. destruct (Z.eqb_spec z (Z.of_nat (Z.to_nat z))); lia.
        - apply Nat.eqb_neq in Ej. destruct (Z.eqb_spec z (Z.of_nat j)); lia. }
      rewrite EU. cbn [bind]. rewrite IH by assumption. f_equal. apply map_ext. intros k. unfold in_class. rewrite known_cons, Em. cbn [filter].
      fold z. destruct (z =? Z.of_nat k)%Z; cbn [length]; lia.
Qed.

Lemma ord_argmax : forall vs pre m mx,
  (forall j, nth j pre 0 <= mx) -> (forall j, j < m -> nth j pre 0 < mx) -> nth m pre 0 = mx ->
  (m < length pre \/ pre = [] /\ m = 0) ->
  exists m' mx', foreach vs (fun v '((m, mx, k) : XR * nat * nat) =>
        Ok (if mx <? v then (num XR (Z.of_nat k), v, S k) else (m, mx, S k))) (Some (INR m), mx, length pre)
      = Ok (Some (INR m') : XR, mx', length (pre ++ vs)) /\
    (forall j, nth j (pre ++ vs) 0 <= mx') /\ (forall j, j < m' -> nth j (pre ++ vs) 0 < mx') /\ nth m' (pre ++ vs) 0 = mx'.
Proof.
  induction vs as [|v vs IH]; intros pre m mx H1 H2 H3 H4.
  - exists m, mx. rewrite app_nil_r. repeat split; auto.
  - cbn [foreach bind]. replace (pre ++ v :: vs) with ((pre ++ [v]) ++ vs) by (rewrite <- app_assoc; reflexivity).
    assert (L : S (length pre) = length (pre ++ [v])) by (rewrite app_length; cbn; lia). rewrite L.
    assert (N : forall j, nth j (pre ++ [v]) 0 = if j <? length pre then nth j pre 0 else if j =? length pre then v else 0).
    { intros j. destruct (Nat.ltb_spec j (length pre)); [apply app_nth1; assumption|]. rewrite app_nth2 by assumption.
      destruct (Nat.eqb_spec j (length pre)); [subst; rewrite Nat.sub_diag; reflexivity|].
      destruct (j - length pre) as [|[|]] eqn:E; [lia|reflexivity|reflexivity]. }
    destruct (Nat.ltb_spec mx v) as [Hv|Hv].
    + unfold num. cbn [nofZ XR]. rewrite IZR_of_nat. apply IH.
      * intros j. rewrite N. specialize (H1 j). destruct (j <? length pre); [lia|]. destruct (j =? length pre); lia.
      * intros j Hj. rewrite N. apply Nat.ltb_lt in Hj. rewrite Hj. specialize (H1 j). lia.
      * rewrite N, Nat.ltb_irrefl, Nat.eqb_refl. reflexivity.
      * rewrite app_length. cbn. lia.
    + apply IH.
      * intros j. rewrite N. specialize (H1 j). destruct (j <? length pre); [lia|]. destruct (j =? length pre); lia.
      * intros j Hj. rewrite N. specialize (H2 j Hj). destruct (Nat.ltb_spec j (length pre)); [lia|]. destruct H4 as [H4|[-> ->]]; lia.
      * destruct H4 as [H4|[-> ->]]; [rewrite N; apply Nat.ltb_lt in H4; rewrite H4; assumption|]. cbn in H3 |- *. lia.
      * rewrite app_length. cbn. destruct H4 as [H4|[-> ->]]; lia.
Qed.

Lemma num_error_value xs ms cases c : within xs ms cases -> known ms cases <> [] ->
  NumError XR (numeric xs) ms cases (Some c) = Ok (Some (sqdev c (kvals xs ms cases))).
Proof.
  intros Hw Hk. pose proof (len_pos _ Hk) as Hp. unfold NumError.
  match goal with |- context [foreach cases ?b ?i] =>
    assert (E : foreach cases b i = Ok (Some (0 + Rsum (map (fun v => (c - v) * (c - v)) (kvals xs ms cases)))%R, 0 + length (known ms cases)))
  end.
  { apply (known_loop xs ms); [|assumption]. intros i e n H1 H2. rewrite (get_lt ms i true) by assumption. cbn [bind].
    destruct (nth i ms true); [reflexivity|]. rewrite numeric_get by assumption. reflexivity. }
  rewrite E. cbn [bind plus]. unfold num. cbn [ndiv nofZ XR]. rewrite IZR_of_nat, xdiv_some by lra.
  unfold sqdev, kvals. rewrite values_length. do 3 f_equal. lra.
Qed.

(** Without known values at or below -1 a leaf predicts the most frequent class, the lowest
    one on ties, and the impurity is the mean squared distance from it. *)
Theorem C93_most_frequent_class_partial : forall xs ms cases, within xs ms cases ->
  (forall i, In i (known ms cases) -> (-1 < nth i xs 0)%R) ->
  exists m, OrdMode XR rint (OrdClasses XR rint (numeric xs)) (numeric xs) ms cases = Ok (Some (INR m))
    /\ (forall k, in_class xs ms cases k <= in_class xs ms cases m)
    /\ (forall k, k < m -> in_class xs ms cases k < in_class xs ms cases m)
    /\ (known ms cases <> [] ->
        OrdImpurity XR rint (OrdClasses XR rint (numeric xs)) (numeric xs) ms cases
        = Ok (Some (sqdev (INR m) (kvals xs ms cases)))).
Proof.
  intros xs ms cases Hw Hn. destruct (ord_classes xs) as (M & EM & HM & Hall & _). rewrite EM.
  pose proof (Int_part_le 0 M HM) as HI. rewrite (Int_part_IZR 0) in HI.
  assert (HR : Forall (fun i => (0 <= rint (Some (nth i xs 0%R)) < Z.of_nat (Z.to_nat (Int_part M + 1)))%Z) (known ms cases)).
  { apply Forall_forall. intros i Hi. pose proof (Hn i Hi) as Hp. split; [apply rint_nonneg; assumption|]. rewrite Z2Nat.id by lia.
    unfold within in Hw. rewrite Forall_forall in Hw. destruct (Hw i) as [W1 _]; [unfold known in Hi; apply filter_In in Hi; tauto|].
    rewrite Forall_forall in Hall. pose proof (Hall _ (nth_In xs 0%R W1)) as Hx.
    unfold rint. destruct (Rle_dec 0 (nth i xs 0%R)) as [H0|H0].
    - pose proof (Int_part_le _ _ Hx). lia.
    - assert (L : (Int_part 0 <= Int_part (- nth i xs 0%R))%Z) by (apply Int_part_le; lra). rewrite (Int_part_IZR 0) in L. lia. }
  set (n := Z.to_nat (Int_part M + 1)) in *.
  assert (EO : exists m, OrdMode XR rint (Int_part M + 1) (numeric xs) ms cases = Ok (Some (INR m))
    /\ (forall k, in_class xs ms cases k <= in_class xs ms cases m)
    /\ (forall k, k < m -> in_class xs ms cases k < in_class xs ms cases m)).
  { unfold OrdMode. destruct (Int_part M + 1 <? 0)%Z eqn:Zn; [apply Z.ltb_lt in Zn; lia|]. fold n.
    pose proof (ord_counts xs ms n cases (fun _ => 0) Hw HR) as EC.
    replace (map (fun _ : nat => 0) (seq 0 n)) with (repeat 0 n) in EC.
    2: { assert (Z : forall j s, repeat 0 j = map (fun _ : nat => 0) (seq s j)) by
           (induction j as [|j IHj]; intros s; cbn; [reflexivity|f_equal; apply IHj]).
         apply Z. }
    match goal with |- context [bind (foreach cases ?b ?i) _] =>
      assert (EX : foreach cases b i = _) by exact EC; rewrite EX; clear EX EC end.
    cbn [bind plus]. set (vs := map (fun k => in_class xs ms cases k) (seq 0 n)).
    destruct (ord_argmax vs [] 0 0) as (m & mx & E & H1 & H2 & H3).
    { intros []; cbn; lia. } { intros; lia. } { reflexivity. } { right; auto. }
    assert (V : forall k, nth k vs 0 = in_class xs ms cases k).
    { intros k. destruct (Nat.lt_ge_cases k n) as [L|L].
      - unfold vs. rewrite (nth_indep _ 0 (in_class xs ms cases 0)) by (rewrite map_length, seq_length; assumption).
        rewrite (map_nth (fun k => in_class xs ms cases k)), seq_nth by assumption. reflexivity.
      - rewrite nth_overflow by (unfold vs; rewrite map_length, seq_length; assumption).
        unfold in_class. symmetry. apply length_zero_iff_nil.
        destruct (filter _ _) as [|i fl] eqn:F; [reflexivity|exfalso].
        assert (Hi : In i (i :: fl)) by (left; reflexivity). rewrite <- F in Hi. apply filter_In in Hi as [Hi1 Hi2].
        rewrite Forall_forall in HR. specialize (HR i Hi1). apply Z.eqb_eq in Hi2. lia. }
    cbn [app] in *. exists m. split.
    - match goal with |- context [bind (foreach vs ?b ?i) _] =>
        assert (EX : foreach vs b i = _) by exact E; rewrite EX; clear EX E end. reflexivity.
    - split; intros k; [intros|intros Hk]; rewrite <- !V, H3; auto. }
  destruct EO as (m & E & H1 & H2). exists m. repeat split; auto. intros Hk. unfold OrdImpurity. rewrite E. cbn [bind].
  apply num_error_value; assumption.
Qed.

(** One known value at or below -1 among the cases makes the search for the mode panic:
    ordinaltarget.go:70 indexes the counts with a negative number. *)
Theorem C93_negative_class_refuted : forall xs ms cases i, In i cases -> i < length xs ->
  nth_error ms i = Some false -> (nth i xs 0 <= -1)%R ->
  OrdMode XR rint (OrdClasses XR rint (numeric xs)) (numeric xs) ms cases = Panic /\
  OrdImpurity XR rint (OrdClasses XR rint (numeric xs)) (numeric xs) ms cases = Panic.
Proof.
  intros xs ms cases i Hi Lx Hm Hx.
  assert (E : OrdMode XR rint (OrdClasses XR rint (numeric xs)) (numeric xs) ms cases = Panic).
  { unfold OrdMode. destruct (_ <? 0)%Z; [reflexivity|].
    match goal with |- bind (foreach cases ?b ?s0) _ = _ => assert (G : forall s, foreach cases b s = Panic) end.
    { induction cases as [|c cases IH]; [contradiction|]. intros s. cbn [foreach]. destruct Hi as [->|Hi].
      - rewrite (get_nth ms i Hm). cbn [bind]. rewrite numeric_get by assumption. cbn [bind]. unfold getZ.
        pose proof (rint_neg _ Hx) as Hr. apply Z.ltb_lt in Hr. rewrite Hr. reflexivity.
      - assert (GO : forall T (l : list T) j, get l j = Panic \/ exists x, get l j = Ok x) by
          (intros T l j; unfold get; destruct (nth_error l j); [right; eexists|left]; reflexivity).
        destruct (GO _ ms c) as [->|[[] ->]]; cbn [bind]; [reflexivity|apply IH; assumption|].
        destruct (GO (car XR) (numeric xs) c) as [->|[x ->]]; cbn [bind]; [reflexivity|].
        unfold getZ at 1. destruct (rint x <? 0)%Z; [reflexivity|].
        destruct (GO _ s (Z.to_nat (rint x))) as [->|[x' ->]]; cbn [bind]; [reflexivity|].
        unfold set at 1. destruct (Z.to_nat (rint x) <? length s); cbn [bind]; [apply IH; assumption|reflexivity]. }
    rewrite G. reflexivity. }
  split; [exact E|]. unfold OrdImpurity. rewrite E. reflexivity.
Qed.

Lemma ord_impurity_known xs ms cases m0 : within xs ms cases -> known ms cases <> [] ->
  (forall i, In i (known ms cases) -> (-1 < nth i xs 0)%R) ->
  (forall m, (forall k, in_class xs ms cases k <= in_class xs ms cases m) -> m = m0) ->
  OrdImpurity XR rint (OrdClasses XR rint (numeric xs)) (numeric xs) ms cases = Ok (Some (sqdev (INR m0) (kvals xs ms cases))).
Proof.
  intros Hw Hk Hn Hm. destruct (C93_most_frequent_class_partial xs ms cases Hw Hn) as (m & _ & H1 & _ & H2).
  rewrite (Hm m H1) in H2. apply H2, Hk.
Qed.

(** The impurity is not a measure that splitting lowers: the most frequent class of a part
    can lie further from its values than the most frequent class of the whole. *)
Theorem C93_split_increases_refuted : exists xs ms l r v parent,
  within xs ms (l ++ r) /\ (forall i, In i (l ++ r) -> nth i ms true = false /\ (0 <= nth i xs 0)%R) /\ l <> [] /\ r <> [] /\
  split_by XR (OrdImpurity XR rint (OrdClasses XR rint (numeric xs)) (numeric xs) ms) l r None = Ok (Some v) /\
  OrdImpurity XR rint (OrdClasses XR rint (numeric xs)) (numeric xs) ms (l ++ r) = Ok (Some parent) /\ (parent < v)%R.
Proof.
  set (xs := [0; 0; 1; 2; 1; 1]%R). set (ms := repeat false 6).
  assert (W : within xs ms (seq 0 6)) by (repeat constructor).
  assert (P : forall i, In i (seq 0 6) -> nth i ms true = false /\ (0 <= nth i xs 0)%R).
  { intros i Hi. cbn in Hi. repeat (destruct Hi as [<-|Hi]; [split; [reflexivity|cbn; lra]|]). contradiction. }
  exists xs, ms, [0; 1; 2; 3], [4; 5], (5 / 6)%R, (1 / 2)%R. split; [exact W|]. split; [exact P|].
  split; [discriminate|]. split; [discriminate|].
  assert (Q : forall i, In i (seq 0 6) -> (-1 < nth i xs 0)%R) by (intros i Hi; destruct (P i Hi); lra).
  assert (C : forall cases k, in_class xs ms cases k =
     length (filter (fun z => (z =? Z.of_nat k)%Z) (map (fun i => rint (Some (nth i xs 0%R))) (known ms cases)))).
  { intros cases k. unfold in_class. induction (known ms cases) as [|c l IH]; [reflexivity|]. cbn [filter map].
    destruct (_ =? _)%Z; cbn [length]; rewrite IH; reflexivity. }
  assert (R0 := rint_IZR 0). assert (R1 := rint_IZR 1). assert (R2 := rint_IZR 2).
  assert (M1 : forall m, (forall k, in_class xs ms [0; 1; 2; 3] k <= in_class xs ms [0; 1; 2; 3] m) -> m = 0).
  { intros m H. specialize (H 0). rewrite !C in H. cbn [known filter map nth ms repeat negb xs] in H. rewrite R0, R1, R2 in H.
    cbn [filter] in H. destruct (Z.eqb_spec 0 (Z.of_nat m)), (Z.eqb_spec 1 (Z.of_nat m)), (Z.eqb_spec 2 (Z.of_nat m)); cbn in H; lia. }
  assert (M2 : forall m, (forall k, in_class xs ms [4; 5] k <= in_class xs ms [4; 5] m) -> m = 1).
  { intros m H. specialize (H 1). rewrite !C in H. cbn [known filter map nth ms repeat negb xs] in H. rewrite R1 in H.
    cbn [filter] in H. destruct (Z.eqb_spec 1 (Z.of_nat m)); cbn in H; lia. }
  assert (M3 : forall m, (forall k, in_class xs ms (seq 0 6) k <= in_class xs ms (seq 0 6) m) -> m = 1).
  { intros m H. specialize (H 1). rewrite !C in H. cbn [known filter map nth ms repeat negb xs seq] in H. rewrite R0, R1, R2 in H.
    cbn [filter] in H. destruct (Z.eqb_spec 0 (Z.of_nat m)), (Z.eqb_spec 1 (Z.of_nat m)), (Z.eqb_spec 2 (Z.of_nat m)); cbn in H; lia. }
  assert (I1 := ord_impurity_known xs ms [0; 1; 2; 3] 0). assert (I2 := ord_impurity_known xs ms [4; 5] 1).
  assert (I3 := ord_impurity_known xs ms (seq 0 6) 1).
  split; [|split].
  - rewrite (split_by_average _ (fun p => sqdev (INR (if length p =? 4 then 0 else 1)) (kvals xs ms p))); try discriminate.
    + unfold weighted_average, parts, sqdev. cbn. do 2 f_equal. lra.
    + intros p [<-|[<-|[]]]; cbn [length Nat.eqb]; [apply I1|apply I2]; try assumption; try discriminate; try (repeat constructor).
      * intros i Hi. apply Q. cbn in Hi |- *. tauto.
      * intros i Hi. apply Q. cbn in Hi |- *. tauto.
  - change ([0; 1; 2; 3] ++ [4; 5]) with (seq 0 6). rewrite I3; try assumption; try discriminate.
    unfold sqdev. cbn. do 2 f_equal. lra.
  - lra.
Qed.

Example ex_ordinal : within [2; 0; 2]%R [false; true; false] [0; 1; 2] /\
  (forall i, In i (known [false; true; false] [0; 1; 2]) -> (-1 < nth i [2; 0; 2] 0)%R) /\
  known [false; true; false] [0; 1; 2] = [0; 2].
Proof. split; [repeat constructor|]. split; [|reflexivity]. intros i [<-|[<-|[]]]; cbn; lra. Qed.
Example ex_ordinal_negative : nth_error [false; false] 1 = Some false /\ (nth 1 [3; -2] 0 <= -1)%R.
Proof. split; [reflexivity|cbn; lra]. Qed.

(** ** C94 *)

(** Distance of case [c] from the mean of the known cases of its leaf. *)
Definition dev (xs : list R) (ms : list bool) (leaf : list nat) (c : nat) : R := Rabs (nth c xs 0%R - mean (kvals xs ms leaf)).
(** The weighted error of a leaf and of all the leaves of a tree. *)
Definition leaf_error xs ms (ws : list R) leaf : R := Rsum (map (fun c => nth c ws 0 * dev xs ms leaf c)%R (known ms leaf)).
Definition tree_error xs ms ws (leaves : list (list nat)) : R := Rsum (map (leaf_error xs ms ws) leaves).
(** [x'] is the weight [x] of case [d] after boosting with the tree weight [a]. *)
Definition boosted xs ms (leaves : list (list nat)) (a e : R) (d : nat) (x x' : R) : Prop :=
  (forall leaf, In leaf leaves -> In d (known ms leaf) -> x' = (x * exp (a * (dev xs ms leaf d - e)))%R) /\
  ((forall leaf, In leaf leaves -> ~ In d (known ms leaf)) -> x' = x).

Lemma known_nil_loop {T} ms (f : nat -> T -> res T) : forall cs s, Forall (fun i => i < length ms) cs -> known ms cs = [] ->
  foreach cs (fun i s => let* miss := get ms i in if miss then Ok s else f i s) s = Ok s.
Proof.
  induction cs as [|i cs IH]; intros s H1 H2; [reflexivity|]. inversion H1; subst. rewrite known_cons in H2. cbn [foreach].
  rewrite (get_lt ms i true) by assumption. cbn [bind]. destruct (nth i ms true); [|discriminate]. cbn [bind]. apply IH; assumption.
Qed.

Lemma num_ada_impurity xs ms ws leaf : within xs ms leaf -> length ws = length xs ->
  NumAdaImpurity XR xabs (numeric xs) ms (exact ws) leaf = Ok (Some (leaf_error xs ms ws leaf)).
Proof.
  intros Hw Lw. unfold NumAdaImpurity. rewrite num_mean_value by assumption. cbn [bind]. unfold leaf_error.
  destruct (length (known ms leaf) =? 0) eqn:Z0.
  - apply Nat.eqb_eq, length_zero_iff_nil in Z0. rewrite Z0. cbn [map Rsum].
    apply (known_nil_loop ms (fun c e => let* w := get (exact ws) c in let* x := get (numeric xs) c in
       Ok (nadd XR e (nmul XR w (xabs (nsub XR x None)))))); [|assumption].
    eapply Forall_impl; [|exact Hw]. cbn. tauto.
  - set (m := mean (kvals xs ms leaf)).
    assert (G : forall cs e, within xs ms cs -> foreach cs (fun c e =>
        let* miss := get ms c in
        if miss then Ok e
        else
          let* w := get (exact ws) c in
          let* x := get (numeric xs) c in
          Ok (nadd XR e (nmul XR w (xabs (nsub XR x (Some m)))))) (Some e)
       = Ok (Some (e + Rsum (map (fun c => nth c ws 0 * dev xs ms leaf c)%R (known ms cs)))%R)).
    { induction cs as [|c cs IH]; intros e Hc; [cbn; do 2 f_equal; lra|]. inversion Hc as [|? ? [C1 C2] C3]; subst. cbn [foreach].
      rewrite (get_lt ms c true) by assumption. cbn [bind]. rewrite known_cons. destruct (nth c ms true); cbn [bind]; [apply IH; assumption|].
      rewrite (get_lt (exact ws) c (Some 0%R)) by (unfold exact; rewrite map_length; lia). rewrite nth_exact by lia.
      rewrite numeric_get by assumption. cbn [bind nsub nadd nmul XR lift2 xabs]. rewrite IH by assumption. cbn [map Rsum].
      unfold dev. fold m. do 2 f_equal. lra. }
    cbn [nofZ XR]. etransitivity; [apply G; assumption|]. do 2 f_equal. lra.
Qed.

Lemma num_ada_error xs ms ws : forall leaves e, Forall (within xs ms) leaves -> length ws = length xs ->
  foreach leaves (fun cases imp =>
          let* e := NumAdaImpurity XR xabs (numeric xs) ms (exact ws) cases in Ok (nadd XR imp e)) (Some e)
  = Ok (Some (e + tree_error xs ms ws leaves)%R).
Proof.
  induction leaves as [|leaf leaves IH]; intros e Hw Lw; unfold tree_error; cbn [foreach map Rsum]; [do 2 f_equal; lra|].
  inversion Hw; subst. rewrite num_ada_impurity by assumption. cbn [bind nadd XR lift2]. rewrite IH by assumption.
  unfold tree_error. do 2 f_equal. lra.
Qed.

Lemma exact_upd us c x : c < length us -> upd (exact us) c (Some x : XR) = exact (upd us c x).
Proof.
  revert c. induction us as [|u us IH]; intros [|c] H; cbn in H; try lia; cbn; [reflexivity|]. f_equal. apply IH. lia.
Qed.

Lemma num_ada_leaf xs ms leaf (a e : R) n : within xs ms leaf -> length xs = n -> forall us, NoDup leaf -> length us = n ->
  exists vs, (let* m := NumMean XR (numeric xs) ms leaf in
     foreach leaf (fun c weights =>
              let* miss := get ms c in
              if miss then Ok weights
              else
                let* w := get weights c in
                let* x := get (numeric xs) c in
                set weights c (nmul XR w (xexp (nmul XR (Some a) (nsub XR (xabs (nsub XR x m)) (Some e)))))) (exact us))
     = Ok (exact vs) /\ length vs = n /\ forall d, nth d vs 0%R =
        if mem d (known ms leaf) then (nth d us 0 * exp (a * (dev xs ms leaf d - e)))%R else nth d us 0%R.
Proof.
  intros Hw Lx us Nd Lu. rewrite num_mean_value by assumption. cbn [bind].
  destruct (length (known ms leaf) =? 0) eqn:Z0.
  - apply Nat.eqb_eq, length_zero_iff_nil in Z0. exists us. rewrite Z0. split; [|split; [assumption|reflexivity]].
    apply (known_nil_loop ms (fun c weights => let* w := get weights c in let* x := get (numeric xs) c in
      set weights c (nmul XR w (xexp (nmul XR (Some a) (nsub XR (xabs (nsub XR x None)) (Some e))))))); [|assumption].
    eapply Forall_impl; [|exact Hw]. cbn. tauto.
  - set (m := mean (kvals xs ms leaf)). clear Z0.
    assert (G : forall cs us, within xs ms cs -> NoDup cs -> length us = n -> exists vs,
      foreach cs (fun c weights =>
              let* miss := get ms c in
              if miss then Ok weights
              else
                let* w := get weights c in
                let* x := get (numeric xs) c in
                set weights c (nmul XR w (xexp (nmul XR (Some a) (nsub XR (xabs (nsub XR x (Some m))) (Some e)))))) (exact us)
      = Ok (exact vs) /\ length vs = n /\ forall d, nth d vs 0%R =
        if mem d (known ms cs) then (nth d us 0 * exp (a * (dev xs ms leaf d - e)))%R else nth d us 0%R).
    { clear us Nd Lu. induction cs as [|c cs IH]; intros us Hc Nd Lu; [exists us; repeat split; assumption|].
      inversion Hc as [|? ? [C1 C2] C3]; subst. inversion Nd as [|? ? N1 N2]; subst. cbn [foreach].
      rewrite (get_lt ms c true) by assumption. cbn [bind]. rewrite known_cons. destruct (nth c ms true) eqn:Em; cbn [bind].
      { destruct (IH us C3 N2 Lu) as (vs & E & L & V). exists vs. auto. }
      rewrite (get_lt (exact us) c (Some 0%R)) by (unfold exact; rewrite map_length; lia). rewrite nth_exact by lia.
      rewrite numeric_get by assumption. cbn [bind nsub nadd nmul XR lift2 xabs xexp].
      rewrite set_ok by (unfold exact; rewrite map_length; lia). cbn [bind]. rewrite exact_upd by lia.
      destruct (IH (upd us c (nth c us 0 * exp (a * (Rabs (nth c xs 0 - m) - e)))%R) C3 N2) as (vs & E & L & V); [rewrite upd_length; assumption|].
      exists vs. split; [exact E|]. split; [exact L|]. intros d. rewrite V, nth_upd by lia.
      cbn [mem existsb]. fold (mem d (known ms cs)).
      assert (Nc : mem c (known ms cs) = false).
      { apply not_true_is_false. rewrite mem_In. intros H. apply N1. unfold known in H. apply filter_In in H. tauto. }
      destruct (d =? c) eqn:Edc.
      - apply Nat.eqb_eq in Edc. subst d. rewrite Nc. cbn [orb]. reflexivity.
      - cbn [orb]. reflexivity. }
    apply G; assumption.
Qed.

Lemma num_ada_leaves xs ms (a e : R) n : length xs = n -> forall leaves us, Forall (within xs ms) leaves ->
  NoDup (concat leaves) -> length us = n ->
  exists vs, foreach leaves (fun cases weights =>
            let* m := NumMean XR (numeric xs) ms cases in
            foreach cases (fun c weights =>
              let* miss := get ms c in
              if miss then Ok weights
              else
                let* w := get weights c in
                let* x := get (numeric xs) c in
                set weights c (nmul XR w (xexp (nmul XR (Some a) (nsub XR (xabs (nsub XR x m)) (Some e)))))) weights) (exact us)
     = Ok (exact vs) /\ length vs = n /\ forall d, boosted xs ms leaves a e d (nth d us 0%R) (nth d vs 0%R).
Proof.
  intros Lx. induction leaves as [|leaf leaves IH]; intros us Hw Nd Lu.
  - exists us. split; [reflexivity|]. split; [assumption|]. intros d. split; [intros leaf []|reflexivity].
  - inversion Hw; subst. cbn [concat] in Nd. cbn [foreach].
    destruct (num_ada_leaf xs ms leaf a e (length xs) H1 eq_refl us (nodup_app_l _ _ Nd) Lu) as (v1 & E1 & L1 & V1).
    destruct (IH v1 H2 (nodup_app_r _ _ Nd) L1) as (v2 & E2 & L2 & V2).
    exists v2. split; [|split; [exact L2|]].
    { etransitivity; [|exact E2]. match goal with |- bind ?X _ = _ => assert (EX : X = Ok (exact v1)) by exact E1; rewrite EX end. reflexivity. }
    assert (D : forall d l', In d (known ms leaf) -> In l' leaves -> ~ In d (known ms l')).
    { intros d l' K1 K2 K3. unfold known in K1, K3. apply filter_In in K1 as [K1 _]. apply filter_In in K3 as [K3 _].
      assert (K4 : In d (concat leaves)) by (apply in_concat; exists l'; auto). clear - Nd K1 K4.
      induction leaf as [|c leaf IH]; [contradiction|]. cbn in Nd. inversion Nd; subst. destruct K1 as [->|K1]; [apply H1, in_app_iff; auto|auto]. }
    intros d. destruct (V2 d) as [B1 B2]. rewrite V1 in B1, B2. split.
    + intros l' [->|Hl] Hd.
      * rewrite (proj2 (mem_In d (known ms l')) Hd) in B2. apply B2. intros l'' H. eapply D; eassumption.
      * destruct (mem d (known ms leaf)) eqn:Mm; [apply mem_In in Mm; exfalso; eapply D; eassumption|]. apply B1; assumption.
    + intros Hn. destruct (mem d (known ms leaf)) eqn:Mm; [apply mem_In in Mm; exfalso; apply (Hn leaf); [left; reflexivity|assumption]|].
      apply B2. intros l' H. apply Hn. right. assumption.
Qed.

(** With a positive error not above the norm factor the new weights are a distribution, and
    before normalisation every known case is multiplied by [exp (a (dev - error))]. *)
Theorem C94_new_weights_partial : forall xs ms ws leaves norm,
  length ws = length xs -> Forall (within xs ms) leaves -> NoDup (concat leaves) ->
  xs <> [] -> leaves <> [] -> Forall (fun w => (0 < w)%R) ws ->
  let e := tree_error xs ms ws leaves in
  (0 < e <= norm)%R ->
  exists W, NumAdaBoost XR xabs xlog xexp (numeric xs) ms (Some norm) leaves (exact ws)
      = Ok (exact (map (fun w => w / Rsum W)%R W), Some (ln (norm / e)))
    /\ length W = length ws /\ Forall (fun w => (0 < w)%R) W
    /\ Rsum (map (fun w => w / Rsum W)%R W) = 1%R
    /\ (0 <= ln (norm / e))%R
    /\ forall d, boosted xs ms leaves (ln (norm / e)) e d (nth d ws 0%R) (nth d W 0%R).
Proof.
  intros xs ms ws leaves norm Lw Hw Nd Hx Hl Hp e He. unfold NumAdaBoost.
  destruct (length leaves =? 0) eqn:Z0; [apply Nat.eqb_eq, length_zero_iff_nil in Z0; congruence|]. cbn [nofZ XR].
  pose proof (num_ada_error xs ms ws leaves 0 Hw Lw) as E. fold e in E. rewrite Rplus_0_l in E.
  match goal with |- context [bind ?X _] => assert (EX : X = Ok (Some e : XR)) by exact E; rewrite EX; clear EX E end. cbn [bind nltb XR xcmp].
  unfold Rltb. destruct (Rlt_dec norm e); [lra|]. cbn [ndiv XR]. rewrite xdiv_some by lra. cbn [xlog].
  destruct (num_ada_leaves xs ms (ln (norm / e)) e (length xs) eq_refl leaves ws Hw Nd Lw) as (W & E & LW & B).
  match goal with |- context [bind ?X _] => assert (EX : X = Ok (exact W)) by exact E; rewrite EX; clear EX E end. cbn [bind].
  assert (HW : Forall (fun w => (0 < w)%R) W).
  { apply Forall_forall. intros w Hi. destruct (In_nth W w 0%R Hi) as (d & Hd & <-). destruct (B d) as [B1 B2].
    assert (P : (0 < nth d ws 0)%R) by (rewrite Forall_forall in Hp; apply Hp, nth_In; lia).
    destruct (existsb (fun leaf => mem d (known ms leaf)) leaves) eqn:Ex.
    - apply existsb_exists in Ex as (leaf & K1 & K2). apply mem_In in K2. rewrite (B1 leaf K1 K2). apply Rmult_lt_0_compat; [assumption|apply exp_pos].
    - rewrite B2; [assumption|]. intros leaf K1 K2. apply mem_In in K2.
      assert (existsb (fun leaf => mem d (known ms leaf)) leaves = true) by (apply existsb_exists; exists leaf; auto). congruence. }
  assert (Ps : (0 < Rsum W)%R).
  { apply Rsum_pos; [|assumption]. destruct W; [|discriminate]. cbn in LW. destruct xs; [congruence|discriminate]. }
  exists W. split; [|split; [congruence|split; [assumption|split; [|split; [|assumption]]]]].
  - pose proof (sum_exact W 0) as Es. rewrite Rplus_0_l in Es. rewrite Es. do 2 f_equal. unfold exact. rewrite !map_map. apply map_ext.
    intros w. apply xdiv_some. lra.
  - unfold Rdiv. rewrite (Rsum_scal_r (fun w => w) (/ Rsum W) W), map_id. apply Rinv_r. lra.
  - destruct (Rle_lt_or_eq_dec 1 (norm / e)) as [L|L].
    + apply Rmult_le_reg_r with e; [lra|]. unfold Rdiv. rewrite Rmult_assoc, Rinv_l by lra. lra.
    + left. rewrite <- ln_1. apply ln_increasing; lra.
    + rewrite <- L, ln_1. lra.
Qed.

(** A tree with an error above the norm factor changes nothing and gets weight 0. *)
Theorem C94_bad_tree : forall xs ms ws leaves norm, length ws = length xs -> Forall (within xs ms) leaves ->
  (norm < tree_error xs ms ws leaves)%R ->
  NumAdaBoost XR xabs xlog xexp (numeric xs) ms (Some norm) leaves (exact ws) = Ok (exact ws, Some 0%R).
Proof.
  intros xs ms ws leaves norm Lw Hw He. unfold NumAdaBoost. destruct (length leaves =? 0); [reflexivity|]. cbn [nofZ XR].
  pose proof (num_ada_error xs ms ws leaves 0 Hw Lw) as E. rewrite Rplus_0_l in E.
  match goal with |- context [bind ?X _] => assert (EX : X = _) by exact E; rewrite EX; clear EX E end. cbn [bind nltb XR xcmp].
  unfold Rltb. destruct (Rlt_dec norm _); [reflexivity|contradiction].
Qed.

Lemma tree_error_const xs ms n leaf : within xs ms leaf -> length xs = n ->
  tree_error xs ms (repeat (/ INR n)%R n) [leaf] = (/ INR n * Rsum (map (dev xs ms leaf) (known ms leaf)))%R.
Proof.
  intros Hw Lx. unfold tree_error, leaf_error. cbn [map Rsum]. rewrite Rplus_0_r, <- Rsum_scal. apply Rsum_ext.
  intros c Hc. f_equal. unfold known in Hc. apply filter_In in Hc as [Hc _]. unfold within in Hw. rewrite Forall_forall in Hw.
  destruct (Hw c Hc) as [H _]. 
  rewrite (nth_indep _ 0%R (/ INR n)%R) by (rewrite repeat_length; lia). apply nth_repeat.
Qed.

(** The first weights are equal and the norm factor is the absolute error of the mean of
    all known cases. *)
Theorem C94_first_weights : forall xs ms, xs <> [] -> length ms = length xs ->
  let n := length xs in
  NewNumAda XR xabs (numeric xs) ms
  = Ok (exact (repeat (/ INR n)%R n), Some (Rsum (map (dev xs ms (seq 0 n)) (known ms (seq 0 n))))).
Proof.
  intros xs ms Hx Lm n. unfold NewNumAda. pose proof (len_pos xs Hx) as Hn. rewrite Lm. fold n. cbn [nofZ ndiv XR].
  rewrite IZR_of_nat. fold n in Hn. rewrite xdiv_some by lra.
  replace (1 / INR n)%R with (/ INR n)%R by lra.
  assert (ER : forall j, repeat (Some (/ INR n)%R : xr) j = exact (repeat (/ INR n)%R j)).
  { induction j as [|j IHj]; cbn; [reflexivity|]. rewrite IHj. reflexivity. }
  rewrite ER.
  assert (W : within xs ms (seq 0 n)).
  { apply Forall_forall. intros i Hi. apply in_seq in Hi. unfold n in Hi. lia. }
  rewrite num_ada_impurity by (try assumption; apply repeat_length). cbn [bind nmul XR lift2]. do 3 f_equal.
  pose proof (tree_error_const xs ms n (seq 0 n) W eq_refl) as T. unfold tree_error in T. cbn [map Rsum] in T. rewrite Rplus_0_r in T. rewrite T.
  field. lra.
Qed.

(** In the first round the tree that is a single leaf, predicting the mean of everything,
    gets the weight log n: it is not recognised as useless. *)
Theorem C94_useless_tree_refuted : forall xs ms, length ms = length xs ->
  let n := length xs in
  ~ constant_list (kvals xs ms (seq 0 n)) ->
  exists ws norm W, NewNumAda XR xabs (numeric xs) ms = Ok (exact ws, Some norm) /\
    NumAdaBoost XR xabs xlog xexp (numeric xs) ms (Some norm) [seq 0 n] (exact ws) = Ok (W, Some (ln (INR n))) /\
    (0 < ln (INR n))%R.
Proof.
  intros xs ms Lm n Hc.
  assert (Hk : known ms (seq 0 n) <> []).
  { intros E. apply Hc. unfold kvals. rewrite E. intros a b []. }
  assert (Hx : xs <> []) by (intros ->; apply Hk; reflexivity).
  pose proof (len_pos xs Hx) as Hn. fold n in Hn.
  assert (W : within xs ms (seq 0 n)).
  { apply Forall_forall. intros i Hi. apply in_seq in Hi. unfold n in Hi. lia. }
  set (norm := Rsum (map (dev xs ms (seq 0 n)) (known ms (seq 0 n)))).
  assert (Pn : (0 < norm)%R).
  { assert (P0 : (0 <= norm)%R).
    { unfold norm, dev. apply (Rsum_abs_nonneg (fun c => nth c xs 0 - mean (kvals xs ms (seq 0 n)))%R). }
    destruct P0 as [P0|P0]; [assumption|]. exfalso. apply Hc.
    pose proof (Rsum_abs_zero (fun c => nth c xs 0 - mean (kvals xs ms (seq 0 n)))%R (known ms (seq 0 n)) (eq_sym P0)) as Z.
    intros a b Ha Hb. unfold kvals, values in Ha, Hb. apply in_map_iff in Ha as (i & <- & Hi). apply in_map_iff in Hb as (j & <- & Hj).
    pose proof (Z i Hi). pose proof (Z j Hj). cbn beta in *. lra. }
  assert (T : tree_error xs ms (repeat (/ INR n)%R n) [seq 0 n] = (/ INR n * norm)%R) by (apply tree_error_const; auto).
  assert (In1 : (1 < INR n)%R).
  { change 1%R with (INR 1). apply lt_INR. destruct (Nat.lt_ge_cases 1 n) as [H|H]; [assumption|exfalso]. apply Hc.
    assert (En : n = 1) by (destruct n as [|[|]]; [cbn in Hn; lra|reflexivity|lia]). rewrite En in *.
    intros a b Ha Hb. unfold kvals, known in Ha, Hb. cbn in Ha, Hb. destruct (negb (nth 0 ms true)); cbn in Ha, Hb; [|contradiction].
    destruct Ha as [<-|[]], Hb as [<-|[]]. reflexivity. }
  assert (I1 : (0 < / INR n < 1)%R).
  { split; [apply Rinv_0_lt_compat; assumption|]. rewrite <- Rinv_1. apply Rinv_lt_contravar; lra. }
  destruct (C94_new_weights_partial xs ms (repeat (/ INR n)%R n) [seq 0 n] norm) as (W' & E & _); auto.
  { apply repeat_length. } { cbn [concat]. rewrite app_nil_r. apply seq_NoDup. } { discriminate. }
  { apply Forall_forall. intros w Hw. apply repeat_spec in Hw. subst w. lra. }
  { rewrite T. split; [apply Rmult_lt_0_compat; lra|]. nra. }
  exists (repeat (/ INR n)%R n), norm. eexists. split; [apply C94_first_weights; assumption|]. rewrite T in E.
  replace (norm / (/ INR n * norm))%R with (INR n) in E by (field; lra). split; [exact E|].
  rewrite <- ln_1. apply ln_increasing; lra.
Qed.

(** A tree without error destroys the weights: the division of the norm factor by 0. *)
Theorem C94_perfect_tree_refuted : forall xs ms ws leaves norm,
  length ws = length xs -> Forall (within xs ms) leaves -> (0 <= norm)%R ->
  tree_error xs ms ws leaves = 0%R -> (exists leaf, In leaf leaves /\ known ms leaf <> []) ->
  NumAdaBoost XR xabs xlog xexp (numeric xs) ms (Some norm) leaves (exact ws) = Ok (repeat None (length ws), None).
Proof.
  intros xs ms ws leaves norm Lw Hw Hn He (leaf & Hl & Hk). unfold NumAdaBoost.
  destruct (length leaves =? 0) eqn:Z0; [apply Nat.eqb_eq, length_zero_iff_nil in Z0; subst; contradiction|]. cbn [nofZ XR].
  pose proof (num_ada_error xs ms ws leaves 0 Hw Lw) as E. rewrite He, Rplus_0_l in E.
  match goal with |- context [bind ?X _] => assert (EX : X = Ok (Some 0%R : XR)) by exact E; rewrite EX; clear EX E end. cbn [bind nltb XR xcmp].
  unfold Rltb. destruct (Rlt_dec norm 0); [lra|]. cbn [ndiv XR].
  assert (ED : xdiv (Some norm) (Some 0%R) = None) by (unfold xdiv; destruct (Req_EM_T 0 0); [reflexivity|contradiction]). rewrite ED. cbn [xlog].
  set (step := fun (m : XR) c weights =>
              let* miss := get ms c in
              if miss then Ok weights
              else
                let* w := get weights c in
                let* x := get (numeric xs) c in
                set weights c (nmul XR w (xexp (nmul XR None (nsub XR (xabs (nsub XR x m)) (Some 0%R)))))).
  assert (G : forall m cs us, within xs ms cs -> length us = length xs -> exists vs,
     foreach cs (step m) us = Ok vs /\ length vs = length xs /\ (In None us \/ known ms cs <> [] -> In None vs)).
  { intros m. induction cs as [|c cs IH]; intros us Hc Lu; [exists us; split; [reflexivity|split; [assumption|intros [H|H]; [assumption|exfalso; apply H; reflexivity]]]|].
    inversion Hc as [|? ? [C1 C2] C3]; subst. cbn [foreach]. unfold step at 1. rewrite (get_lt ms c true) by assumption. cbn [bind].
    rewrite known_cons. destruct (nth c ms true); cbn [bind]; [apply IH; assumption|].
    rewrite (get_lt us c None) by lia. cbn [bind]. match goal with |- context [get (numeric xs) c] => change (get (numeric xs) c) with (@get xr (numeric xs) c) end.
    rewrite numeric_get by assumption. cbn [bind]. cbn [nmul XR lift2 xexp].
    match goal with |- context [set us c ?x] => replace x with (None : xr) by (destruct (nth c us None); reflexivity) end.
    rewrite set_ok by lia. cbn [bind]. destruct (IH (upd us c None) C3) as (vs & E & L & V); [rewrite upd_length; assumption|].
    exists vs. split; [exact E|]. split; [exact L|]. intros _. apply V. left.
    assert (Hx : nth c (upd us c (None : XR)) (None : XR) = None) by (rewrite nth_upd, Nat.eqb_refl by lia; reflexivity).
    rewrite <- Hx at 1. apply nth_In. rewrite upd_length. lia. }
  assert (G2 : forall ls us, Forall (within xs ms) ls -> length us = length xs -> exists vs,
     foreach ls (fun cases weights => let* m := NumMean XR (numeric xs) ms cases in foreach cases (step m) weights) us = Ok vs /\
     length vs = length xs /\ (In None us \/ (exists l, In l ls /\ known ms l <> []) -> In None vs)).
  { induction ls as [|c ls IH]; intros us Hc Lu.
    - exists us. split; [reflexivity|]. split; [assumption|]. intros [H|(l & [] & _)]. assumption.
    - inversion Hc; subst. cbn [foreach]. rewrite num_mean_value by assumption. cbn [bind].
      destruct (G (if length (known ms c) =? 0 then None else Some (mean (kvals xs ms c))) c us H1 Lu) as (v1 & E1 & L1 & V1).
      destruct (IH v1 H2 L1) as (v2 & E2 & L2 & V2). exists v2. split.
      { match goal with |- bind ?X _ = _ => assert (EX : X = Ok v1) by exact E1; rewrite EX end. exact E2. }
      split; [assumption|]. intros [H|(l & [->|Hl2] & Hk2)]; apply V2.
      + left. apply V1. left. assumption.
      + left. apply V1. right. assumption.
      + right. exists l. auto. }
  destruct (G2 leaves (exact ws) Hw) as (vs & E & L & V); [unfold exact; rewrite map_length; assumption|].
  match goal with |- context [bind ?X _] => assert (EX : X = Ok vs) by exact E; rewrite EX; clear EX E end. cbn [bind].
  assert (ET : forall us s, In None us -> fold_left (nadd XR) us s = None).
  { assert (EN : forall us, fold_left (nadd XR) us None = None) by (induction us as [|u us IH]; [reflexivity|exact IH]).
    induction us as [|u us IH]; intros s H; [contradiction|]. destruct H as [->|H]; cbn [fold_left].
    - replace (nadd XR s None) with (None : XR) by (destruct s; reflexivity). apply EN.
    - apply IH. assumption. }
  rewrite ET by (apply V; right; exists leaf; auto). do 2 f_equal. rewrite Lw, <- L. clear.
  induction vs as [|v vs IH]; cbn [map length repeat]; [reflexivity|]. rewrite IH. f_equal. destruct v; reflexivity.
Qed.

(** In float64, with log(+Inf) = +Inf and exp(NaN) = NaN: two cases, each in its own leaf. *)
Example ex_perfect_tree nlog nexp : nlog (S754_infinity false) = S754_infinity false -> nexp S754_nan = S754_nan ->
  exists ws norm, NewNumAda F64 fabs [f_of_Z 1; f_of_Z 2] [false; false] = Ok (ws, norm) /\
  NumAdaBoost F64 fabs nlog nexp [f_of_Z 1; f_of_Z 2] [false; false] norm [[0]; [1]] ws
  = Ok ([S754_nan; S754_nan], S754_infinity false).
Proof.
  intros Hl He. eexists _, _. split; [vm_compute; reflexivity|]. unfold NumAdaBoost. cbn [length Nat.eqb].
  match goal with |- context [bind ?X _] => assert (EX : X = Ok f0) by (vm_compute; reflexivity); rewrite EX; clear EX end.
  cbn [bind].
  match goal with |- context [nlog ?x] => assert (EX : x = S754_infinity false) by (vm_compute; reflexivity); rewrite EX; clear EX end.
  rewrite Hl. cbn [foreach].
  match goal with |- context [NumMean F64 ?d ?m [0]] => replace (NumMean F64 d m [0]) with (Ok (f_of_Z 1 : F64)) by (vm_compute; reflexivity) end.
  match goal with |- context [NumMean F64 ?d ?m [1]] => replace (NumMean F64 d m [1]) with (Ok (f_of_Z 2 : F64)) by (vm_compute; reflexivity) end.
  cbn [bind get nth_error].
  repeat match goal with |- context [nexp ?x] => replace x with S754_nan by (vm_compute; reflexivity); rewrite He end.
  vm_compute. reflexivity.
Qed.

Example ex_boosted : let xs := [0; 1; 5; 7]%R in let ms := repeat false 4 in let ws := repeat (/ 4)%R 4 in let leaves := [[0; 1]; [2; 3]] in
  Forall (within xs ms) leaves /\ NoDup (concat leaves) /\ (0 < tree_error xs ms ws leaves <= 11)%R.
Proof.
  cbv zeta. split; [repeat constructor|]. split.
  - cbn. repeat (constructor; [cbn; intuition lia|]). constructor.
  - unfold tree_error, leaf_error, dev, kvals, mean. cbn.
    rewrite (Rabs_left1 (0 - _)%R), (Rabs_pos_eq (1 - _)%R), (Rabs_left1 (5 - _)%R), (Rabs_pos_eq (7 - _)%R) by lra. lra.
Qed.

(** ** C95 *)

(** The share of the cases of class [c] that a split sends left. *)
Definition sent_left (data l r : list nat) (c : nat) : R :=
  (INR (occurs (labels data l) c) / INR (occurs (labels data l) c + occurs (labels data r) c))%R.
Definition present (data l r : list nat) (c : nat) : Prop := 0 < occurs (labels data l) c + occurs (labels data r) c.
(** The Hellinger distance of the two distributions a two class split makes, from the
    shares [a] and [b] of the classes that go left. *)
Definition hellinger (a b : R) : R := sqrt ((sqrt a - sqrt b) ^ 2 + (sqrt (1 - a) - sqrt (1 - b)) ^ 2).

Lemma hdist_split_counts A data k l r cs : 2 <= k -> labelled data k l -> labelled data k r ->
  length (kL cs) = k -> length (kR cs) = k ->
  HDistSplit A data l r cs = (let* d := HDist A (counts data k l) (counts data k r) in Ok (d, mkK (counts data k l) (counts data k r) (kM cs))).
Proof.
  intros Hk Hl Hr Kl Kr. unfold HDistSplit. rewrite CountPerCat_ok by (rewrite Kl; assumption). rewrite Kl. cbn [bind].
  rewrite CountPerCat_ok by (rewrite Kr; assumption). rewrite Kr. reflexivity.
Qed.
Lemma counts_two data k l : 2 <= k -> exists t, counts data k l =
  Z.of_nat (occurs (labels data l) 0) :: Z.of_nat (occurs (labels data l) 1) :: t.
Proof. intros H. destruct k as [|[|k]]; try lia. unfold counts. cbn [seq map]. eexists. reflexivity. Qed.

(** With both classes present the score of a split is twice the squared difference of the
    shares that go left. *)
Theorem C95_score_partial : forall data k l r cs, 2 <= k -> labelled data k l -> labelled data k r ->
  length (kL cs) = k -> length (kR cs) = k -> present data l r 0 -> present data l r 1 ->
  exists v cs', HDistSplit XR data l r cs = Ok (Some v, cs')
    /\ v = (2 * (sent_left data l r 0 - sent_left data l r 1) ^ 2)%R
    /\ (0 <= v <= 2)%R
    /\ (v = 0%R <-> sent_left data l r 0 = sent_left data l r 1)
    /\ (v = 2%R <-> (occurs (labels data l) 0 = 0 /\ occurs (labels data r) 1 = 0)
                    \/ (occurs (labels data l) 1 = 0 /\ occurs (labels data r) 0 = 0)).
Proof.
  intros data k l r cs Hk Hl Hr Kl Kr P0 P1. rewrite (hdist_split_counts XR data k) by assumption.
  destruct (counts_two data k l Hk) as (tl & ->). destruct (counts_two data k r Hk) as (tr & ->).
  unfold sent_left. unfold present in P0, P1.
  set (l0 := occurs (labels data l) 0) in *. set (l1 := occurs (labels data l) 1) in *.
  set (r0 := occurs (labels data r) 0) in *. set (r1 := occurs (labels data r) 1) in *.
  assert (T0 : (0 < INR (l0 + r0))%R) by (apply lt_0_INR; assumption).
  assert (T1 : (0 < INR (l1 + r1))%R) by (apply lt_0_INR; assumption).
  unfold HDist. cbn [get nth_error bind]. unfold num. cbn [nofZ XR nsub ndiv nmul nadd].
  rewrite <- !Nat2Z.inj_add, !IZR_of_nat, !xdiv_some by lra. cbn [lift2 bind].
  set (a := (INR l0 / INR (l0 + r0))%R). set (b := (INR l1 / INR (l1 + r1))%R).
  assert (Ra : (INR r0 / INR (l0 + r0) = 1 - a)%R) by (unfold a; rewrite plus_INR in *; field; lra).
  assert (Rb : (INR r1 / INR (l1 + r1) = 1 - b)%R) by (unfold b; rewrite plus_INR in *; field; lra).
  rewrite Ra, Rb.
  assert (Ba : (0 <= a <= 1)%R).
  { assert (0 <= a)%R by (apply Rmult_le_pos; [apply pos_INR|left; apply Rinv_0_lt_compat; assumption]).
    assert (0 <= 1 - a)%R by (rewrite <- Ra; apply Rmult_le_pos; [apply pos_INR|left; apply Rinv_0_lt_compat; assumption]). lra. }
  assert (Bb : (0 <= b <= 1)%R).
  { assert (0 <= b)%R by (apply Rmult_le_pos; [apply pos_INR|left; apply Rinv_0_lt_compat; assumption]).
    assert (0 <= 1 - b)%R by (rewrite <- Rb; apply Rmult_le_pos; [apply pos_INR|left; apply Rinv_0_lt_compat; assumption]). lra. }
  assert (Za : forall x y, (0 < INR y)%R -> (INR x / INR y)%R = 0%R -> x = 0).
  { intros x y Hy E. apply INR_eq. apply (Rmult_eq_reg_r (/ INR y)); [cbn; unfold Rdiv in E; lra|]. apply Rinv_neq_0_compat. lra. }
  assert (Z0 : forall x y, x = 0 -> (INR x / INR y)%R = 0%R) by (intros x y ->; cbn; unfold Rdiv; ring).
  eexists _, _. split; [reflexivity|]. split; [ring|].
  assert (Sq : (0 <= (a - b) * (a - b) <= 1)%R).
  { clear - Ba Bb. clearbody a b. split; [apply (Rle_0_sqr (a - b))|].
    assert (0 <= (1 - (a - b)) * (1 + (a - b)))%R by (apply Rmult_le_pos; lra). lra. }
  replace (1 - a - (1 - b))%R with (- (a - b))%R by ring. replace (- (a - b) * - (a - b))%R with ((a - b) * (a - b))%R by ring.
  split; [lra|]. split.
  - split; [|intros ->; ring]. intros E. assert ((a - b) * (a - b) = 0)%R by lra. apply Rmult_integral in H. lra.
  - split.
    + intros E. assert (E2 : ((a - b) * (a - b) = 1)%R) by lra.
      assert (E3 : ((a - b - 1) * (a - b + 1) = 0)%R) by lra. apply Rmult_integral in E3 as [E3|E3].
      * right. split; [apply (Za l1 (l1 + r1) T1); fold b; lra|apply (Za r0 (l0 + r0) T0); lra].
      * left. split; [apply (Za l0 (l0 + r0) T0); fold a; lra|apply (Za r1 (l1 + r1) T1); lra].
    + intros [[H1 H2]|[H1 H2]].
      * pose proof (Z0 _ (l0 + r0) H1) as Q1. pose proof (Z0 _ (l1 + r1) H2) as Q2. fold a in Q1. rewrite Rb in Q2.
        replace b with 1%R by lra. rewrite Q1. ring.
      * pose proof (Z0 _ (l1 + r1) H1) as Q1. pose proof (Z0 _ (l0 + r0) H2) as Q2. fold b in Q1. rewrite Ra in Q2.
        replace a with 1%R by lra. rewrite Q1. ring.
Qed.

(** The score does not order splits as the Hellinger distance does: HDist drops the square
    roots of the shares.  Both splits are of the same 200 cases. *)
Theorem C95_not_hellinger_refuted : exists l r l' r' v v',
  HDist XR l r = Ok (Some v) /\ HDist XR l' r' = Ok (Some v') /\
  (forall c, nth c l 0 + nth c r 0 = nth c l' 0 + nth c r' 0)%Z /\
  let share l r c := (IZR (nth c l 0%Z) / IZR (nth c l 0%Z + nth c r 0%Z))%R in
  (v < v')%R /\ (hellinger (share l' r' 0%nat) (share l' r' 1%nat) < hellinger (share l r 0%nat) (share l r 1%nat))%R.
Proof.
  exists [0; 25]%Z, [100; 75]%Z, [64; 36]%Z, [36; 64]%Z, (1 / 8)%R, (98 / 625)%R.
  split; [|split; [|split]].
  - unfold HDist, num. cbn [get nth_error bind]. change (0 + 100)%Z with 100%Z. change (25 + 75)%Z with 100%Z.
    change (64 + 36)%Z with 100%Z. change (36 + 64)%Z with 100%Z. cbn [nofZ XR nsub ndiv nmul nadd]. rewrite !xdiv_some by lra.
    cbn [lift2]. do 2 f_equal. lra.
  - unfold HDist, num. cbn [get nth_error bind]. change (0 + 100)%Z with 100%Z. change (25 + 75)%Z with 100%Z.
    change (64 + 36)%Z with 100%Z. change (36 + 64)%Z with 100%Z. cbn [nofZ XR nsub ndiv nmul nadd]. rewrite !xdiv_some by lra.
    cbn [lift2]. do 2 f_equal. lra.
  - intros [|[|[|c]]]; reflexivity.
  - cbv zeta. cbn [nth]. change (0 + 100)%Z with 100%Z. change (25 + 75)%Z with 100%Z.
    change (64 + 36)%Z with 100%Z. change (36 + 64)%Z with 100%Z. split; [lra|]. unfold hellinger.
    replace (64 / 100)%R with ((4 / 5) * (4 / 5))%R by lra. replace (36 / 100)%R with ((3 / 5) * (3 / 5))%R by lra.
    replace (1 - 4 / 5 * (4 / 5))%R with ((3 / 5) * (3 / 5))%R by lra. replace (1 - 3 / 5 * (3 / 5))%R with ((4 / 5) * (4 / 5))%R by lra.
    replace (25 / 100)%R with ((1 / 2) * (1 / 2))%R by lra. replace (0 / 100)%R with 0%R by lra.
    rewrite !sqrt_square, sqrt_0 by lra. apply sqrt_lt_1.
    + lra.
    + pose proof (pow2_ge_0 (sqrt (1 - 0) - sqrt (1 - 1 / 2 * (1 / 2)))). lra.
    + pose proof (pow2_ge_0 (sqrt (1 - 0) - sqrt (1 - 1 / 2 * (1 / 2)))). lra.
Qed.

(** Only the first two classes count: a split that puts all the cases of the other classes
    apart from them scores 0. *)
Theorem C95_other_classes_refuted : forall data k l r cs, 2 <= k -> labelled data k l -> labelled data k r ->
  length (kL cs) = k -> length (kR cs) = k ->
  present data l r 0 -> present data l r 1 -> Forall (fun i => 2 <= nth i data 0) r ->
  exists cs', HDistSplit XR data l r cs = Ok (Some 0%R, cs').
Proof.
  intros data k l r cs Hk Hl Hr Kl Kr P0 P1 Ho.
  destruct (C95_score_partial data k l r cs Hk Hl Hr Kl Kr P0 P1) as (v & cs' & E & _ & _ & Z & _). exists cs'.
  assert (N : forall c, c < 2 -> occurs (labels data r) c = 0).
  { intros c Hc. apply count_occ_not_In. intros Hi. unfold labels in Hi. apply in_map_iff in Hi as (i & Hi & Hr2).
    rewrite Forall_forall in Ho. specialize (Ho i Hr2). lia. }
  rewrite E. assert (v = 0%R); [|subst; reflexivity]. apply Z. unfold sent_left, present in *.
  rewrite !N, !Nat.add_0_r in * by lia. unfold Rdiv. rewrite !Rinv_r by (apply not_0_INR; lia). reflexivity.
Qed.

(** A node in which one of the first two classes does not occur is never split: all scores
    are NaN, even if several other classes occur. *)
Theorem C95_absent_class_refuted : forall data k l r cs c, 2 <= k -> labelled data k l -> labelled data k r ->
  length (kL cs) = k -> length (kR cs) = k -> c < 2 -> ~ present data l r c ->
  exists cs', HDistSplit F64 data l r cs = Ok (S754_nan, cs').
Proof.
  intros data k l r cs c Hk Hl Hr Kl Kr Hc P. rewrite (hdist_split_counts F64 data k) by assumption.
  destruct (counts_two data k l Hk) as (tl & ->). destruct (counts_two data k r Hk) as (tr & ->).
  unfold present in P. eexists. unfold HDist. cbn [get nth_error bind]. do 2 f_equal.
  assert (N0 : ndiv F64 (num F64 0) (num F64 (0 + 0)) = S754_nan) by reflexivity.
  assert (N1 : forall x, nsub F64 x S754_nan = S754_nan) by (intros [[]|[]| |[] ? ?]; reflexivity).
  assert (N2 : forall x, nsub F64 S754_nan x = S754_nan) by (intros [[]|[]| |[] ? ?]; reflexivity).
  assert (N3 : forall x, nadd F64 S754_nan x = S754_nan) by (intros [[]|[]| |[] ? ?]; reflexivity).
  assert (Hc2 : c = 0 \/ c = 1) by lia. destruct Hc2 as [-> | ->].
  - assert (Z1 : occurs (labels data l) 0 = 0) by lia. assert (Z2 : occurs (labels data r) 0 = 0) by lia. rewrite Z1, Z2.
    change (Z.of_nat 0) with 0%Z. rewrite N0, N2. apply N3.
  - assert (Z1 : occurs (labels data l) 1 = 0) by lia. assert (Z2 : occurs (labels data r) 1 = 0) by lia. rewrite Z1, Z2.
    change (Z.of_nat 0) with 0%Z. rewrite N0, N1. apply N3.
Qed.

(** A target with a single category makes every score panic. *)
Theorem C95_one_class_refuted : forall A data l r cs, labelled data 1 l -> labelled data 1 r ->
  length (kL cs) = 1 -> length (kR cs) = 1 -> HDistSplit A data l r cs = Panic.
Proof.
  intros A data l r cs Hl Hr Kl Kr. unfold HDistSplit. rewrite CountPerCat_ok by (rewrite Kl; assumption). rewrite Kl. cbn [bind].
  rewrite CountPerCat_ok by (rewrite Kr; assumption). rewrite Kr. reflexivity.
Qed.

(** A leaf predicts the share of its cases that have the positive class. *)
Theorem C95_prediction_partial : forall f pos t cases, assoc pos (cmMap (cMap f)) = Some t ->
  Forall (fun i => i < length (cData f)) cases -> cases <> [] ->
  HDistPredicted XR f pos cases = Ok (Some (INR (occurs (labels (cData f) cases) t) / INR (length cases))%R, cMap f).
Proof.
  intros f pos t cases Ht Hi Hne. unfold HDistPredicted, CatToNum. rewrite Ht. pose proof (len_pos cases Hne) as Hp.
  assert (G : forall cs n, Forall (fun i => i < length (cData f)) cs ->
    foreach cs (fun i count => let* c := cGeti f i in Ok (if c =? t then count + 1 else count)) n
    = Ok (n + occurs (labels (cData f) cs) t)).
  { induction cs as [|i cs IH]; intros n H; [cbn; f_equal; lia|]. inversion H; subst. cbn [foreach]. unfold cGeti at 1.
    rewrite (get_lt (cData f) i 0) by assumption. cbn [bind]. rewrite IH by assumption. unfold occurs, labels. cbn [map count_occ].
    destruct (Nat.eqb_spec (nth i (cData f) 0) t), (Nat.eq_dec (nth i (cData f) 0) t); try congruence; f_equal; lia. }
  rewrite G by assumption. cbn [bind plus]. unfold num, len. cbn [ndiv nofZ XR]. rewrite !IZR_of_nat, xdiv_some by lra. reflexivity.
Qed.

(** A positive class that is not a category of the target, the default -positive "True" on
    other names for example, makes every leaf predict 0, and the first prediction adds the
    class to the target. *)
Theorem C95_unknown_positive_refuted : forall f pos cases, assoc pos (cmMap (cMap f)) = None ->
  Forall (fun i => i < length (cData f) /\ nth i (cData f) 0 < NCats (cMap f)) cases -> cases <> [] ->
  exists cm, HDistPredicted XR f pos cases = Ok (Some 0%R, cm) /\ cmBack cm = cmBack (cMap f) ++ [pos] /\
    NCats cm = NCats (cMap f) + 1.
Proof.
  intros f pos cases Ht Hi Hne. unfold HDistPredicted, CatToNum. rewrite Ht. pose proof (len_pos cases Hne) as Hp.
  exists (mkCM ((pos, length (cmBack (cMap f))) :: cmMap (cMap f)) (cmBack (cMap f) ++ [pos])).
  split; [|split; [reflexivity|unfold NCats; cbn [cmBack]; rewrite app_length; reflexivity]].
  assert (G : forall cs, Forall (fun i => i < length (cData f) /\ nth i (cData f) 0 < NCats (cMap f)) cs ->
    foreach cs (fun i count => let* c := cGeti f i in Ok (if c =? length (cmBack (cMap f)) then count + 1 else count)) 0 = Ok 0).
  { induction cs as [|i cs IH]; intros H; [reflexivity|]. inversion H as [|? ? [H1 H2] H3]; subst. cbn [foreach]. unfold cGeti at 1.
    rewrite (get_lt (cData f) i 0) by assumption. cbn [bind]. unfold NCats in H2.
    destruct (Nat.eqb_spec (nth i (cData f) 0) (length (cmBack (cMap f)))); [lia|]. apply IH; assumption. }
  rewrite G by assumption. cbn [bind]. unfold num, len. cbn [ndiv nofZ XR Z.of_nat]. rewrite !IZR_of_nat, xdiv_some by lra.
  do 3 f_equal. unfold Rdiv. ring.
Qed.

Example ex_hdist : let data := [0; 0; 1; 1; 2] in
  labelled data 3 [0; 1; 2] /\ labelled data 3 [3; 4] /\ present data [0; 1; 2] [3; 4] 0 /\ present data [0; 1; 2] [3; 4] 1 /\
  Forall (fun i => 2 <= nth i data 0) [4] /\ ~ present data [2] [3; 4] 0.
Proof. cbv zeta. split; [repeat constructor|]. split; [repeat constructor|]. unfold present. cbn. repeat split; try lia. repeat constructor. Qed.

Print Assumptions C92_absolute_deviation.
Print Assumptions C92_split_at_most_doubles_partial.
Print Assumptions C92_all_missing_refuted.
Print Assumptions C93_most_frequent_class_partial.
Print Assumptions C93_negative_class_refuted.
Print Assumptions C94_new_weights_partial.
Print Assumptions C94_bad_tree.
Print Assumptions C94_first_weights.
Print Assumptions C94_useless_tree_refuted.
Print Assumptions C94_perfect_tree_refuted.
Print Assumptions C95_score_partial.
Print Assumptions C95_not_hellinger_refuted.
Print Assumptions C95_absent_class_refuted.
Print Assumptions C95_unknown_positive_refuted.
