(** Property C88, continued: what the continued fraction of the t test says about the
    incomplete beta function, and so about the p value. *)
From Verif Require Import Go GoLemmas F64 Exact ImpuritySpec ImpurityProofs ModelStats StatsSpec GaussProofs PropStats.
From Coq Require Import Reals Lra Lia.
Local Open Scope nat_scope.
Local Open Scope list_scope.
Local Open Scope R_scope.

Lemma ht_one A C k : 0 < C -> ht A 1 C k = rising A k / rising C k.
Proof.
  intros HC. assert (P : forall k, 0 < rising C k).
  { induction k0 as [|j IH]; cbn [rising]; [lra|]. pose proof (pos_INR j). apply Rmult_lt_0_compat; lra. }
  induction k as [|k IH]; cbn [ht rising]; [field|]. rewrite IH. pose proof (pos_INR k). pose proof (P k). field. repeat split; lra.
Qed.
Lemma incbeta_of beta x a b l : 0 < a -> sums x (a + b + INR 0) (INR 0 + 1) (a + 2 * INR 0 + 1) l ->
  is_incbeta beta x a b (Rpower x a * Rpower (1 - x) b / (a * beta) * l).
Proof.
  intros Ha H. unfold is_incbeta. set (w := Rpower x a * Rpower (1 - x) b / (a * beta)).
  assert (E : forall n, sum_f_R0 (fun k => w * (rising (a + b) k / rising (a + 1) k * x ^ k)) n
    = w * sum_f_R0 (fun k => ht (a + b + INR 0) (INR 0 + 1) (a + 2 * INR 0 + 1) k * x ^ k) n).
  { intros n. rewrite scal_sum. apply sum_eq. intros i _. cbn [INR].
    replace (a + b + 0) with (a + b) by ring. replace (0 + 1) with 1 by ring. replace (a + 2 * 0 + 1) with (a + 1) by ring.
    rewrite ht_one by lra. ring. }
  assert (G : Un_cv (fun n => w * sum_f_R0 (fun k => ht (a + b + INR 0) (INR 0 + 1) (a + 2 * INR 0 + 1) k * x ^ k) n) (w * l)).
  { apply (CV_mult (fun _ => w)); [|exact H]. intros e He. exists 0%nat. intros. rewrite R_dist_eq. auto. }
  intros eps He. destruct (G eps He) as [N HN]. exists N. intros n Hn. rewrite E. apply HN; auto.
Qed.

Section Integral.
  Variables (exp lgamma : XR -> XR) (pow : XR -> XR -> XR).
  Notation reg := (regularizedIncompleteBeta XR exp lgamma pow).
  (** The library functions at one argument: powers, and the beta function from exp and lgamma. *)
  Definition right_at (x a b beta : R) : Prop :=
    pow (Some x) (Some a) = Some (Rpower x a) /\ pow (Some (1 - x)) (Some b) = Some (Rpower (1 - x) b)
    /\ 0 < beta
    /\ exists la lb lab, lgamma (Some a) = Some la /\ lgamma (Some b) = Some lb /\ lgamma (Some (a + b)) = Some lab
                         /\ exp (Some (la + lb - lab)) = Some beta.

(** Exact arithmetic: for arguments in (0,1) and a second parameter of at most one, the fifty
    steps answer a positive number that is at most the incomplete beta function.  If the second
    parameter is a whole number up to fifty they answer the function itself. *)
Theorem C88_incomplete_beta_partial : forall x a b beta,
  0 < x < 1 -> 0 < a -> 0 < b -> right_at x a b beta ->
  (b <= 1 \/ exists k, (1 <= k <= 50)%nat /\ b = INR k) ->
  exists r I, reg (Some x) (Some a) (Some b) = Some r /\ is_incbeta beta x a b I
    /\ 0 < r <= I /\ ((exists k, (1 <= k <= 50)%nat /\ b = INR k) -> r = I).
Proof.
  intros x a b beta Hx Ha Hb (P1 & P2 & Hbeta & la & lb & lab & L1 & L2 & L3 & L4) Hcov.
  destruct (Od_ex x Hx a b Ha Hb 0) as [o Ho].
  assert (C : exists c, fold_left (xstep x a b) (down 50) (Some 1) = Some c /\ above x a b 0 c
                        /\ ((exists k, (1 <= k <= 50)%nat /\ b = INR k) -> exactly x a b 0 c)).
  { assert (W : (exists k, (1 <= k <= 50)%nat /\ b = INR k) ->
                exists c, fold_left (xstep x a b) (down 50) (Some 1) = Some c /\ exactly x a b 0 c).
    { intros (k & Hk & Ek). destruct k as [|k]; [lia|].
      apply (fold_ends x Hx a b Ha Hb 50 k); [auto|lia|]. apply above_start; auto. rewrite Ek. apply le_INR. lia. }
    destruct Hcov as [Hb1|Hw].
    - destruct (fold_above x Hx a b Ha Hb 50 1) as (c & Ec & Hc); [auto|apply above_start; auto; pose proof (pos_INR 50); rewrite S_INR; lra|].
      exists c. split; [auto|]. split; [auto|]. intros Hw. destruct (W Hw) as (c2 & Ec2 & Hc2). rewrite Ec in Ec2. injection Ec2 as <-. auto.
    - destruct (W Hw) as (c & Ec & Hc). exists c. split; [auto|]. split; [apply exactly_above; auto|auto]. }
  destruct C as (c & Ec & Hab & Hex).
  pose proof (above_pos x Hx a b Ha Hb 0 c Hab) as Hc. pose proof (inner_pos x Hx a b Ha Hb 0 c Hab) as Hi.
  pose proof (inner_above x Hx a b Ha Hb 0 c Hab o 1 Ho (Ev_0 x a b)) as Hq.
  pose proof (Od_pos x Hx a b Ha Hb 0 o Ho) as Hop.
  set (pw := Rpower x a * Rpower (1 - x) b / (a * beta)).
  assert (Hpw : 0 < pw).
  { unfold pw, Rpower. apply Rdiv_lt_0_compat; apply Rmult_lt_0_compat; auto; apply exp_pos. }
  assert (Er : reg (Some x) (Some a) (Some b) = Some (pw / (1 + rO x a b 0 / c))).
  { unfold regularizedIncompleteBeta.
    change (map (fun k : nat => (50 - Z.of_nat k)%Z) (seq 0 50)) with (down 50).
    match goal with |- context [fold_left ?f (down 50) ?i] => assert (F : fold_left f (down 50) i = Some c) by exact Ec end.
    rewrite F. rewrite P1. change (nsub XR (nofZ XR 1) (Some x)) with (Some (1 - x)). rewrite P2. unfold betaf. rewrite L1, L2. cbn [nadd nsub XR lift2]. rewrite L3. cbn [lift2]. rewrite L4.
    change (nofZ XR 0) with (nofZ XR (Z.of_nat 0)). rewrite dO_some by auto. cbn [nadd nmul ndiv nofZ XR lift2].
    rewrite (xdiv_some (rO x a b 0)) by lra. cbn [lift2].
    assert (Hd : a * beta * (1 + rO x a b 0 / c) <> 0) by (apply Rgt_not_eq; repeat apply Rmult_lt_0_compat; lra).
    rewrite xdiv_some by auto. f_equal. unfold pw, Rdiv. rewrite !Rinv_mult. ring. }
  exists (pw / (1 + rO x a b 0 / c)), (pw * o). split; [auto|]. split; [apply incbeta_of; auto|].
  assert (Hinv : / (1 + rO x a b 0 / c) <= o).
  { replace o with (/ (1 / o)) by (field; lra). apply Rinv_le_contravar; [apply Rdiv_lt_0_compat; lra|auto]. }
  split; [split|].
  - apply Rdiv_lt_0_compat; auto.
  - unfold Rdiv at 1. apply Rmult_le_compat_l; lra.
  - intros Hw. pose proof (inner_exact x Hx a b Ha Hb 0 c (Hex Hw) o 1 Ho (Ev_0 x a b)) as E. rewrite <- E. field. lra.
Qed.
End Integral.
Print Assumptions C88_incomplete_beta_partial.

(** ** The p value *)
Lemma sem2_nonneg l : (2 <= length l)%nat -> 0 <= sem2 l.
Proof.
  intros H. apply (le_INR 2) in H. change (INR 2) with 2 in H. unfold sem2. pose proof (sse_nonneg l).
  unfold Rdiv. apply Rmult_le_pos; [apply Rmult_le_pos; auto|]; left; apply Rinv_0_lt_compat; lra.
Qed.
Lemma welch_v_pos l1 l2 : (2 <= length l1)%nat -> (2 <= length l2)%nat -> 0 < sem2 l1 + sem2 l2 ->
  0 < sem2 l1 * sem2 l1 / (INR (length l1) - 1) + sem2 l2 * sem2 l2 / (INR (length l2) - 1) /\ 0 < welch_v l1 l2.
Proof.
  intros H1 H2 Hs. pose proof (sem2_nonneg l1 H1) as S1. pose proof (sem2_nonneg l2 H2) as S2.
  apply (le_INR 2) in H1, H2. change (INR 2) with 2 in H1, H2.
  assert (D : 0 < sem2 l1 * sem2 l1 / (INR (length l1) - 1) + sem2 l2 * sem2 l2 / (INR (length l2) - 1)).
  { assert (I1 : 0 < / (INR (length l1) - 1)) by (apply Rinv_0_lt_compat; lra).
    assert (I2 : 0 < / (INR (length l2) - 1)) by (apply Rinv_0_lt_compat; lra).
    unfold Rdiv. destruct (Req_dec (sem2 l1) 0) as [E|E].
    - assert (0 < sem2 l2) by lra. pose proof (Rmult_lt_0_compat _ _ (Rmult_lt_0_compat _ _ H H) I2). rewrite E. lra.
    - assert (0 < sem2 l1) by lra. pose proof (Rmult_lt_0_compat _ _ (Rmult_lt_0_compat _ _ H H) I1).
      assert (0 <= sem2 l2 * sem2 l2 * / (INR (length l2) - 1)) by (apply Rmult_le_pos; [nra|lra]). lra. }
  split; [auto|]. apply Rdiv_lt_0_compat; auto. nra.
Qed.
Lemma welch_x_range l1 l2 : 0 < welch_v l1 l2 -> welch_t l1 l2 <> 0 -> 0 < welch_x l1 l2 < 1.
Proof.
  intros Hv Ht. unfold welch_x. set (t := welch_t l1 l2) in *. set (v := welch_v l1 l2) in *.
  assert (0 < t * t) by nra. split; [apply Rdiv_lt_0_compat; lra|].
  apply (Rmult_lt_reg_r (t * t + v)); [lra|]. unfold Rdiv. rewrite Rmult_assoc, Rinv_l by lra. lra.
Qed.

Section P.
  Variables (sqrt exp lgamma : XR -> XR) (pow : XR -> XR -> XR).
  Notation Tt := (Ttest XR sqrt exp lgamma pow).
  Notation sample l := (map (@Some R) l).
  Definition right_sqrt (y : R) : Prop := sqrt (Some y) = Some (R_sqrt.sqrt y).

  Lemma ttest_some l1 l2 : (2 <= length l1)%nat -> (2 <= length l2)%nat -> 0 < sem2 l1 + sem2 l2 ->
    right_sqrt (sem2 l1 + sem2 l2) ->
    Tt (sample l1) (sample l2)
    = (let q := tail XR exp lgamma pow (Some (welch_x l1 l2)) (Some (welch_v l1 l2)) in
       (if Rltb 0 (welch_t l1 l2) then ndiv XR q (Some 2) else nsub XR (Some 1) (ndiv XR q (Some 2))),
       Some (welch_t l1 l2), Some (welch_v l1 l2), Some (mean l1)).
  Proof.
    intros H1 H2 Hs Hq. destruct (welch_v_pos l1 l2 H1 H2 Hs) as [D V].
    unfold Ttest. rewrite !C69_mean_and_variance by auto.
    pose proof (le_INR 2 _ H1) as N1. pose proof (le_INR 2 _ H2) as N2. change (INR 2) with 2 in N1, N2.
    pose proof (sqrt_lt_R0 _ Hs) as Hr.
    cbn [ndiv nadd nsub nmul nofZ nltb XR]. rewrite !(xdiv_some _ (INR _)) by lra. fold (sem2 l1). fold (sem2 l2). cbn [lift2].
    rewrite Hq. rewrite (xdiv_some (mean l1 - mean l2)) by lra. fold (welch_t l1 l2).
    rewrite !(xdiv_some _ (INR _ - 1)) by lra. cbn [lift2]. rewrite (xdiv_some ((sem2 l1 + sem2 l2) * (sem2 l1 + sem2 l2))) by lra. fold (welch_v l1 l2).
    cbn [lift2]. rewrite (xdiv_some (welch_v l1 l2)) by nra. fold (welch_x l1 l2). cbn [xcmp]. reflexivity.
  Qed.

  (** The arguments for which the fraction is known to be right *)
  Definition covered (x v : R) : Prop := x <= 9 / 10 \/ v <= 2 \/ exists k, (1 <= k <= 50)%nat /\ v = 2 * INR k.

(** Exact arithmetic, two samples with at least two numbers each, not both constant, with different
    means, and library functions that are right at the arguments: t and v are Welch's, the p value
    is strictly between 0 and 1, it is below one half exactly if the first mean is larger, and it
    is on the right side of the p value the t distribution gives.  [covered] is not met for a
    small t with more than two degrees of freedom that are not an even number up to 100. *)
Theorem C88_p_value_partial : forall l1 l2 beta,
  (2 <= length l1)%nat -> (2 <= length l2)%nat -> 0 < sem2 l1 + sem2 l2 -> mean l1 <> mean l2 ->
  right_sqrt (sem2 l1 + sem2 l2) ->
  let x := welch_x l1 l2 in let v := welch_v l1 l2 in
  let '(y, a, b) := if Rltb (9 / 10) x then (1 - x, 1 / 2, v / 2) else (x, v / 2, 1 / 2) in
  covered x v -> right_at exp lgamma pow y a b beta -> (forall I, is_incbeta beta y a b I -> I < 1) ->
  exists p I, Tt (sample l1) (sample l2) = (Some p, Some (welch_t l1 l2), Some v, Some (mean l1))
    /\ is_incbeta beta y a b I /\ 0 < p < 1 /\ (p < 1 / 2 <-> mean l2 < mean l1)
    /\ let q := if Rltb (9 / 10) x then 1 - I else I in
       let right := if Rltb 0 (welch_t l1 l2) then q / 2 else 1 - q / 2 in
       (Rltb (9 / 10) x = Rltb (welch_t l1 l2) 0 -> p <= right) /\ (Rltb (9 / 10) x = Rltb 0 (welch_t l1 l2) -> right <= p)
       /\ ((exists k, (1 <= k <= 50)%nat /\ b = INR k) -> p = right).
Proof.
  intros l1 l2 beta H1 H2 Hs Hm Hq x v. destruct (welch_v_pos l1 l2 H1 H2 Hs) as [D V]. fold v in V.
  assert (Ht : welch_t l1 l2 <> 0).
  { unfold welch_t. pose proof (sqrt_lt_R0 _ Hs). apply Rmult_integral_contrapositive_currified; [lra|]. apply Rinv_neq_0_compat. lra. }
  assert (Hsg : 0 < welch_t l1 l2 <-> mean l2 < mean l1).
  { pose proof (Rinv_0_lt_compat _ (sqrt_lt_R0 _ Hs)) as Hi. unfold welch_t, Rdiv. split; intros G.
    - destruct (Rlt_le_dec (mean l2) (mean l1)) as [|L]; auto. exfalso. assert ((mean l1 - mean l2) * / R_sqrt.sqrt (sem2 l1 + sem2 l2) <= 0) by nra. lra.
    - apply Rmult_lt_0_compat; lra. }
  pose proof (welch_x_range l1 l2 V Ht) as Hx. fold x in Hx.
  pose proof (ttest_some l1 l2 H1 H2 Hs Hq) as ET. fold x v in ET.
  assert (N9 : nine_tenths XR = Some (9 / 10)) by (unfold nine_tenths; cbn [ndiv nofZ XR]; apply xdiv_some; lra).
  assert (NH : half XR = Some (1 / 2)) by (unfold half; cbn [ndiv nofZ XR]; apply xdiv_some; lra).
  destruct (Rltb (9 / 10) x) eqn:E9.
  - intros Hcov Hat HI. assert (Hx9 : 9 / 10 < x) by (apply Rltb_true; auto).
    destruct (C88_incomplete_beta_partial exp lgamma pow (1 - x) (1 / 2) (v / 2) beta) as (r & I & Er & EI & Hr & Hw); try lra; auto.
    { destruct Hcov as [C|[C|(k & Hk & C)]]; [lra|left; lra|right; exists k; split; auto; lra]. }
    assert (Et : tail XR exp lgamma pow (Some x) (Some v) = Some (1 - r)).
    { unfold tail. rewrite N9, NH. cbn [nltb XR xcmp]. rewrite E9. cbn [nofZ ndiv XR]. rewrite xdiv_some by lra.
      change (nsub XR (Some 1) (Some x)) with (Some (1 - x)). rewrite Er. reflexivity. }
    rewrite Et in ET. cbn [ndiv nsub XR] in ET. rewrite !xdiv_some in ET by lra. cbn [lift2] in ET.
    specialize (HI I EI).
    exists (if Rltb 0 (welch_t l1 l2) then (1 - r) / 2 else 1 - (1 - r) / 2), I.
    split; [rewrite ET; destruct (Rltb 0 (welch_t l1 l2)); reflexivity|]. split; [auto|].
    destruct (Rltb 0 (welch_t l1 l2)) eqn:E0; [apply Rltb_true in E0|apply Rltb_false in E0].
    + split; [lra|]. split; [rewrite <- Hsg; lra|]. cbv zeta. split; [|split].
      * intros G. symmetry in G. apply Rltb_true in G. lra.
      * intros _. lra.
      * intros W. rewrite (Hw W). reflexivity.
    + split; [lra|]. split; [rewrite <- Hsg; lra|]. cbv zeta. split; [|split].
      * intros _. lra.
      * discriminate.
      * intros W. rewrite (Hw W). reflexivity.
  - intros Hcov Hat HI. assert (Hx9 : x <= 9 / 10) by (apply Rltb_false; auto).
    destruct (C88_incomplete_beta_partial exp lgamma pow x (v / 2) (1 / 2) beta) as (r & I & Er & EI & Hr & Hw); try lra; auto.
    assert (Et : tail XR exp lgamma pow (Some x) (Some v) = Some r).
    { unfold tail. rewrite N9, NH. cbn [nltb XR xcmp]. rewrite E9. cbn [nofZ ndiv XR]. rewrite xdiv_some by lra. exact Er. }
    rewrite Et in ET. cbn [ndiv nsub XR] in ET. rewrite !xdiv_some in ET by lra. cbn [lift2] in ET.
    specialize (HI I EI).
    exists (if Rltb 0 (welch_t l1 l2) then r / 2 else 1 - r / 2), I.
    split; [rewrite ET; destruct (Rltb 0 (welch_t l1 l2)); reflexivity|]. split; [auto|].
    destruct (Rltb 0 (welch_t l1 l2)) eqn:E0; [apply Rltb_true in E0|apply Rltb_false in E0].
    + split; [lra|]. split; [rewrite <- Hsg; lra|]. cbv zeta. split; [|split].
      * intros _. lra.
      * discriminate.
      * intros W. rewrite (Hw W). reflexivity.
    + split; [lra|]. split; [rewrite <- Hsg; lra|]. cbv zeta. split; [|split].
      * intros G. symmetry in G. apply Rltb_false in G. lra.
      * intros _. lra.
      * intros W. rewrite (Hw W). reflexivity.
Qed.
End P.
Print Assumptions C88_p_value_partial.

(** ** Two degrees of freedom *)
Lemma incbeta_half y : 0 < y < 1 -> is_incbeta 2 y (1 / 2) 1 (R_sqrt.sqrt y).
Proof.
  intros Hy. unfold is_incbeta. replace (1 / 2) with (/ 2) by lra. rewrite Rpower_sqrt by lra. rewrite Rpower_1 by lra.
  set (w := R_sqrt.sqrt y * (1 - y)).
  pose proof (GP_infinite y) as G. rewrite Rabs_pos_eq in G by lra. specialize (G ltac:(lra)). unfold Pser in G.
  assert (K : Un_cv (fun n => w * sum_f_R0 (fun k => 1 * y ^ k) n) (w * / (1 - y))).
  { apply (CV_mult (fun _ => w)); [|exact G]. intros e He. exists 0%nat. intros. rewrite R_dist_eq. auto. }
  assert (E : w * / (1 - y) = R_sqrt.sqrt y) by (unfold w; field; lra). rewrite E in K.
  assert (P : forall k, 0 < rising (/ 2 + 1) k).
  { induction k as [|j IH]; cbn [rising]; [lra|]. pose proof (pos_INR j). apply Rmult_lt_0_compat; lra. }
  intros eps He. destruct (K eps He) as [N HN]. exists N. intros n Hn.
  rewrite (sum_eq _ (fun k => 1 * y ^ k * w)).
  - rewrite <- scal_sum. apply HN; auto.
  - intros k _. pose proof (P k). unfold w. field. lra.
Qed.

Section P2.
  Variables (sqrt exp lgamma : XR -> XR) (pow : XR -> XR -> XR).
  Notation Tt := (Ttest XR sqrt exp lgamma pow).
  Notation sample l := (map (@Some R) l).

(** For two degrees of freedom and t^2 < 2/9 the p value is that of the t distribution. *)
Theorem C88_two_degrees_partial : forall l1 l2,
  (2 <= length l1)%nat -> (2 <= length l2)%nat -> 0 < sem2 l1 + sem2 l2 -> mean l1 <> mean l2 ->
  right_sqrt sqrt (sem2 l1 + sem2 l2) -> welch_v l1 l2 = 2 ->
  let t := welch_t l1 l2 in
  t * t < 2 / 9 -> right_at exp lgamma pow (t * t / (t * t + 2)) (1 / 2) 1 2 ->
  exists v, Tt (sample l1) (sample l2) = (Some (1 / 2 - t / (2 * R_sqrt.sqrt (t * t + 2))), Some t, v, Some (mean l1)).
Proof.
  intros l1 l2 H1 H2 Hs Hm Hq Hv t Ht9 Hat.
  assert (Ht : t <> 0).
  { unfold t, welch_t. pose proof (sqrt_lt_R0 _ Hs). apply Rmult_integral_contrapositive_currified; [lra|]. apply Rinv_neq_0_compat. lra. }
  assert (Htt : 0 < t * t) by nra.
  assert (Ex : welch_x l1 l2 = 2 / (t * t + 2)) by (unfold welch_x; rewrite Hv; reflexivity).
  assert (Ey : 1 - welch_x l1 l2 = t * t / (t * t + 2)) by (rewrite Ex; field; lra).
  assert (H9 : 9 / 10 < welch_x l1 l2).
  { rewrite Ex. apply (Rmult_lt_reg_r (t * t + 2)); [lra|]. unfold Rdiv at 2. rewrite Rmult_assoc, Rinv_l by lra. lra. }
  assert (Hy : 0 < t * t / (t * t + 2) < 1).
  { split; [apply Rdiv_lt_0_compat; lra|]. apply (Rmult_lt_reg_r (t * t + 2)); [lra|]. unfold Rdiv. rewrite Rmult_assoc, Rinv_l by lra. lra. }
  pose proof (C88_p_value_partial sqrt exp lgamma pow l1 l2 2 H1 H2 Hs Hm Hq) as T. cbv zeta in T.
  replace (Rltb (9 / 10) (welch_x l1 l2)) with true in T by (symmetry; apply Rltb_true; auto).
  rewrite Hv, Ey in T. replace (2 / 2) with 1 in T by field.
  assert (U : forall I, is_incbeta 2 (t * t / (t * t + 2)) (1 / 2) 1 I -> I = R_sqrt.sqrt (t * t / (t * t + 2))).
  { intros I HI. eapply uniqueness_sum; [exact HI|apply incbeta_half; auto]. }
  assert (Q : R_sqrt.sqrt (t * t / (t * t + 2)) = Rabs t / R_sqrt.sqrt (t * t + 2)).
  { rewrite sqrt_div by lra. f_equal. apply sqrt_Rsqr_abs. }
  destruct T as (p & I & ET & HI & _ & _ & _ & _ & W).
  - right. left. lra.
  - exact Hat.
  - intros I HI. rewrite (U I HI). rewrite <- sqrt_1. apply sqrt_lt_1; lra.
  - assert (W1 : exists k, (1 <= k <= 50)%nat /\ 1 = INR k) by (exists 1%nat; split; [lia|reflexivity]). specialize (W W1).
    rewrite (U I HI), Q in W. fold t in W, ET. exists (Some 2). rewrite ET.
    assert (Ep : p = 1 / 2 - t / (2 * R_sqrt.sqrt (t * t + 2))); [|rewrite Ep; reflexivity]. rewrite W.
    pose proof (sqrt_lt_R0 (t * t + 2) ltac:(lra)).
    destruct (Rltb 0 t) eqn:E0; [apply Rltb_true in E0|apply Rltb_false in E0].
    + rewrite Rabs_pos_eq by lra. field. lra.
    + rewrite Rabs_left1 by lra. field. lra.
Qed.

(** Equal means: the p value is one half. *)
Theorem C88_equal_means_partial : forall l1 l2 beta la lb lab,
  (2 <= length l1)%nat -> (2 <= length l2)%nat -> 0 < sem2 l1 + sem2 l2 -> mean l1 = mean l2 ->
  right_sqrt sqrt (sem2 l1 + sem2 l2) ->
  pow (Some 0) (Some (1 / 2)) = Some 0 -> pow (Some 1) (Some (welch_v l1 l2 / 2)) = Some 1 -> beta <> 0 ->
  lgamma (Some (1 / 2)) = Some la -> lgamma (Some (welch_v l1 l2 / 2)) = Some lb ->
  lgamma (Some (1 / 2 + welch_v l1 l2 / 2)) = Some lab -> exp (Some (la + lb - lab)) = Some beta ->
  exists v, Tt (sample l1) (sample l2) = (Some (1 / 2), Some 0, v, Some (mean l1)).
Proof.
  intros l1 l2 beta la lb lab H1 H2 Hs Hm Hq P1 P2 Hb L1 L2 L3 L4.
  destruct (welch_v_pos l1 l2 H1 H2 Hs) as [D V].
  rewrite (ttest_some sqrt exp lgamma pow l1 l2 H1 H2 Hs Hq).
  assert (Ht : welch_t l1 l2 = 0) by (unfold welch_t; rewrite Hm; unfold Rdiv; ring).
  assert (Hx : welch_x l1 l2 = 1) by (unfold welch_x; rewrite Ht; field; lra).
  rewrite Ht, Hx. set (v := welch_v l1 l2) in *.
  assert (Hstep : forall m, (0 <= m)%Z -> dO XR (nofZ XR m) (Some 0) (Some (1 / 2)) (Some (v / 2)) = Some 0
                            /\ ((1 <= m)%Z -> dE XR (nofZ XR m) (Some 0) (Some (1 / 2)) (Some (v / 2)) = Some 0)).
  { intros m Hm0. apply IZR_le in Hm0. unfold dO, dE. cbn [nadd nsub nmul ndiv nofZ XR lift2]. split.
    - rewrite xdiv_some by (apply Rgt_not_eq, Rmult_lt_0_compat; lra). f_equal. unfold Rdiv. ring.
    - intros Hm1. apply IZR_le in Hm1. rewrite xdiv_some by (apply Rgt_not_eq, Rmult_lt_0_compat; lra). f_equal. unfold Rdiv. ring. }
  assert (Hf : forall l, (forall m, In m l -> (1 <= m)%Z) -> fold_left (xstep 0 (1 / 2) (v / 2)) l (Some 1) = Some 1).
  { induction l as [|m l IH]; intros Hl; [reflexivity|]. cbn [fold_left]. unfold xstep at 2.
    destruct (Hstep m) as [G1 G2]; [specialize (Hl m (or_introl eq_refl)); lia|]. rewrite G1, G2 by (apply Hl; left; reflexivity).
    cbn [nadd ndiv nofZ XR]. rewrite xdiv_some by lra. cbn [lift2]. rewrite xdiv_some by lra. cbn [lift2].
    replace (1 + 0 / (1 + 0 / 1)) with 1 by field. apply IH. intros; apply Hl; right; auto. }
  assert (Er : regularizedIncompleteBeta XR exp lgamma pow (Some 0) (Some (1 / 2)) (Some (v / 2)) = Some 0).
  { unfold regularizedIncompleteBeta. change (map (fun k : nat => (50 - Z.of_nat k)%Z) (seq 0 50)) with (down 50).
    match goal with |- context [fold_left ?f (down 50) ?i] => assert (F : fold_left f (down 50) i = Some 1) end.
    { apply Hf. intros m Hin. unfold down in Hin. apply in_map_iff in Hin as (k & <- & Hk). apply in_rev in Hk. apply in_seq in Hk. lia. }
    rewrite F, P1. change (nsub XR (nofZ XR 1) (Some 0)) with (Some (1 - 0)). rewrite Rminus_0_r, P2.
    unfold betaf. rewrite L1, L2. cbn [nadd nsub XR lift2]. rewrite L3. cbn [lift2]. rewrite L4.
    destruct (Hstep 0%Z) as [G1 _]; [lia|]. rewrite G1. cbn [nadd nmul ndiv nofZ XR lift2].
    rewrite xdiv_some by lra. cbn [lift2]. rewrite xdiv_some; [f_equal; field; auto|].
    apply Rmult_integral_contrapositive_currified; [|lra]. apply Rmult_integral_contrapositive_currified; [lra|auto]. }
  assert (Et : tail XR exp lgamma pow (Some 1) (Some v) = Some 1).
  { unfold tail, nine_tenths, half. cbn [ndiv nofZ nltb XR]. rewrite !xdiv_some by lra. cbn [xcmp].
    replace (Rltb (9 / 10) 1) with true by (symmetry; apply Rltb_true; lra).
    change (nsub XR (Some 1) (Some 1)) with (Some (1 - 1)). rewrite Rminus_diag_eq by reflexivity. rewrite Er. cbn [nsub XR lift2]. f_equal. ring. }
  rewrite Et. cbn [ndiv nsub XR]. rewrite xdiv_some by lra. cbn [lift2].
  replace (Rltb 0 0) with false by (symmetry; apply Rltb_false; lra).
  exists (Some v). replace (1 - 1 / 2) with (1 / 2) by field. reflexivity.
Qed.
End P2.
Print Assumptions C88_two_degrees_partial.
Print Assumptions C88_equal_means_partial.

(** The samples 1, 3 and 1/2, 5/2: two degrees of freedom.  The library functions are real
    ones but for the logarithm of Gamma, which is given at 1/2, 1 and 3/2 up to a constant. *)
Definition xsqrt (y : XR) : XR := match y with Some y => Some (R_sqrt.sqrt y) | None => None end.
Definition xexp (y : XR) : XR := match y with Some y => Some (Rtrigo_def.exp y) | None => None end.
Definition xpow (x y : XR) : XR := match x, y with Some x, Some y => Some (Rpower x y) | _, _ => None end.
Definition xlgamma (y : XR) : XR :=
  match y with
  | Some y => if Req_EM_T y (3 / 2) then Some (- ln 2) else Some 0
  | None => None
  end.
Example C88_two_degrees_example :
  exists v, Ttest XR xsqrt xexp xlgamma xpow (map (@Some R) [1; 3]) (map (@Some R) [1 / 2; 5 / 2])
    = (Some (1 / 2 - welch_t [1; 3] [1 / 2; 5 / 2] / (2 * R_sqrt.sqrt (17 / 8))), Some (welch_t [1; 3] [1 / 2; 5 / 2]), v, Some 2)
    /\ 0 < welch_t [1; 3] [1 / 2; 5 / 2].
Proof.
  assert (M1 : mean [1; 3] = 2) by (unfold mean; cbn; field).
  assert (M2 : mean [1 / 2; 5 / 2] = 3 / 2) by (unfold mean; cbn; field).
  assert (S1 : sem2 [1; 3] = 1) by (unfold sem2, sse; rewrite M1; cbn; field).
  assert (S2 : sem2 [1 / 2; 5 / 2] = 1) by (unfold sem2, sse; rewrite M2; cbn; field).
  assert (V : welch_v [1; 3] [1 / 2; 5 / 2] = 2) by (unfold welch_v; rewrite S1, S2; cbn; field).
  assert (T : welch_t [1; 3] [1 / 2; 5 / 2] = (1 / 2) / R_sqrt.sqrt 2).
  { unfold welch_t. rewrite S1, S2, M1, M2. replace (1 + 1) with 2 by ring. f_equal. field. }
  pose proof (sqrt_lt_R0 2 ltac:(lra)) as R2. pose proof (sqrt_sqrt 2 ltac:(lra)) as R22.
  assert (TT : welch_t [1; 3] [1 / 2; 5 / 2] * welch_t [1; 3] [1 / 2; 5 / 2] = 1 / 8).
  { rewrite T. replace (1 / 2 / R_sqrt.sqrt 2 * (1 / 2 / R_sqrt.sqrt 2)) with (1 / 4 / (R_sqrt.sqrt 2 * R_sqrt.sqrt 2)) by (field; lra). rewrite R22. field. }
  pose proof (C88_two_degrees_partial xsqrt xexp xlgamma xpow [1; 3] [1 / 2; 5 / 2] ltac:(cbn; lia) ltac:(cbn; lia)) as G.
  rewrite S1, S2, M1, M2 in G. specialize (G ltac:(lra) ltac:(lra) eq_refl V). cbv zeta in G. rewrite TT in G.
  destruct G as [v G].
  - lra.
  - split; [reflexivity|]. split; [reflexivity|]. split; [lra|].
    exists 0, 0, (- ln 2). unfold xlgamma, xexp.
    destruct (Req_EM_T (1 / 2) (3 / 2)) as [e|_]; [lra|]. destruct (Req_EM_T 1 (3 / 2)) as [e|_]; [lra|].
    destruct (Req_EM_T (1 / 2 + 1) (3 / 2)) as [_|n]; [|lra]. repeat split.
    replace (0 + 0 - - ln 2) with (ln 2) by ring. rewrite exp_ln by lra. reflexivity.
  - exists v. split; [rewrite G; replace (1 / 8 + 2) with (17 / 8) by field; reflexivity|]. rewrite T. apply Rdiv_lt_0_compat; lra.
Qed.
