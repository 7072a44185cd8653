(** The continued fraction of Gauss behind stats/stats.go:77-100: the series of the
    hypergeometric function, its contiguous relations, and what a truncated fraction says
    about it. *)
From Verif Require Import Go F64 Exact ModelStats StatsSpec.
From Coq Require Import Reals Lra Lia.
Local Open Scope nat_scope.
Local Open Scope list_scope.
Local Open Scope R_scope.

(** ** The terms *)
Fixpoint ht (A B C : R) (k : nat) : R :=
  match k with
  | O => 1
  | S k => ht A B C k * ((A + INR k) * (B + INR k) / ((C + INR k) * (1 + INR k)))
  end.
Lemma ht_sym A B C k : ht A B C k = ht B A C k.
Proof. induction k as [|k IH]; cbn [ht]; [reflexivity|]. rewrite IH. f_equal. f_equal. ring. Qed.
Lemma ht_pos A B C k : 0 < A -> 0 < B -> 0 < C -> 0 < ht A B C k.
Proof.
  intros HA HB HC. induction k as [|k IH]; cbn [ht]; [lra|]. pose proof (pos_INR k).
  apply Rmult_lt_0_compat; auto. apply Rdiv_lt_0_compat; apply Rmult_lt_0_compat; lra.
Qed.
Lemma ht_zero A C k : ht A 0 C (S k) = 0.
Proof. induction k as [|k IH]; [cbn; unfold Rdiv; ring|]. change (ht A 0 C (S (S k))) with (ht A 0 C (S k) * ((A + INR (S k)) * (0 + INR (S k)) / ((C + INR (S k)) * (1 + INR (S k))))). rewrite IH. ring. Qed.

Lemma ht_down A B C k : 0 < C ->
  ht A B C (S k) = ht (A + 1) (B + 1) (C + 2) k * (A * B * (C + 1 + INR k) / (C * (C + 1) * (1 + INR k))).
Proof.
  intros HC. induction k as [|k IH].
  - cbn [ht INR]. field. lra.
  - change (ht A B C (S (S k))) with (ht A B C (S k) * ((A + INR (S k)) * (B + INR (S k)) / ((C + INR (S k)) * (1 + INR (S k))))).
    rewrite IH. cbn [ht]. rewrite S_INR. pose proof (pos_INR k). field. repeat split; lra.
Qed.
Lemma ht_side A B C k : 0 < C ->
  ht A (B + 1) (C + 1) (S k) = ht (A + 1) (B + 1) (C + 2) k * (A * (B + 1 + INR k) / ((C + 1) * (1 + INR k))).
Proof.
  intros HC. induction k as [|k IH].
  - cbn [ht INR]. field. lra.
  - change (ht A (B + 1) (C + 1) (S (S k))) with (ht A (B + 1) (C + 1) (S k) * ((A + INR (S k)) * (B + 1 + INR (S k)) / ((C + 1 + INR (S k)) * (1 + INR (S k))))).
    rewrite IH. cbn [ht]. rewrite S_INR. pose proof (pos_INR k). field. repeat split; lra.
Qed.
Lemma ht_rel A B C k : 0 < C ->
  ht A B C (S k) = ht A (B + 1) (C + 1) (S k) - A * (C - B) / (C * (C + 1)) * ht (A + 1) (B + 1) (C + 2) k.
Proof.
  intros HC. rewrite ht_down, ht_side by auto. pose proof (pos_INR k). field. repeat split; lra.
Qed.

(** ** The series *)
Section Series.
  Variable x : R.
  Hypothesis Hx : 0 < x < 1.
  Definition sums (A B C l : R) : Prop := infinite_sum (fun k => ht A B C k * x ^ k) l.

  Lemma over_cv c d : 0 < d -> Un_cv (fun n => c / (d + INR n)) 0.
  Proof.
    intros Hd eps He. destruct (archimed (Rabs c / eps)) as [Ha _].
    assert (H0 : 0 <= Rabs c / eps) by (apply Rmult_le_pos; [apply Rabs_pos|left; apply Rinv_0_lt_compat; auto]).
    assert (Hz : (0 < up (Rabs c / eps))%Z) by (apply lt_IZR; lra).
    exists (Z.to_nat (up (Rabs c / eps))). intros n Hn. unfold R_dist. rewrite Rminus_0_r.
    assert (Hn' : IZR (up (Rabs c / eps)) <= INR n).
    { rewrite INR_IZR_INZ. apply IZR_le. lia. }
    unfold Rdiv. rewrite Rabs_mult. rewrite (Rabs_pos_eq (/ _)) by (left; apply Rinv_0_lt_compat; lra).
    apply (Rmult_lt_reg_r (d + INR n)); [lra|]. rewrite Rmult_assoc, Rinv_l by lra.
    assert (Rabs c / eps * eps = Rabs c) by (field; lra). nra.
  Qed.
  Lemma ratio_cv A B C : 0 < A -> 0 < B -> 0 < C ->
    Un_cv (fun n => Rabs (ht A B C (S n) / ht A B C n)) 1.
  Proof.
    intros HA HB HC.
    apply (Un_cv_ext (fun n => (1 + (A - C) / (C + INR n)) * (1 + (B - 1) / (1 + INR n)))).
    { intros n. pose proof (pos_INR n). pose proof (ht_pos A B C n HA HB HC). cbn [ht].
      rewrite Rabs_pos_eq.
      - field. repeat split; lra.
      - unfold Rdiv at 1. rewrite Rmult_comm, <- Rmult_assoc, Rinv_l, Rmult_1_l by lra. left.
        apply Rdiv_lt_0_compat; apply Rmult_lt_0_compat; lra. }
    assert (K : forall c d, 0 < d -> Un_cv (fun n => 1 + c / (d + INR n)) 1).
    { intros c d Hd. assert (G : Un_cv (fun n => 1 + c / (d + INR n)) (1 + 0)); [|rewrite Rplus_0_r in G; exact G].
      apply (CV_plus (fun _ => 1) (fun n => c / (d + INR n))); [|apply over_cv; auto].
      intros e He. exists 0%nat. intros. rewrite R_dist_eq. auto. }
    assert (G : Un_cv (fun n => (1 + (A - C) / (C + INR n)) * (1 + (B - 1) / (1 + INR n))) (1 * 1)); [|rewrite Rmult_1_r in G; exact G].
    apply (CV_mult (fun n => 1 + (A - C) / (C + INR n)) (fun n => 1 + (B - 1) / (1 + INR n))); apply K; lra.
  Qed.
  Lemma sums_ex A B C : 0 < A -> 0 < B -> 0 < C -> exists l, sums A B C l.
  Proof.
    intros HA HB HC. destruct (Alembert_C6 (ht A B C) x 1) as [l Hl]; [lra| |apply ratio_cv; auto| |].
    - intros n. pose proof (ht_pos A B C n HA HB HC). lra.
    - rewrite Rabs_pos_eq by lra. lra.
    - exists l. exact Hl.
  Qed.
  Lemma sums_eq A B C l l' : sums A B C l -> sums A B C l' -> l = l'.
  Proof. intros. eapply uniqueness_sum; eauto. Qed.
  Lemma sums_ge A B C l : 0 < A -> 0 < B -> 0 < C -> sums A B C l -> 1 <= l.
  Proof.
    intros HA HB HC H. pose proof (sum_incr (fun k => ht A B C k * x ^ k) 0 l H) as G. cbn in G. rewrite Rmult_1_l in G. apply G.
    intros n. apply Rmult_le_pos; [left; apply ht_pos; auto|apply pow_le; lra].
  Qed.
  Lemma sums_zero A C : sums A 0 C 1.
  Proof.
    intros eps He. exists 0%nat. intros n _. replace (sum_f_R0 (fun k => ht A 0 C k * x ^ k) n) with 1; [rewrite R_dist_eq; auto|].
    induction n as [|n IH]; [cbn; ring|]. rewrite tech5, <- IH, ht_zero. ring.
  Qed.
  Lemma sums_rel A B C l1 l2 : 0 < C -> sums A (B + 1) (C + 1) l1 -> sums (A + 1) (B + 1) (C + 2) l2 ->
    sums A B C (l1 - A * (C - B) / (C * (C + 1)) * x * l2).
  Proof.
    intros HC H1 H2. set (kap := A * (C - B) / (C * (C + 1)) * x).
    assert (P : forall n, sum_f_R0 (fun k => ht A B C k * x ^ k) (S n)
      = sum_f_R0 (fun k => ht A (B + 1) (C + 1) k * x ^ k) (S n) - kap * sum_f_R0 (fun k => ht (A + 1) (B + 1) (C + 2) k * x ^ k) n).
    { induction n as [|n IH].
      - cbn [sum_f_R0]. rewrite (ht_rel A B C 0) by auto. unfold kap.
        change (ht A B C 0) with 1. change (ht A (B + 1) (C + 1) 0) with 1. change (ht (A + 1) (B + 1) (C + 2) 0) with 1. cbn [pow]. ring.
      - rewrite tech5, IH, (tech5 _ (S n)), (tech5 (fun k => ht (A + 1) (B + 1) (C + 2) k * x ^ k) n). rewrite (ht_rel A B C (S n)) by auto. unfold kap. cbn [pow]. ring. }
    assert (G : Un_cv (fun n => sum_f_R0 (fun k => ht A B C k * x ^ k) (S n)) (l1 - kap * l2)).
    { eapply Un_cv_ext; [intros n; symmetry; apply P|]. apply CV_minus.
      - apply (CV_shift' _ 1 _) in H1. eapply Un_cv_ext; [|exact H1]. intros n. cbn beta. f_equal. lia.
      - apply CV_mult; [|exact H2]. intros e He. exists 0%nat. intros. rewrite R_dist_eq. auto. }
    intros eps He. destruct (G eps He) as [N HN]. exists (S N). intros n Hn. destruct n as [|n]; [lia|]. apply HN. lia.
  Qed.
  Lemma sums_rel' A B C l1 l2 : 0 < C -> sums (A + 1) B (C + 1) l1 -> sums (A + 1) (B + 1) (C + 2) l2 ->
    sums A B C (l1 - B * (C - A) / (C * (C + 1)) * x * l2).
  Proof.
    intros HC H1 H2.
    assert (E : forall A B C l, sums A B C l -> sums B A C l).
    { intros A' B' C' l H eps He. destruct (H eps He) as [N HN]. exists N. intros n Hn.
      rewrite (sum_eq _ (fun k => ht A' B' C' k * x ^ k)); [auto|]. intros. rewrite (ht_sym B' A'). reflexivity. }
    apply E. apply sums_rel; auto.
  Qed.

  (** ** The fraction *)
  Variables a b : R.
  Hypothesis Ha : 0 < a.
  Hypothesis Hb : 0 < b.
  Definition Ev (m : nat) (l : R) : Prop := sums (a + b + INR m) (INR m) (a + 2 * INR m) l.
  Definition Od (m : nat) (l : R) : Prop := sums (a + b + INR m) (INR m + 1) (a + 2 * INR m + 1) l.
  Definition rO (m : nat) : R := -1 * (a + INR m) * (a + b + INR m) * x / ((a + 2 * INR m) * (a + 2 * INR m + 1)).
  Definition rE (m : nat) : R := INR m * (b - INR m) * x / ((a + 2 * INR m - 1) * (a + 2 * INR m)).

  Lemma sums_at A B C A' B' C' l : A = A' -> B = B' -> C = C' -> sums A B C l -> sums A' B' C' l.
  Proof. intros -> -> ->. auto. Qed.
  Lemma Ev_0 : Ev 0 1.
  Proof. unfold Ev. cbn [INR]. apply sums_zero. Qed.
  Lemma Ev_ex m : exists l, Ev (S m) l.
  Proof. apply sums_ex; rewrite ?S_INR; pose proof (pos_INR m); lra. Qed.
  Lemma Od_ex m : exists l, Od m l.
  Proof. apply sums_ex; pose proof (pos_INR m); lra. Qed.
  Lemma Ev_pos m l : Ev m l -> 0 < l.
  Proof.
    destruct m as [|m]; intros H.
    - rewrite (sums_eq _ _ _ _ _ H Ev_0). lra.
    - apply sums_ge in H; rewrite ?S_INR in *; pose proof (pos_INR m); lra.
  Qed.
  Lemma Od_pos m l : Od m l -> 0 < l.
  Proof. intros H. apply sums_ge in H; pose proof (pos_INR m); lra. Qed.
  Lemma Ev_rel m o e : Od m o -> Ev (S m) e -> Ev m (o + rO m * e).
  Proof.
    intros HO HE. unfold Ev, Od in *. rewrite !S_INR in HE. pose proof (pos_INR m).
    eapply sums_at; [reflexivity|reflexivity|reflexivity|].
    replace (o + rO m * e) with (o - (a + b + INR m) * (a + 2 * INR m - INR m) / ((a + 2 * INR m) * (a + 2 * INR m + 1)) * x * e).
    2: { unfold rO. field. lra. }
    apply sums_rel; [lra|exact HO|]. eapply sums_at; [| | |exact HE]; ring.
  Qed.
  Lemma Od_rel m o e : Ev (S m) e -> Od (S m) o -> Od m (e + rE (S m) * o).
  Proof.
    intros HE HO. unfold Ev, Od in *. rewrite !S_INR in *. pose proof (pos_INR m).
    replace (e + rE (S m) * o) with (e - (INR m + 1) * (a + 2 * INR m + 1 - (a + b + INR m)) / ((a + 2 * INR m + 1) * (a + 2 * INR m + 1 + 1)) * x * o).
    2: { unfold rE. rewrite !S_INR. field. lra. }
    apply sums_rel'; [lra| |].
    - eapply sums_at; [| | |exact HE]; ring.
    - eapply sums_at; [| | |exact HO]; ring.
  Qed.

  Lemma rO_neg m : rO m < 0.
  Proof.
    unfold rO. pose proof (pos_INR m).
    assert (0 < (a + INR m) * (a + b + INR m) * x / ((a + 2 * INR m) * (a + 2 * INR m + 1))).
    { apply Rdiv_lt_0_compat; repeat apply Rmult_lt_0_compat; lra. }
    replace (-1 * (a + INR m) * (a + b + INR m) * x / ((a + 2 * INR m) * (a + 2 * INR m + 1)))
      with (- ((a + INR m) * (a + b + INR m) * x / ((a + 2 * INR m) * (a + 2 * INR m + 1)))) by (field; lra). lra.
  Qed.
  Lemma rE_neg m : b <= INR (S m) -> rE (S m) <= 0.
  Proof.
    intros Hm. unfold rE. rewrite S_INR in *. pose proof (pos_INR m).
    assert (0 <= (INR m + 1) * (INR m + 1 - b) * x / ((a + 2 * (INR m + 1) - 1) * (a + 2 * (INR m + 1)))).
    { apply Rmult_le_pos; [apply Rmult_le_pos; [apply Rmult_le_pos|]; lra|]. left. apply Rinv_0_lt_compat. apply Rmult_lt_0_compat; lra. }
    replace ((INR m + 1) * (b - (INR m + 1)) * x / ((a + 2 * (INR m + 1) - 1) * (a + 2 * (INR m + 1))))
      with (- ((INR m + 1) * (INR m + 1 - b) * x / ((a + 2 * (INR m + 1) - 1) * (a + 2 * (INR m + 1))))) by (field; lra). lra.
  Qed.

  (** The tail of the fraction after step [m] is at least, or is, the quotient of the series. *)
  Definition above (m : nat) (c : R) : Prop := forall o e, Od m o -> Ev (S m) e -> o / e <= c.
  Definition exactly (m : nat) (c : R) : Prop := forall o e, Od m o -> Ev (S m) e -> o / e = c.
  Lemma above_pos m c : above m c -> 0 < c.
  Proof.
    intros H. destruct (Od_ex m) as [o Ho]. destruct (Ev_ex m) as [e He]. pose proof (H o e Ho He).
    pose proof (Rdiv_lt_0_compat o e (Od_pos m o Ho) (Ev_pos _ e He)). lra.
  Qed.
  Lemma exactly_above m c : exactly m c -> above m c.
  Proof. intros H o e Ho He. rewrite (H o e Ho He). lra. Qed.
  Lemma above_start m : b <= INR (S m) -> above m 1.
  Proof.
    intros Hm o e Ho He. destruct (Od_ex (S m)) as [o' Ho'].
    assert (E : o = e + rE (S m) * o') by (eapply sums_eq; [exact Ho|apply Od_rel; auto]).
    pose proof (rE_neg m Hm). pose proof (Od_pos _ _ Ho'). pose proof (Ev_pos _ _ He).
    apply (Rmult_le_reg_r e); [auto|]. unfold Rdiv. rewrite Rmult_assoc, Rinv_l by lra. nra.
  Qed.
  (** The denominator of a step *)
  Lemma inner_above m c : above m c -> forall o e, Od m o -> Ev m e -> e / o <= 1 + rO m / c.
  Proof.
    intros H o e Ho He. pose proof (above_pos m c H) as Hc. destruct (Ev_ex m) as [e' He'].
    assert (E : e = o + rO m * e') by (eapply sums_eq; [exact He|apply Ev_rel; auto]).
    pose proof (H o e' Ho He') as Hq. pose proof (rO_neg m). pose proof (Od_pos _ _ Ho). pose proof (Ev_pos _ _ He').
    assert (Hi : / c <= e' / o).
    { replace (e' / o) with (/ (o / e')) by (field; lra). apply Rinv_le_contravar; auto. apply Rdiv_lt_0_compat; lra. }
    subst e. replace ((o + rO m * e') / o) with (1 + rO m * (e' / o)) by (field; lra). unfold Rdiv at 2. nra.
  Qed.
  Lemma inner_exact m c : exactly m c -> forall o e, Od m o -> Ev m e -> e / o = 1 + rO m / c.
  Proof.
    intros H o e Ho He. destruct (Ev_ex m) as [e' He'].
    assert (E : e = o + rO m * e') by (eapply sums_eq; [exact He|apply Ev_rel; auto]).
    pose proof (H o e' Ho He') as Hq. pose proof (Od_pos _ _ Ho). pose proof (Ev_pos _ _ He').
    subst e c. field. lra.
  Qed.
  Lemma inner_pos m c : above m c -> 0 < 1 + rO m / c.
  Proof.
    intros H. destruct (Od_ex m) as [o Ho]. destruct (Ev_ex m) as [e' He'].
    pose proof (Ev_rel m o e' Ho He') as He.
    pose proof (inner_above m c H o _ Ho He). pose proof (Rdiv_lt_0_compat _ _ (Ev_pos _ _ He) (Od_pos _ _ Ho)). lra.
  Qed.
  Definition rstep (m : nat) (c : R) : R := 1 + rE m / (1 + rO m / c).
  Lemma step_above m c : b <= INR (S m) -> above (S m) c -> above m (rstep (S m) c).
  Proof.
    intros Hm H o e Ho He. destruct (Od_ex (S m)) as [o' Ho'].
    assert (E : o = e + rE (S m) * o') by (eapply sums_eq; [exact Ho|apply Od_rel; auto]).
    pose proof (inner_above _ _ H o' e Ho' He) as Hi. pose proof (inner_pos _ _ H) as Hp.
    pose proof (rE_neg m Hm). pose proof (Od_pos _ _ Ho'). pose proof (Ev_pos _ _ He).
    assert (Hj : / (1 + rO (S m) / c) <= o' / e).
    { replace (o' / e) with (/ (e / o')) by (field; lra). apply Rinv_le_contravar; auto. apply Rdiv_lt_0_compat; lra. }
    unfold rstep. subst o. replace ((e + rE (S m) * o') / e) with (1 + rE (S m) * (o' / e)) by (field; lra). unfold Rdiv at 2. nra.
  Qed.
  Lemma step_exact m c : exactly (S m) c -> exactly m (rstep (S m) c).
  Proof.
    intros H o e Ho He. destruct (Od_ex (S m)) as [o' Ho'].
    assert (E : o = e + rE (S m) * o') by (eapply sums_eq; [exact Ho|apply Od_rel; auto]).
    pose proof (inner_exact _ _ H o' e Ho' He) as Hi. pose proof (Od_pos _ _ Ho'). pose proof (Ev_pos _ _ He).
    unfold rstep. rewrite <- Hi. subst o. field. lra.
  Qed.
  (** The step at which the fraction ends *)
  Lemma step_ends m c : b = INR (S m) -> above (S m) c -> exactly m (rstep (S m) c).
  Proof.
    intros Hm H o e Ho He. destruct (Od_ex (S m)) as [o' Ho'].
    assert (E : o = e + rE (S m) * o') by (eapply sums_eq; [exact Ho|apply Od_rel; auto]).
    assert (Z : rE (S m) = 0) by (unfold rE; rewrite <- Hm; unfold Rdiv; ring).
    pose proof (Ev_pos _ _ He). unfold rstep. rewrite Z in *. subst o. unfold Rdiv. rewrite !Rmult_0_l, !Rplus_0_r. apply Rinv_r. lra.
  Qed.

  (** ** In exact arithmetic *)
  Definition xstep (cf : XR) (i : Z) : XR :=
    nadd XR (nofZ XR 1) (ndiv XR (dE XR (nofZ XR i) (Some x) (Some a) (Some b))
      (nadd XR (nofZ XR 1) (ndiv XR (dO XR (nofZ XR i) (Some x) (Some a) (Some b)) cf))).
  Lemma dO_some m : dO XR (nofZ XR (Z.of_nat m)) (Some x) (Some a) (Some b) = Some (rO m).
  Proof.
    unfold dO. cbn [nadd nsub nmul ndiv nofZ XR lift2]. rewrite <- INR_IZR_INZ. pose proof (pos_INR m).
    rewrite xdiv_some; [|apply Rgt_not_eq, Rmult_lt_0_compat; lra]. reflexivity.
  Qed.
  Lemma dE_some m : dE XR (nofZ XR (Z.of_nat (S m))) (Some x) (Some a) (Some b) = Some (rE (S m)).
  Proof.
    unfold dE. cbn [nadd nsub nmul ndiv nofZ XR lift2]. rewrite <- INR_IZR_INZ. pose proof (pos_INR m).
    rewrite xdiv_some; [|rewrite S_INR; apply Rgt_not_eq, Rmult_lt_0_compat; lra]. reflexivity.
  Qed.
  Lemma xstep_some m c : above (S m) c -> xstep (Some c) (Z.of_nat (S m)) = Some (rstep (S m) c).
  Proof.
    intros H. pose proof (above_pos _ _ H). pose proof (inner_pos _ _ H).
    unfold xstep. rewrite dO_some, dE_some. cbn [nadd ndiv nofZ XR lift2].
    rewrite xdiv_some by lra. cbn [lift2]. rewrite xdiv_some by lra. reflexivity.
  Qed.
  Definition down (n : nat) : list Z := map Z.of_nat (rev (seq 1 n)).
  Lemma down_S n : down (S n) = Z.of_nat (S n) :: down n.
  Proof. unfold down. rewrite seq_S, rev_app_distr. reflexivity. Qed.
  Lemma fold_exact n : forall c, exactly n c -> exists c', fold_left xstep (down n) (Some c) = Some c' /\ exactly 0 c'.
  Proof.
    induction n as [|n IH]; intros c H; [exists c; split; auto|].
    rewrite down_S. cbn [fold_left]. rewrite xstep_some by (apply exactly_above; auto). apply IH, step_exact; auto.
  Qed.
  Lemma fold_above n : forall c, b <= 1 -> above n c -> exists c', fold_left xstep (down n) (Some c) = Some c' /\ above 0 c'.
  Proof.
    induction n as [|n IH]; intros c Hb1 H; [exists c; split; auto|].
    rewrite down_S. cbn [fold_left]. rewrite xstep_some by auto. apply IH; auto. apply step_above; auto. rewrite S_INR. pose proof (pos_INR n). lra.
  Qed.
  Lemma fold_ends n k : forall c, b = INR (S k) -> (k < n)%nat -> above n c -> exists c', fold_left xstep (down n) (Some c) = Some c' /\ exactly 0 c'.
  Proof.
    induction n as [|n IH]; intros c Hk Hn H; [lia|].
    rewrite down_S. cbn [fold_left]. rewrite xstep_some by auto. destruct (Nat.eq_dec k n) as [->|Hne].
    - apply fold_exact, step_ends; auto.
    - apply IH; auto; [lia|]. apply step_above; auto. rewrite Hk. apply le_INR. lia.
  Qed.
End Series.
