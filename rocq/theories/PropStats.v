(** Properties C69, C70 and C88: sample statistics, the span of a feature and the
    t test. *)
From Verif Require Import Go GoLemmas F64 F64Order Exact ModelFeature ImpuritySpec ImpurityProofs ModelStats.
Local Open Scope nat_scope.
Local Open Scope list_scope.

(** ** C69 *)
Lemma mv_loop (l : list R) : forall a b : R,
  fold_left (fun '((m, v) : XR * XR) (x : XR) => (nadd XR m x, nadd XR v (nmul XR x x))) (map (@Some R) l) (Some a, Some b)
  = (Some (a + Rsum l)%R, Some (b + Rsum (map (fun x => x * x)%R l))%R).
Proof.
  induction l as [|x l IH]; intros a b; cbn [map fold_left Rsum].
  - f_equal; f_equal; lra.
  - cbn [nadd nmul XR lift2] in *. rewrite IH. f_equal; f_equal; lra.
Qed.

(** Exact arithmetic: mean and unbiased variance of every list with at least two numbers. *)
Theorem C69_mean_and_variance : forall l : list R, 2 <= length l ->
  MeanAndVar XR (map (@Some R) l)
  = (Some (mean l), Some (sse l / (INR (length l) - 1))%R, Some (INR (length l))).
Proof.
  intros l Hl. unfold MeanAndVar. cbn [nofZ XR].
  change (IZR 0) with 0%R. rewrite mv_loop, map_length.
  assert (Hn : IZR (Z.of_nat (length l)) = INR (length l)) by (symmetry; apply INR_IZR_INZ).
  rewrite Hn. assert (Hp : (2 <= INR (length l))%R) by (apply (le_INR 2); auto).
  cbn [ndiv nsub nmul XR lift2]. rewrite !xdiv_some by lra. cbn [lift2]. rewrite !xdiv_some by lra.
  f_equal. f_equal.
  - f_equal. unfold mean. f_equal. lra.
  - f_equal. rewrite sse_alt by (destruct l; [cbn in Hl; lia|congruence]). unfold mean. field. lra.
Qed.
(** A single number has no variance (0/0), no number has no mean. *)
Theorem C69_too_few : forall x : R,
  MeanAndVar XR [Some x] = (Some x, None, Some 1%R) /\ MeanAndVar XR [] = (None, None, Some 0%R).
Proof.
  intros x. split; unfold MeanAndVar; cbn [fold_left length Z.of_nat Pos.of_succ_nat nofZ nadd nmul nsub ndiv XR lift2].
  - rewrite !xdiv_some by lra. cbn [lift2 xdiv]. destruct (Req_EM_T (1 - 1) 0) as [_|H]; [|lra]. f_equal. f_equal. f_equal. lra.
  - cbn [xdiv]. destruct (Req_EM_T 0 0) as [_|H]; [|lra]. reflexivity.
Qed.
Print Assumptions C69_mean_and_variance.
Print Assumptions C69_too_few.
Example C69_example : MeanAndVar XR (map (@Some R) [1; 2; 6]%R) = (Some 3, Some 7, Some 3)%R.
Proof.
  rewrite C69_mean_and_variance by (cbn; lia). unfold sse, mean. cbn. repeat f_equal; field.
Qed.

(** ** C88 *)
Section T.
  Variables (sqrt exp lgamma : XR -> XR) (pow : XR -> XR -> XR).
  Notation Tt := (Ttest XR sqrt exp lgamma pow).

(** Whatever the library functions do: if the means differ, the p values of the
    test and of the test with the samples exchanged add up to one. *)
Theorem C88_exchanged_partial : forall (l1 l2 : list XR) p t v am,
  Tt l1 l2 = (p, t, v, am) -> (exists r, t = Some r /\ r <> 0%R) -> is_some p ->
  exists p' t' am', Tt l2 l1 = (p', t', v, am') /\ nadd XR p p' = Some 1%R.
Proof.
  intros l1 l2 p t v am H (r & -> & Hr) Hp. unfold Ttest in *.
  destruct (MeanAndVar XR l1) as [[Am Av] An]. destruct (MeanAndVar XR l2) as [[Bm Bv] Bn].
  set (As := ndiv XR Av An) in *. set (Bs := ndiv XR Bv Bn) in *.
  assert (Ec : nadd XR Bs As = nadd XR As Bs) by (destruct As, Bs; cbn; auto; f_equal; lra).
  rewrite Ec. set (s := nadd XR As Bs) in *.
  set (da := ndiv XR (nmul XR As As) (nsub XR An (nofZ XR 1))) in *. set (db := ndiv XR (nmul XR Bs Bs) (nsub XR Bn (nofZ XR 1))) in *.
  assert (Ed : nadd XR db da = nadd XR da db) by (destruct da, db; cbn; auto; f_equal; lra).
  rewrite Ed.
  set (v0 := ndiv XR (nmul XR s s) (nadd XR da db)) in *. set (t0 := ndiv XR (nsub XR Am Bm) (sqrt s)) in *.
  pose proof (f_equal (fun x => fst (fst (fst x))) H) as Hp'. pose proof (f_equal (fun x => snd (fst (fst x))) H) as Ht.
  pose proof (f_equal (fun x => snd (fst x)) H) as Hv. cbv beta in *. cbn [fst snd] in Hp', Ht, Hv. clear H. rewrite Hv.
  assert (Et : ndiv XR (nsub XR Bm Am) (sqrt s) = Some (- r)%R).
  { assert (G : forall (x y q : xr), xdiv (lift2 Rminus x y) q = Some r -> xdiv (lift2 Rminus y x) q = Some (- r)%R).
    { clear. intros [x|] [y|] [q|]; cbn; try discriminate. destruct (Req_EM_T q 0); [discriminate|]. intros H; inversion H. f_equal. field. auto. }
    exact (G Am Bm (sqrt s) Ht). }
  rewrite Et. rewrite Ht, Hv in Hp'.
  assert (Esq : nmul XR (Some (- r)%R) (Some (- r)%R) = nmul XR (Some r) (Some r)) by (cbn; f_equal; lra).
  rewrite Esq. set (I := tail XR exp lgamma pow (ndiv XR v (nadd XR (nmul XR (Some r) (Some r)) v)) v) in *.
  do 3 eexists. split; [reflexivity|].
  assert (HI : is_some I).
  { destruct I as [q|]; [exists q; reflexivity|]. subst p. cbn in Hp. destruct Hp as [z Hz]. destruct (Rltb 0 r); cbn in Hz; inversion Hz. }
  destruct HI as [q HI]. rewrite HI in *.
  rewrite <- Hp'. cbn [nltb nofZ XR xcmp ndiv nsub]. rewrite !xdiv_some by lra.
  destruct (Rltb 0 r) eqn:E1; destruct (Rltb 0 (- r)) eqn:E2; cbn [lift2 nadd XR]; try (f_equal; lra).
  - apply Rltb_true in E1, E2. lra.
  - apply Rltb_false in E1, E2. lra.
Qed.
(** The direction, if the integral is a probability: the p value is at most one
    half exactly when the first mean is larger (so the p value belongs to the
    hypothesis that the first sample has the larger mean, the opposite of what
    stats/stats.go:25 says). *)
Theorem C88_direction_partial : forall (l1 l2 : list XR) p t v am r q,
  Tt l1 l2 = (p, Some r, v, am) -> t = Some r -> r <> 0%R ->
  tail XR exp lgamma pow (ndiv XR v (nadd XR (nmul XR t t) v)) v = Some q -> (0 < q < 1)%R ->
  exists x, p = Some x /\ (0 < x < 1)%R /\ ((x < 1 / 2)%R <-> (0 < r)%R).
Proof.
  intros l1 l2 p t v am r q H Et Hr Hq Hq1. unfold Ttest in H.
  destruct (MeanAndVar XR l1) as [[Am Av] An]. destruct (MeanAndVar XR l2) as [[Bm Bv] Bn].
  pose proof (f_equal (fun x => fst (fst (fst x))) H) as Hp. pose proof (f_equal (fun x => snd (fst (fst x))) H) as Ht.
  pose proof (f_equal (fun x => snd (fst x)) H) as Hv. cbv beta in *. cbn [fst snd] in Hp, Ht, Hv. clear H. rewrite Ht, Hv in Hp. rewrite Et in Hq. rewrite Hq in Hp.
  cbn [nltb nofZ XR xcmp ndiv nsub] in Hp. rewrite xdiv_some in Hp by lra.
  destruct (Rltb 0 r) eqn:E; cbn in Hp; subst p; eexists; (split; [reflexivity|]).
  - apply Rltb_true in E. split; lra.
  - apply Rltb_false in E. split; lra.
Qed.
End T.
Print Assumptions C88_exchanged_partial.
Print Assumptions C88_direction_partial.

(** The hypotheses of both theorems are met: the samples 0, 2 and 3, 3, with
    stand-ins for the library functions.  The continued fraction stays between 1/2 and 1. *)
Lemma cf_step (m : Z) (c : R) : (1 <= m)%Z -> (1 / 2 <= c <= 1)%R ->
  exists c', nadd XR (nofZ XR 1) (ndiv XR (dE XR (nofZ XR m) (Some (1 / 5)%R) (Some (1 / 2)%R) (Some (1 / 2)%R))
     (nadd XR (nofZ XR 1) (ndiv XR (dO XR (nofZ XR m) (Some (1 / 5)%R) (Some (1 / 2)%R) (Some (1 / 2)%R)) (Some c)))) = Some c'
   /\ (1 / 2 <= c' <= 1)%R.
Proof.
  intros Hm Hc. apply IZR_le in Hm. unfold dE, dO. cbn [nadd nsub nmul ndiv nofZ XR lift2]. set (y := IZR m) in *. clearbody y.
  assert (P1 : (0 < (1 / 2 + 2 * y) * (1 / 2 + 2 * y + 1))%R) by nra.
  assert (P2 : (0 < (1 / 2 + 2 * y - 1) * (1 / 2 + 2 * y))%R) by nra.
  rewrite xdiv_some by lra. rewrite xdiv_some by lra. rewrite xdiv_some by lra. cbn [lift2].
  set (o := (-1 * (1 / 2 + y) * (1 / 2 + 1 / 2 + y) * (1 / 5) / ((1 / 2 + 2 * y) * (1 / 2 + 2 * y + 1)))%R).
  set (d := (y * (1 / 2 - y) * (1 / 5) / ((1 / 2 + 2 * y - 1) * (1 / 2 + 2 * y)))%R).
  assert (Ho : (- (1 / 10) <= o <= 0)%R).
  { unfold o. split; [apply Rmult_le_reg_r with (1 := P1)|apply Rmult_le_reg_r with (1 := P1)]; unfold Rdiv; rewrite (Rmult_assoc _ (/ _)), Rinv_l by lra; nra. }
  assert (Hd : (- (1 / 10) <= d <= 0)%R).
  { unfold d. split; [apply Rmult_le_reg_r with (1 := P2)|apply Rmult_le_reg_r with (1 := P2)]; unfold Rdiv; rewrite (Rmult_assoc _ (/ _)), Rinv_l by lra; nra. }
  clearbody o d.
  assert (Hq : (- (1 / 5) <= o / c <= 0)%R).
  { assert (Hc0 : (0 < c)%R) by lra. split; apply Rmult_le_reg_r with (1 := Hc0); unfold Rdiv; rewrite (Rmult_assoc o), Rinv_l by lra; nra. }
  set (q := (1 + o / c)%R) in *. assert (Hq' : (4 / 5 <= q <= 1)%R) by (unfold q; lra). clearbody q.
  rewrite xdiv_some by lra. eexists. split; [reflexivity|].
  assert (Hr : (- (1 / 2) <= d / q <= 0)%R).
  { assert (Hc0 : (0 < q)%R) by lra. split; apply Rmult_le_reg_r with (1 := Hc0); unfold Rdiv; rewrite (Rmult_assoc d), Rinv_l by lra; nra. }
  lra.
Qed.
Example C88_example :
  let one := fun _ : XR => nofZ XR 1 in
  let sample l := map (@Some R) l in
  exists p, Ttest XR (fun x => x) one one (fun _ _ => nofZ XR 1) (sample [0; 2]%R) (sample [3; 3]%R) = (Some p, Some (-2)%R, Some 1%R, Some 1%R).
Proof.
  intros one sample. unfold Ttest, sample.
  assert (E1 : MeanAndVar XR (map (@Some R) [0; 2]%R) = (Some 1, Some 2, Some 2)%R).
  { rewrite C69_mean_and_variance by (cbn; lia). unfold sse, mean. cbn. repeat f_equal; field. }
  assert (E2 : MeanAndVar XR (map (@Some R) [3; 3]%R) = (Some 3, Some 0, Some 2)%R).
  { rewrite C69_mean_and_variance by (cbn; lia). unfold sse, mean. cbn. repeat f_equal; field. }
  rewrite E1, E2. cbn [nofZ XR].
  assert (D : forall a b c : R, b <> 0%R -> (a / b)%R = c -> ndiv XR (Some a) (Some b) = Some c).
  { intros a b c Hb <-. apply xdiv_some; auto. }
  rewrite (D 2 2 1)%R by lra. rewrite (D 0 2 0)%R by lra. cbn [nadd nsub nmul XR lift2].
  rewrite (D (1 - 3) (1 + 0) (-2))%R by lra. rewrite (D (1 * 1) (2 - 1) 1)%R by lra. rewrite (D (0 * 0) (2 - 1) 0)%R by lra. cbn [lift2].
  rewrite (D ((1 + 0) * (1 + 0)) (1 + 0) 1)%R by lra. cbn [lift2]. rewrite (D 1 (-2 * -2 + 1) (1 / 5))%R by lra.
  assert (T : exists q, tail XR one one (fun _ _ => nofZ XR 1) (Some (1 / 5)%R) (Some 1%R) = Some q).
  { unfold tail, nine_tenths, half. cbn [nofZ XR]. rewrite (D 9 10 (9 / 10))%R by lra. rewrite (D 1 2 (1 / 2))%R by lra.
    cbn [nltb XR xcmp]. replace (Rltb (9 / 10) (1 / 5)) with false by (symmetry; apply Rltb_false; lra).
    unfold regularizedIncompleteBeta.
    assert (Hcf : forall l (c : R), (forall m, In m l -> (1 <= m)%Z) -> (1 / 2 <= c <= 1)%R ->
      exists c', fold_left (fun cf i => nadd XR (nofZ XR 1) (ndiv XR (dE XR (nofZ XR i) (Some (1 / 5)%R) (Some (1 / 2)%R) (Some (1 / 2)%R))
         (nadd XR (nofZ XR 1) (ndiv XR (dO XR (nofZ XR i) (Some (1 / 5)%R) (Some (1 / 2)%R) (Some (1 / 2)%R)) cf)))) l (Some c) = Some c' /\ (1 / 2 <= c' <= 1)%R).
    { induction l as [|m l IH]; intros c Hl Hc; [exists c; split; auto|]. cbn [fold_left].
      destruct (cf_step m c) as (c1 & -> & Hc1); [apply Hl; cbn; auto|auto|]. apply IH; auto. intros; apply Hl; cbn; auto. }
    destruct (Hcf (map (fun k => 50 - Z.of_nat k)%Z (seq 0 50)) 1%R) as (c & Ec & Hc).
    { intros m Hm. apply in_map_iff in Hm as (k & <- & Hk). apply in_seq in Hk. lia. }
    { lra. }
    cbn [nofZ XR] in Ec |- *. rewrite Ec. unfold one, betaf, dO. cbn [nofZ XR nadd nsub nmul lift2].
    rewrite (D (-1 * (1 / 2 + 0) * (1 / 2 + 1 / 2 + 0) * (1 / 5)) ((1 / 2 + 2 * 0) * (1 / 2 + 2 * 0 + 1)) (- (2 / 15)))%R by lra.
    erewrite D; [|lra|reflexivity]. cbn [lift2].
    assert (Hq : (- (4 / 15) <= - (2 / 15) / c)%R).
    { assert (Hc0 : (0 < c)%R) by lra. apply Rmult_le_reg_r with (1 := Hc0). unfold Rdiv at 2. rewrite Rmult_assoc, Rinv_l by lra. lra. }
    eexists. apply D; [|reflexivity]. lra. }
  match goal with |- context [tail ?a ?b ?c ?d ?e ?f] => assert (T' : exists q, tail a b c d e f = Some q) by exact T end.
  destruct T' as [q T']. rewrite T'. cbn [nltb XR xcmp]. replace (Rltb 0 (-2)) with false by (symmetry; apply Rltb_false; lra).
  rewrite (D q 2 (q / 2))%R by lra. eexists. reflexivity.
Qed.

(** ** C88 refuted: samples of zeros *)
Lemma fadd_nan_l x : fadd S754_nan x = S754_nan.
Proof. destruct x; reflexivity. Qed.
Lemma fadd_nan_r x : fadd x S754_nan = S754_nan.
Proof. destruct x; reflexivity. Qed.
Lemma fsub_nan_l x : fsub S754_nan x = S754_nan.
Proof. destruct x; reflexivity. Qed.
Lemma fsub_nan_r x : fsub x S754_nan = S754_nan.
Proof. destruct x; reflexivity. Qed.
Lemma fmul_nan_l x : fmul S754_nan x = S754_nan.
Proof. destruct x; reflexivity. Qed.
Lemma fmul_nan_r x : fmul x S754_nan = S754_nan.
Proof. destruct x; reflexivity. Qed.
Lemma fdiv_nan_l x : fdiv S754_nan x = S754_nan.
Proof. destruct x; reflexivity. Qed.
Lemma fdiv_nan_r x : fdiv x S754_nan = S754_nan.
Proof. destruct x; reflexivity. Qed.
Ltac nans := rewrite ?fadd_nan_l, ?fadd_nan_r, ?fsub_nan_l, ?fsub_nan_r, ?fmul_nan_l, ?fmul_nan_r, ?fdiv_nan_l, ?fdiv_nan_r.

Lemma zero_sums n : forall m v : f64, m = f0 -> v = f0 ->
  fold_left (fun '((m, v) : f64 * f64) (x : f64) => (fadd m x, fadd v (fmul x x))) (repeat f0 n) (m, v) = (f0, f0).
Proof. induction n; intros m v -> ->; auto. cbn [repeat fold_left]. apply IHn; reflexivity. Qed.

(** The regularized integral with a degree of freedom that is not a number. *)
Lemma tail_nan exp lgamma pow x : tail F64 exp lgamma pow x S754_nan = S754_nan.
Proof.
  unfold tail. destruct (nltb F64 (nine_tenths F64) x).
  - unfold regularizedIncompleteBeta. cbn [ndiv nsub nmul nadd F64]. nans. reflexivity.
  - unfold regularizedIncompleteBeta. cbn [ndiv nsub nmul nadd F64]. nans. reflexivity.
Qed.

(** Zero of either sign, or not a number. *)
Definition zn (x : f64) : Prop := (exists b, x = S754_zero b) \/ x = S754_nan.
Lemma zn_add x y : zn x -> zn y -> zn (fadd x y).
Proof. intros [[[] ->]| ->] [[[] ->]| ->]; cbn; unfold zn; eauto. Qed.
Lemma zn_sub x y : zn x -> zn y -> zn (fsub x y).
Proof. intros [[[] ->]| ->] [[[] ->]| ->]; cbn; unfold zn; eauto. Qed.
Lemma zn_mul x y : zn x -> zn (fmul y x).
Proof. intros [[b ->]| ->]; destruct y; cbn; unfold zn; eauto. Qed.
Lemma zn_div x y : zn x -> zn (fdiv x y).
Proof. intros [[b ->]| ->]; destruct y; cbn; unfold zn; eauto. Qed.
Lemma zn_ratio x y : zn x -> zn y -> fdiv x y = S754_nan.
Proof. intros [[b ->]| ->] [[b' ->]| ->]; reflexivity. Qed.

Lemma zero_sample n : exists m v k, MeanAndVar F64 (repeat f0 n) = (m, v, k) /\ zn m /\ zn v.
Proof.
  unfold MeanAndVar. cbn [nadd nmul nofZ F64]. change (f_of_Z 0) with f0. rewrite zero_sums by auto.
  do 3 eexists. split; [reflexivity|]. cbn [nadd nmul nofZ nsub ndiv F64].
  assert (Z0 : zn f0) by (left; eexists; reflexivity).
  split; [apply zn_div; auto|]. apply zn_div, zn_sub; auto. apply zn_mul, zn_div; auto.
Qed.

(** Two samples of zeros, of any sizes: the p value is not a number, whatever the
    library functions do.  This is the case of every feature that was never
    used for a split by the ACE forests and whose contrasts were not used either. *)
Theorem C88_unused_feature_refuted : forall sqrt exp lgamma pow n1 n2,
  exists t am, Ttest F64 sqrt exp lgamma pow (repeat f0 n1) (repeat f0 n2) = (S754_nan, t, S754_nan, am).
Proof.
  intros sqrt exp lgamma pow n1 n2. unfold Ttest.
  destruct (zero_sample n1) as (m1 & v1 & k1 & -> & Hm1 & Hv1). destruct (zero_sample n2) as (m2 & v2 & k2 & -> & Hm2 & Hv2).
  cbn [nadd nmul nofZ nsub ndiv nltb F64].
  assert (Hs : zn (fadd (fdiv v1 k1) (fdiv v2 k2))) by (apply zn_add; apply zn_div; auto).
  rewrite (zn_ratio (fmul (fadd (fdiv v1 k1) (fdiv v2 k2)) (fadd (fdiv v1 k1) (fdiv v2 k2)))).
  2: { apply zn_mul; auto. }
  2: { apply zn_add; apply zn_div; apply zn_mul; apply zn_div; auto. }
  rewrite tail_nan. destruct (fltb (f_of_Z 0) _); do 2 eexists; reflexivity.
Qed.

(** Three equal numbers, 0.1: the computed variance is negative, so that math.Sqrt of it
    is not a number. *)
Definition tenth : f64 := fdiv (f_of_Z 1) (f_of_Z 10).
Theorem C88_negative_variance_refuted :
  exists m v n, MeanAndVar F64 (repeat tenth 3) = (m, v, n) /\ fltb v f0 = true.
Proof. do 3 eexists. split; [vm_compute; reflexivity|vm_compute; reflexivity]. Qed.
Print Assumptions C88_unused_feature_refuted.
Print Assumptions C88_negative_variance_refuted.

(** ** C70 *)
Lemma fsub_self_finite s m e : exists b, fsub (S754_finite s m e) (S754_finite s m e) = S754_zero b.
Proof.
  exists false. unfold fsub, SFsub. rewrite Z.min_id. rewrite Z.sub_diag. unfold binary_normalize. reflexivity.
Qed.

(** What Span should be: the largest minus the smallest of the values present. *)
Definition present (f : numF) (cases : list nat) : list f64 :=
  flat_map (fun i => match nth_error (nMissing f) i, nth_error (nData f) i with Some false, Some v => [v] | _, _ => [] end) cases.
Definition is_max (x : f64) (l : list f64) : Prop := In x l /\ forall y, In y l -> fleb y x = true.
Definition is_min (x : f64) (l : list f64) : Prop := In x l /\ forall y, In y l -> fleb x y = true.

Lemma span_loop (f : numF) (l : list nat) : forall mn mx : f64,
  mn = mx -> (forall i, In i l -> i < length (nMissing f) /\ i < length (nData f)) ->
  foreach l (fun i '((mn, mx) : f64 * f64) =>
    let* miss := get (nMissing f) i in
    if miss then Ok (mn, mx)
    else
      let* val := get (nData f) i in
      if true then Ok (val, val)
      else if fltb mx val then Ok (mn, val)
      else if fltb val mn then Ok (val, mx)
      else Ok (mn, mx)) (mn, mx)
  = Ok (last (present f l) mn, last (present f l) mn).
Proof.
  induction l as [|i l IH]; intros mn mx -> Hin; [reflexivity|].
  destruct (Hin i) as [H1 H2]; [cbn; auto|]. apply nth_error_Some in H1, H2.
  destruct (nth_error (nMissing f) i) as [miss|] eqn:Em; [|congruence]. destruct (nth_error (nData f) i) as [v|] eqn:Ed; [|congruence].
  cbn [foreach]. rewrite (get_nth _ _ Em). cbn [bind]. unfold present. cbn [flat_map]. rewrite Em, Ed. fold (present f l).
  destruct miss.
  - cbn [bind]. rewrite IH; [reflexivity|auto|]. intros; apply Hin; cbn; auto.
  - rewrite (get_nth _ _ Ed). cbn [bind]. rewrite IH; [|auto|intros; apply Hin; cbn; auto].
    cbn [app]. destruct (present f l) as [|w ws]; [reflexivity|]. f_equal. cbn [last]. f_equal; clear; revert w; induction ws as [|y ws IH2]; intros w; cbn; auto; apply IH2.
Qed.

(** Span answers zero for every feature and every list of cases with finite values. *)
Theorem C70_always_zero_refuted : forall f cases,
  (forall i, In i cases -> i < length (nMissing f) /\ i < length (nData f)) ->
  (forall v, In v (present f cases) -> exists s m e, v = S754_finite s m e \/ v = S754_zero s) ->
  exists b, nSpan f cases = Ok (S754_zero b).
Proof.
  intros f cases Hin Hfin. unfold nSpan. rewrite span_loop by auto. cbn [bind].
  set (v := last (present f cases) f0).
  assert (Hv : exists s m e, v = S754_finite s m e \/ v = S754_zero s).
  { unfold v. destruct (present f cases) as [|w ws] eqn:E; [exists false, 1%positive, 0%Z; right; reflexivity|].
    apply Hfin. clear. generalize f0. revert w. induction ws as [|y ws IH]; intros w d; cbn [last]; [cbn; auto|]. right. apply IH. }
  destruct Hv as (s & m & e & [Hv|Hv]); rewrite Hv.
  - destruct (fsub_self_finite s m e) as [b Hb]. rewrite Hb. eauto.
  - destruct s; eexists; reflexivity.
Qed.
(** ... although the largest and the smallest value differ. *)
Theorem C70_span_of_two_refuted :
  let f := mkNum [f1; f2] [false; false] EmptyString false in
  is_min f1 (present f [0; 1]) /\ is_max f2 (present f [0; 1]) /\ feqb (fsub f2 f1) f0 = false
  /\ nSpan f [0; 1] = Ok f0.
Proof.
  intros f. assert (E : present f [0; 1] = [f1; f2]) by (vm_compute; reflexivity). rewrite E.
  split; [|split; [|split]].
  - split; [apply in_eq|]. intros y [<-|[<-|[]]]; vm_compute; reflexivity.
  - split; [apply in_cons, in_eq|]. intros y [<-|[<-|[]]]; vm_compute; reflexivity.
  - vm_compute; reflexivity.
  - vm_compute; reflexivity.
Qed.
(** It is right if all values are the same. *)
Theorem C70_constant_partial : forall f cases v,
  (forall i, In i cases -> i < length (nMissing f) /\ i < length (nData f)) ->
  (exists s m e, v = S754_finite s m e \/ v = S754_zero s) ->
  present f cases <> [] -> Forall (eq v) (present f cases) ->
  is_min v (present f cases) /\ is_max v (present f cases) /\ nSpan f cases = Ok (fsub v v).
Proof.
  intros f cases v Hin Hv Hne Hall. rewrite Forall_forall in Hall.
  assert (Hr : fleb v v = true).
  { destruct Hv as (s & m & e & [-> | ->]); [|destruct s; reflexivity]. unfold fleb, SFleb, SFcompare. destruct s; rewrite Z.compare_refl, Pos.compare_cont_refl; reflexivity. }
  assert (Hi : In v (present f cases)).
  { destruct (present f cases) as [|w ws]; [congruence|]. rewrite (Hall w) by (cbn; auto). cbn; auto. }
  split; [split; auto; intros y Hy; rewrite <- (Hall y Hy); auto|]. split; [split; auto; intros y Hy; rewrite <- (Hall y Hy); auto|].
  unfold nSpan. rewrite span_loop by auto. cbn [bind].
  replace (last (present f cases) f0) with v; auto.
  assert (G : forall (l : list f64) d, l <> [] -> In (last l d) l).
  { induction l as [|w ws IH]; intros d H; [congruence|]. destruct ws; cbn [last]; [cbn; auto|]. right. apply IH. congruence. }
  apply Hall. apply G. auto.
Qed.
Print Assumptions C70_always_zero_refuted.
Print Assumptions C70_span_of_two_refuted.
Print Assumptions C70_constant_partial.
