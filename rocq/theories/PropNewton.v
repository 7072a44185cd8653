(** C107 (Expit and Logit), C108 (leaf values of two class gradient boosting). *)
From Verif Require Import Go GoLemmas F64 F64Round Exact ModelFeature ModelTree ModelBoost TreeSpec BoostProofs PropTree PropBoost.
From Coq Require Import Reals Lra Ranalysis.
Local Open Scope string_scope.
Local Open Scope nat_scope.
Local Open Scope list_scope.

(** ** Spec: the logistic function and the log likelihood of labels *)

(** the chance of the positive class at a log odds score *)
Definition logistic (x : R) : R := (/ (1 + exp (- x)))%R.

(** The log likelihood of labels 0/1 for cases [(label, score)] when [t] is added to
    every score. *)
Definition loglik (l : list (R * R)) (t : R) : R :=
  Rsum (map (fun p : R * R => fst p * ln (logistic (snd p + t)) + (1 - fst p) * ln (1 - logistic (snd p + t)))%R l).

(** math.Tanh on the reals *)
Definition xtanh (x : XR) : XR := match x with Some r => Some (tanh r) | None => None end.
(** math.Log on the reals *)
Definition xln (x : XR) : XR := match x with Some r => Some (ln r) | None => None end.

Lemma logistic_range x : (0 < logistic x < 1)%R.
Proof.
  unfold logistic. pose proof (exp_pos (- x)) as H. split.
  - apply Rinv_0_lt_compat. lra.
  - rewrite <- Rinv_1. apply Rinv_lt_contravar; lra.
Qed.

(** ** C107 *)
Lemma expit_exact x : Expit XR xtanh (Some x) = Some (logistic x).
Proof.
  unfold Expit. cbn [nofZ ndiv XR]. rewrite xdiv_some by lra. cbv zeta. cbn [nmul nadd XR lift2 xtanh]. f_equal.
  unfold tanh, sinh, cosh, logistic.
  set (a := exp (1 / 2 * x)). assert (Eb : exp (- (1 / 2 * x)) = (/ a)%R) by apply exp_Ropp. rewrite Eb.
  assert (Ha : (0 < a)%R) by apply exp_pos.
  assert (Ex : exp (- x) = (/ a * / a)%R).
  { rewrite <- Eb, <- exp_plus. f_equal. lra. }
  rewrite Ex. assert (Hi : (0 < / a)%R) by (apply Rinv_0_lt_compat; auto).
  assert (Hq : (0 < a * a)%R) by (apply Rmult_lt_0_compat; auto).
  field. repeat split; try lra; nra.
Qed.

(** Expit is the logistic function: strictly between 0 and 1, increasing, 1/2 at 0, and
    [Logit] undoes it. *)
Theorem C107_expit_is_logistic : forall x,
  Expit XR xtanh (Some x) = Some (/ (1 + exp (- x)))%R /\
  (0 < / (1 + exp (- x)) < 1)%R /\
  (forall y, (x < y)%R -> (/ (1 + exp (- x)) < / (1 + exp (- y)))%R) /\
  Logit XR xln (Expit XR xtanh (Some x)) = Some x.
Proof.
  intros x. rewrite expit_exact. split; auto. split; [apply logistic_range|]. split.
  - intros y H. apply Rinv_lt_contravar.
    + apply Rmult_lt_0_compat; pose proof (exp_pos (- x)); pose proof (exp_pos (- y)); lra.
    + apply Rplus_lt_compat_l, exp_increasing. lra.
  - pose proof (logistic_range x) as H. unfold Logit. cbn [nofZ nsub ndiv XR lift2]. rewrite xdiv_some by lra. cbn [xln]. f_equal.
    rewrite <- (ln_exp x) at 3. f_equal. unfold logistic. rewrite exp_Ropp. pose proof (exp_pos x). field. lra.
Qed.
Theorem C107_logit_then_expit : forall p, (0 < p < 1)%R -> Expit XR xtanh (Logit XR xln (Some p)) = Some p.
Proof.
  intros p H. unfold Logit. cbn [nofZ nsub ndiv XR lift2]. rewrite xdiv_some by lra. cbn [xln]. rewrite expit_exact. f_equal.
  unfold logistic. rewrite exp_Ropp, exp_ln by (apply Rdiv_lt_0_compat; lra). field. lra.
Qed.
Example C107_ex : Expit XR xtanh (Some 0%R) = Some (/ 2)%R.
Proof. rewrite expit_exact. unfold logistic. rewrite Ropp_0, exp_0. do 2 f_equal; try lra. Qed.

(** In float64 a score at which math.Tanh rounds to 1 has chance exactly 1, and Logit does
    not come back: it answers with the logarithm of infinity. *)
Theorem C107_saturated_refuted : forall (ftanh flog : f64 -> f64) x,
  ftanh (fmul (fdiv f1 f2) x) = f1 -> flog (S754_infinity false) = S754_infinity false ->
  Expit F64 ftanh x = f1 /\ Logit F64 flog (Expit F64 ftanh x) = S754_infinity false.
Proof.
  intros ftanh flog x H1 H2.
  assert (E : Expit F64 ftanh x = f1).
  { unfold Expit. cbv zeta. change (nmul F64 (ndiv F64 (nofZ F64 1) (nofZ F64 2)) x) with (fmul (fdiv f1 f2) x). rewrite H1.
    vm_compute. reflexivity. }
  split; auto. rewrite E. unfold Logit.
  replace (ndiv F64 f1 (nsub F64 (nofZ F64 1) f1)) with (S754_infinity false) by (vm_compute; reflexivity). exact H2.
Qed.
Example C107_saturated_ex : exists (ftanh flog : f64 -> f64) x,
  ftanh (fmul (fdiv f1 f2) x) = f1 /\ flog (S754_infinity false) = S754_infinity false.
Proof. exists (fun _ => f1), (fun x => x), (f_of_Z 100). split; reflexivity. Qed.

(** ** C108 *)

(** What a target holds for the given cases: 0/1 labels, scores, and residuals
    [label - logistic score] (C81: true after every round in exact arithmetic). *)
Definition holds (g : gbclass XR) (cases : list nat) (l : list (R * R)) : Prop :=
  Forall2 (fun c (p : R * R) =>
    nth_error (ncData XR (gcActual XR g)) c = Some (Some (fst p)) /\
    nth_error (ncData XR (gcRes XR g)) c = Some (Some (fst p - logistic (snd p))%R)) cases l.

Lemma predicted_exact g : forall cases l num denom, holds g cases l ->
  foreach cases (fun c '((num, denom) : XR * XR) =>
    let* r := get (ncData XR (gcRes XR g)) c in
    let* y := get (ncData XR (gcActual XR g)) c in
    Ok (nadd XR num r, nadd XR denom (nmul XR (nsub XR y r) (nadd XR (nsub XR (nofZ XR 1) y) r)))) (Some num, Some denom) =
  Ok (Some (num + Rsum (map (fun p => fst p - logistic (snd p)) l))%R,
      Some (denom + Rsum (map (fun p => logistic (snd p) * (1 - logistic (snd p))) l))%R).
Proof.
  induction cases as [|c cases IH]; intros l num denom H; inversion H as [|? p ? l' [H1 H2] H3]; subst.
  - cbn. do 3 f_equal; lra.
  - cbn [foreach]. rewrite (get_nth _ _ H2), (get_nth _ _ H1). cbn [bind nofZ nadd nsub nmul XR lift2].
    rewrite (IH l') by auto. cbn [map Rsum]. do 3 f_equal; lra.
Qed.

(** derivatives of one term *)
Lemma logistic_derivative s t : derivable_pt_lim (fun u => logistic (s + u)) t (logistic (s + t) * (1 - logistic (s + t)))%R.
Proof.
  assert (D : derivable_pt_lim (fun u => 1 + exp (- (s + u)))%R t (- exp (- (s + t)))%R).
  { replace (- exp (- (s + t)))%R with (0 + exp (- (s + t)) * (- (0 + 1)))%R by lra.
    apply (derivable_pt_lim_plus (fct_cte 1) (fun u => exp (- (s + u)))); [apply derivable_pt_lim_const|].
    apply (derivable_pt_lim_comp (fun u => - (s + u))%R exp); [|apply derivable_pt_lim_exp].
    apply (derivable_pt_lim_opp (fun u => s + u)%R).
    apply (derivable_pt_lim_plus (fct_cte s) id); [apply derivable_pt_lim_const|apply derivable_pt_lim_id]. }
  assert (H : (1 + exp (- (s + t)) <> 0)%R) by (pose proof (exp_pos (- (s + t))); lra).
  pose proof (derivable_pt_lim_div (fct_cte 1) _ t _ _ (derivable_pt_lim_const 1 t) D H) as Q.
  cbv beta in Q.
  replace (logistic (s + t) * (1 - logistic (s + t)))%R with
    ((0 * (1 + exp (- (s + t))) - - exp (- (s + t)) * fct_cte 1 t) / Rsqr (1 + exp (- (s + t))))%R
    by (unfold logistic, fct_cte, Rsqr; field; auto).
  eapply derivable_pt_lim_ext; [|exact Q].
  intros u. unfold div_fct, fct_cte, logistic. unfold Rdiv. lra.
Qed.

Lemma term_derivative y s t :
  derivable_pt_lim (fun u => y * ln (logistic (s + u)) + (1 - y) * ln (1 - logistic (s + u)))%R t (y - logistic (s + t))%R.
Proof.
  pose proof (logistic_range (s + t)) as Hr. pose proof (logistic_derivative s t) as D.
  set (p := logistic (s + t)) in *.
  assert (D1 : derivable_pt_lim (fun u => ln (logistic (s + u))) t (/ p * (p * (1 - p)))%R).
  { apply (derivable_pt_lim_comp (fun u => logistic (s + u)) ln); auto. apply derivable_pt_lim_ln. apply Hr. }
  assert (D2 : derivable_pt_lim (fun u => ln (1 - logistic (s + u))) t (/ (1 - p) * (0 - p * (1 - p)))%R).
  { apply (derivable_pt_lim_comp (fun u => 1 - logistic (s + u))%R ln).
    - apply (derivable_pt_lim_minus (fct_cte 1) (fun u => logistic (s + u))); auto. apply derivable_pt_lim_const.
    - apply derivable_pt_lim_ln. fold p. lra. }
  replace (y - p)%R with (y * (/ p * (p * (1 - p))) + (1 - y) * (/ (1 - p) * (0 - p * (1 - p))))%R by (field; lra).
  apply (derivable_pt_lim_plus (fun u => y * ln (logistic (s + u)))%R (fun u => (1 - y) * ln (1 - logistic (s + u)))%R).
  - apply (derivable_pt_lim_scal (fun u => ln (logistic (s + u)))); auto.
  - apply (derivable_pt_lim_scal (fun u => ln (1 - logistic (s + u)))); auto.
Qed.

Lemma sum_derivative {B} (f f' : B -> R -> R) (t : R) : forall l, (forall b, In b l -> derivable_pt_lim (f b) t (f' b t)) ->
  derivable_pt_lim (fun u => Rsum (map (fun b => f b u) l)) t (Rsum (map (fun b => f' b t) l)).
Proof.
  induction l as [|b l IH]; intros H; cbn [map Rsum].
  - apply (derivable_pt_lim_const 0 t).
  - apply (derivable_pt_lim_plus (f b) (fun u => Rsum (map (fun b => f b u) l))); [apply H; left; auto|].
    apply IH. intros; apply H; right; auto.
Qed.

(** The value of a leaf is one Newton step from 0 towards the constant that, added to the
    scores of the leaf's cases, makes their labels most likely: minus the first derivative
    of the log likelihood over the second, which is negative. *)
Theorem C108_newton_step : forall g cases l, cases <> [] -> holds g cases l ->
  exists (first : R -> R) (second : R),
    (forall t, derivable_pt_lim (loglik l) t (first t)) /\
    derivable_pt_lim first 0 second /\ (second < 0)%R /\
    gcPredicted XR cases g = Ok (Some (- first 0 / second)%R).
Proof.
  intros g cases l Hne H.
  exists (fun t => Rsum (map (fun p : R * R => fst p - logistic (snd p + t))%R l)),
    (Rsum (map (fun p : R * R => - (logistic (snd p + 0) * (1 - logistic (snd p + 0))))%R l)).
  assert (E0 : forall l : list (R * R), Rsum (map (fun p => - (logistic (snd p + 0) * (1 - logistic (snd p + 0))))%R l) =
    (- Rsum (map (fun p => logistic (snd p) * (1 - logistic (snd p))) l))%R).
  { clear. induction l as [|p l IH]; cbn [map Rsum]; [lra|]. rewrite IH, Rplus_0_r. lra. }
  assert (Hp : (0 < Rsum (map (fun p => logistic (snd p) * (1 - logistic (snd p))) l))%R).
  { destruct H as [|c p cases l _ _]; [congruence|]. cbn [map Rsum].
    assert (G : forall q : R * R, (0 < logistic (snd q) * (1 - logistic (snd q)))%R).
    { intros q. pose proof (logistic_range (snd q)). apply Rmult_lt_0_compat; lra. }
    assert (0 <= Rsum (map (fun p => logistic (snd p) * (1 - logistic (snd p))) l))%R.
    { clear - G. induction l as [|q l IH]; cbn [map Rsum]; [lra|]. pose proof (G q). lra. }
    pose proof (G p). lra. }
  split; [|split; [|split]].
  - intros t. unfold loglik.
    apply (sum_derivative (fun (p : R * R) u => fst p * ln (logistic (snd p + u)) + (1 - fst p) * ln (1 - logistic (snd p + u)))%R
      (fun p u => fst p - logistic (snd p + u))%R). intros p _. apply term_derivative.
  - apply (sum_derivative (fun (p : R * R) u => fst p - logistic (snd p + u))%R
      (fun p u => - (logistic (snd p + u) * (1 - logistic (snd p + u))))%R). intros p _.
    replace (- (logistic (snd p + 0) * (1 - logistic (snd p + 0))))%R with (0 - logistic (snd p + 0) * (1 - logistic (snd p + 0)))%R by lra.
    apply (derivable_pt_lim_minus (fct_cte (fst p)) (fun u => logistic (snd p + u))); [apply derivable_pt_lim_const|apply logistic_derivative].
  - rewrite E0. lra.
  - unfold gcPredicted. cbn [nofZ XR].
    pose proof (predicted_exact g cases l 0 0 H) as E.
    match goal with |- context [bind ?X _] => assert (EX : X = _) by exact E; rewrite EX; clear EX E end.
    cbn [bind ndiv XR]. rewrite !Rplus_0_l.
    rewrite xdiv_some by lra. do 2 f_equal. rewrite E0.
    replace (map (fun p : R * R => (fst p - logistic (snd p + 0))%R) l) with (map (fun p : R * R => (fst p - logistic (snd p))%R) l)
      by (apply map_ext; intros p; rewrite Rplus_0_r; reflexivity).
    field. lra.
Qed.

(** Boosting keeps targets in the state the theorem asks for: after any rounds, [holds] is
    true of any cases of the data, with the labels, and the scores of C81. *)
Definition label (f : catF) (pos : string) (c : nat) : R :=
  match cGetStr f c with Ok s => if (s =? pos)%string then 1%R else 0%R | _ => 0%R end.

Theorem C108_state_kept : forall PF f (lr : R) pos rounds, readable f ->
  let n := length (cMissing f) in
  Forall (round_ok n) rounds -> (forall s, PF s <> Some None) ->
  (exists i j, i < n /\ j < n /\ cGetStr f i = Ok pos /\ cGetStr f j <> Ok pos) ->
  exists g f' g' score, NewGradBoostClassTarget XR (Expit XR xtanh) xln f (Some lr) pos = Ok (g, f') /\
    gcRounds XR PF (Expit XR xtanh) rounds g = Ok (g', repeat (Some lr) (length rounds)) /\
    forall cases, Forall (fun c => c < n) cases -> holds g' cases (map (fun c => (label f pos c, score c)) cases).
Proof.
  intros PF f lr pos rounds Hf n Hr HPF (i & j & Hi & Hj & Ei & Ej).
  destruct (new_class XR (Expit XR xtanh) xln f (Some lr) pos Hf) as (g & f' & E & L & P & F1 & F2 & F3 & V & _).
  fold n in P, F1, F2, F3, V.
  assert (Ep : forall c, PropBoost.positive XR f pos c = Some (label f pos c)).
  { intros c. unfold PropBoost.positive, label. destruct (cGetStr f c) as [s| |]; auto. destruct (s =? pos)%string; auto. }
  assert (Hfin : exists prior, gcPrior XR g = Some prior).
  { rewrite P. cbv zeta.
    assert (G : forall l s, fold_left (nadd XR) (map (PropBoost.positive XR f pos) l) (Some s) = Some (s + Rsum (map (label f pos) l))%R).
    { induction l as [|c l IH]; intros s; cbn [map fold_left Rsum]; [f_equal; lra|]. rewrite Ep. cbn [nadd XR lift2].
      rewrite IH. f_equal. lra. }
    cbn [nofZ XR]. rewrite G. cbn [nsub ndiv XR lift2].
    assert (Hc : forall c, (0 <= label f pos c <= 1)%R).
    { intros c. unfold label. destruct (cGetStr f c) as [s| |]; try lra. destruct (s =? pos)%string; lra. }
    assert (Hlt : (Rsum (map (label f pos) (seq 0 n)) < IZR (Z.of_nat n))%R).
    { rewrite <- INR_IZR_INZ.
      assert (K : forall l, In j l -> (Rsum (map (label f pos) l) + 1 <= INR (length l))%R).
      { assert (K0 : forall l, (Rsum (map (label f pos) l) <= INR (length l))%R).
        { induction l as [|c l IH]; [cbn; lra|]. change (length (c :: l)) with (S (length l)). rewrite S_INR. cbn [map Rsum].
          pose proof (Hc c). lra. }
        induction l as [|c l IH]; intros H; [destruct H|]. change (length (c :: l)) with (S (length l)). rewrite S_INR. cbn [map Rsum].
        pose proof (Hc c). destruct H as [->|H].
        - assert (label f pos j = 0%R).
          { unfold label. destruct (cGetStr f j) as [s| |]; auto. destruct (String.eqb_spec s pos); auto. congruence. }
          pose proof (K0 l). lra.
        - specialize (IH H). lra. }
      specialize (K (seq 0 n)). rewrite seq_length in K. assert (In j (seq 0 n)) by (apply in_seq; lia). specialize (K H). lra. }
    rewrite xdiv_some by lra. cbn [xln]. eauto. }
  destruct Hfin as (prior & Hprior).
  destruct (gc_rounds XR PF (Expit XR xtanh) f pos (Some lr) (Some prior) n rounds g [] Hr) as (g' & E' & G' & V').
  { split; [auto|]. split; [auto|]. do 3 (split; [auto|]). intros d Hd. destruct (V d Hd) as (V1 & V2 & V3).
    split; auto. rewrite V3, V2. reflexivity. }
  exists g, f', g', (fun c => match nth c (ncData XR (gcPred XR g')) (Some 0%R) with Some r => r | None => 0%R end).
  split; auto. split; [exact E'|]. destruct G' as (_ & _ & (R1 & _) & (A1 & _) & (P1 & _) & G).
  induction cases as [|c cases IH]; intros Hc; [constructor|]. apply Forall_cons_iff in Hc as [H1 H2].
  cbn [map]. constructor; [|apply IH; auto]. cbn [fst snd]. destruct (G c H1) as [G1 G2].
  rewrite (nth_error_nth_lt _ _ (nofZ XR 0)) by lia. rewrite G1, Ep. split; auto.
  rewrite (nth_error_nth_lt _ _ (nofZ XR 0)) by lia. rewrite G2, Ep. cbn [nofZ XR].
  assert (Hs : exists r, nth c (ncData XR (gcPred XR g')) (Some 0%R) = Some r).
  { pose proof (V' c H1) as V0. cbn [nofZ XR] in V0. rewrite V0. destruct (V c H1) as (_ & V2 & _).
    assert (V3 : nth c (ncData XR (gcPred XR g)) (Some 0%R) = gcPrior XR g) by (rewrite P; exact V2). rewrite V3, Hprior.
    clear V0. generalize prior. induction (leaf_words rounds c) as [|w l IHl]; intros r; cbn [fold_left]; [eauto|].
    assert (Hw : exists v, parse0 XR PF w = Some v).
    { unfold parse0. specialize (HPF w). destruct (PF w) as [[v|]|]; [eauto|congruence|cbn; eauto]. }
    destruct Hw as (v & ->). cbn [nmul nadd XR lift2]. apply IHl. }
  destruct Hs as (r & ->). rewrite expit_exact. reflexivity.
Qed.

(** Two cases, one of each class, both at score 0: residuals 1/2 and -1/2. *)
Definition ex_newton : gbclass XR :=
  mkGBC XR (mkNC XR [Some (/ 2)%R; Some (- / 2)%R] [false; false]) (mkNC XR [Some 1%R; Some 0%R] [false; false])
    (mkNC XR [Some 0%R; Some 0%R] [false; false]) (Some 1%R) (Some 0%R).
Example C108_ex : holds ex_newton [0; 1] [(1, 0); (0, 0)]%R /\ gcPredicted XR [0] ex_newton = Ok (Some 2%R).
Proof.
  assert (H0 : logistic 0 = (/ 2)%R) by (unfold logistic; rewrite Ropp_0, exp_0; f_equal; lra).
  split.
  - repeat constructor; cbn [nth_error ex_newton gcActual gcRes ncData fst snd]; rewrite H0; do 2 f_equal; lra.
  - unfold gcPredicted. cbn [foreach get nth_error ex_newton gcActual gcRes ncData bind nofZ nadd nsub nmul ndiv XR lift2].
    rewrite xdiv_some by lra. do 2 f_equal. field.
Qed.
Example C108_state_ex : readable ex_cat /\ Forall (round_ok 5) [(ex_fm, ex_tree)] /\
  cGetStr ex_cat 1 = Ok "y" /\ cGetStr ex_cat 0 <> Ok "y".
Proof.
  split; [apply C81_ex|]. split; [|split; [reflexivity|discriminate]].
  repeat constructor. exact ex_round.
Qed.

(** In float64 a leaf whose residuals have all reached 0 predicts NaN (0/0): however many
    cases it has, and whatever their labels. *)
Theorem C108_settled_leaf_refuted : forall (g : gbclass F64) cases,
  Forall (fun c => nth_error (ncData F64 (gcRes F64 g)) c = Some f0 /\
    (nth_error (ncData F64 (gcActual F64 g)) c = Some f0 \/ nth_error (ncData F64 (gcActual F64 g)) c = Some f1)) cases ->
  gcPredicted F64 cases g = Ok S754_nan.
Proof.
  intros g cases H. unfold gcPredicted.
  assert (E : foreach cases (fun c '((num, denom) : F64 * F64) =>
    let* r := get (ncData F64 (gcRes F64 g)) c in
    let* y := get (ncData F64 (gcActual F64 g)) c in
    Ok (nadd F64 num r, nadd F64 denom (nmul F64 (nsub F64 y r) (nadd F64 (nsub F64 (nofZ F64 1) y) r)))) (f0, f0) = Ok (f0, f0)).
  { induction H as [|c cases [H1 H2] H IH]; [reflexivity|]. cbn [foreach]. rewrite (get_nth _ _ H1). cbn [bind].
    destruct H2 as [H2 | H2]; rewrite (get_nth _ _ H2); cbn [bind].
    - replace (nadd F64 f0 f0) with f0 by (vm_compute; reflexivity).
      replace (nadd F64 f0 (nmul F64 (nsub F64 f0 f0) (nadd F64 (nsub F64 (nofZ F64 1) f0) f0))) with f0 by (vm_compute; reflexivity).
      exact IH.
    - replace (nadd F64 f0 f0) with f0 by (vm_compute; reflexivity).
      replace (nadd F64 f0 (nmul F64 (nsub F64 f1 f0) (nadd F64 (nsub F64 (nofZ F64 1) f1) f0))) with f0 by (vm_compute; reflexivity).
      exact IH. }
  match goal with |- context [bind ?X _] => assert (EX : X = Ok (f0, f0)) by exact E; rewrite EX; clear EX E end.
  vm_compute. reflexivity.
Qed.

(** and boosting with that prediction makes the scores and the residuals of its cases NaN
    (when Expit answers NaN with NaN), so that they no longer take part in anything. *)
Theorem C108_nan_spreads_refuted : forall (expit : f64 -> f64) (g : gbclass F64) cases n,
  expit S754_nan = S754_nan -> Forall (fun c => c < n) cases ->
  length (ncData F64 (gcRes F64 g)) = n -> length (ncMissing F64 (gcRes F64 g)) = n ->
  length (ncData F64 (gcPred F64 g)) = n -> length (ncMissing F64 (gcPred F64 g)) = n ->
  length (ncData F64 (gcActual F64 g)) = n ->
  exists g', gcUpdate F64 expit cases S754_nan g = Ok g' /\
    forall c, In c cases -> nth_error (ncData F64 (gcPred F64 g')) c = Some S754_nan /\
      nth_error (ncData F64 (gcRes F64 g')) c = Some S754_nan.
Proof.
  intros expit g cases n Hx. revert g.
  assert (N1 : forall a b : f64, nadd F64 a (nmul F64 b S754_nan) = S754_nan).
  { intros a b. change (fadd a (fmul b S754_nan) = S754_nan).
    assert (E : fmul b S754_nan = S754_nan) by (destruct b; reflexivity). rewrite E. destruct a; reflexivity. }
  assert (N2 : forall a : f64, nsub F64 a S754_nan = S754_nan) by (intros a; destruct a; reflexivity).
  enough (G : forall cases done g, Forall (fun c => c < n) cases ->
    length (ncData F64 (gcRes F64 g)) = n -> length (ncMissing F64 (gcRes F64 g)) = n ->
    length (ncData F64 (gcPred F64 g)) = n -> length (ncMissing F64 (gcPred F64 g)) = n ->
    length (ncData F64 (gcActual F64 g)) = n ->
    (forall c, In c done -> nth_error (ncData F64 (gcPred F64 g)) c = Some S754_nan /\ nth_error (ncData F64 (gcRes F64 g)) c = Some S754_nan) ->
    exists g', gcUpdate F64 expit cases S754_nan g = Ok g' /\
      forall c, In c done \/ In c cases -> nth_error (ncData F64 (gcPred F64 g')) c = Some S754_nan /\
        nth_error (ncData F64 (gcRes F64 g')) c = Some S754_nan).
  { intros g Hc H1 H2 H3 H4 H5. destruct (G cases [] g) as (g' & E & H); auto; [intros c []|]. eauto. }
  clear cases. induction cases as [|c cases IH]; intros done g Hc H1 H2 H3 H4 H5 Hd.
  - exists g. split; [reflexivity|]. intros c [H | []]. auto.
  - apply Forall_cons_iff in Hc as [Hc Hcs]. unfold gcUpdate. cbn [foreach].
    rewrite (get_lt (ncData F64 (gcPred F64 g)) c f0) by lia. cbn [bind]. cbv zeta. rewrite N1.
    unfold ncPut at 1. rewrite set_ok by lia. cbn [bind]. rewrite set_ok by lia. cbn [bind].
    rewrite (get_lt (ncData F64 (gcActual F64 g)) c f0) by lia. cbn [bind]. rewrite Hx, N2.
    unfold ncPut at 1. rewrite set_ok by lia. cbn [bind]. rewrite set_ok by lia. cbn [bind].
    match goal with |- exists g', foreach cases _ ?h = _ /\ _ => set (h0 := h) end.
    destruct (IH (c :: done) h0) as (g' & E & H); auto;
      try (unfold h0; cbn [gcRes gcPred gcActual ncData ncMissing]; rewrite ?upd_length; assumption).
    { intros d Hi. unfold h0. cbn [gcRes gcPred ncData].
      destruct (Nat.eq_dec d c) as [->|Ne]; [rewrite !nth_error_upd_eq by lia; auto|].
      rewrite !nth_error_upd_neq by auto. destruct Hi as [->|Hi]; [congruence|auto]. }
    exists g'. split; [exact E|]. intros d [Hi | [<- | Hi]]; apply H; cbn; auto.
Qed.
Example C108_refuted_ex :
  let g := mkGBC F64 (mkNC F64 [f0; f0] [false; false]) (mkNC F64 [f1; f0] [false; false]) (mkNC F64 [f1; f1] [false; false]) f1 f0 in
  gcPredicted F64 [0; 1] g = Ok S754_nan /\
  (let* g := gcUpdate F64 (fun x => x) [0; 1] S754_nan g in Ok (ncData F64 (gcRes F64 g))) = Ok [S754_nan; S754_nan].
Proof. split; reflexivity. Qed.

Lemma of_nat_positive n : 0 < n -> (exists m e, f_of_Z (Z.of_nat n) = S754_finite false m e) \/ f_of_Z (Z.of_nat n) = S754_infinity false.
Proof.
  intros H. destruct (normalize_key (Z.of_nat n) 0 false) as (V & N & K); [lia|]. fold (f_of_Z (Z.of_nat n)) in *.
  assert (P : (0 < key (f_of_Z (Z.of_nat n)))%Z).
  { rewrite K. apply Z.lt_le_trans with (RND4 (4 * key f1)).
    - rewrite RND4_key by reflexivity. vm_compute. reflexivity.
    - apply RND4_mono. assert (E : key f1 = (2 ^ (0 + 1074))%Z) by (vm_compute; reflexivity). rewrite E.
      assert (0 < 2 ^ (0 + 1074))%Z by (apply Z.pow_pos_nonneg; lia). nia. }
  destruct (f_of_Z (Z.of_nat n)) as [s|s| |s m e]; cbn [key] in P; try lia; try discriminate.
  - destruct s; auto. exfalso. pose proof INF_pos. cbn [cond_Zopp] in P. lia.
  - destruct s; eauto. exfalso. cbn [cond_Zopp] in P. pose proof (Z.pow_nonneg 2 (e + 1074)). nia.
Qed.

(** Data without a single positive case (at least one case): the first tree's leaves already
    predict NaN, when Log 0 is minus infinity and Expit of that is 0. *)
Theorem C108_single_class_refuted : forall (expit nlog : f64 -> f64) f lr pos, readable f -> 0 < length (cMissing f) ->
  nlog f0 = S754_infinity true -> expit (S754_infinity true) = f0 ->
  (forall c, cGetStr f c <> Ok pos) ->
  exists g f', NewGradBoostClassTarget F64 expit nlog f lr pos = Ok (g, f') /\
    gcIntercept F64 g = S754_infinity true /\
    forall cases, Forall (fun c => c < length (cMissing f)) cases -> gcPredicted F64 cases g = Ok S754_nan.
Proof.
  intros expit nlog f lr pos Hf Hn Hl He Hp.
  destruct (new_class F64 expit nlog f lr pos Hf) as (g & f' & E & L & P & (R1 & _) & (A1 & _) & F3 & V & _).
  set (n := length (cMissing f)) in *.
  assert (Ep : forall c, PropBoost.positive F64 f pos c = f0).
  { intros c. unfold PropBoost.positive. specialize (Hp c). destruct (cGetStr f c) as [s| |]; auto.
    destruct (String.eqb_spec s pos); auto. congruence. }
  assert (Es : forall l, fold_left (nadd F64) (map (PropBoost.positive F64 f pos) l) f0 = f0).
  { induction l as [|c l IH]; auto. cbn [map fold_left]. rewrite Ep. exact IH. }
  assert (Epr : (let p := fold_left (nadd F64) (map (PropBoost.positive F64 f pos) (seq 0 n)) (nofZ F64 0) in
    nlog (ndiv F64 p (nsub F64 (nofZ F64 (Z.of_nat n)) p))) = S754_infinity true).
  { cbv zeta. change (nofZ F64 0) with f0. rewrite Es. rewrite <- Hl. f_equal.
    change (fdiv f0 (fsub (f_of_Z (Z.of_nat n)) f0) = f0).
    destruct (of_nat_positive n Hn) as [(m & e & ->) | ->]; reflexivity. }
  rewrite Epr in P. exists g, f'. split; auto. split; [exact P|]. intros cases Hc. apply C108_settled_leaf_refuted.
  eapply Forall_impl; [|exact Hc]. intros c Hlt. cbn beta in Hlt. destruct (V c Hlt) as (V1 & _ & V3).
  rewrite Epr, He, Ep in V3. rewrite Ep in V1.
  rewrite (nth_error_nth_lt _ _ (nofZ F64 0)) by lia. rewrite V3.
  rewrite (nth_error_nth_lt _ _ (nofZ F64 0)) by lia. rewrite V1. auto.
Qed.
Example C108_single_class_ex : (forall c, cGetStr ex_cat c <> Ok "z") /\ readable ex_cat.
Proof.
  split; [|apply C81_ex]. intros c. do 5 (destruct c as [|c]; [discriminate|]). unfold cGetStr. cbn [ex_cat cMissing].
  unfold get. cbn [nth_error]. destruct c; discriminate.
Qed.

Print Assumptions C107_expit_is_logistic.
Print Assumptions C107_logit_then_expit.
Print Assumptions C107_saturated_refuted.
Print Assumptions C108_newton_step.
Print Assumptions C108_state_kept.
Print Assumptions C108_settled_leaf_refuted.
Print Assumptions C108_nan_spreads_refuted.
Print Assumptions C108_single_class_refuted.
