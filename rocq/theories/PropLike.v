(** C138: two-class gradient boosting and the likelihood of the training labels. *)
From Verif Require Import Go GoLemmas F64 Exact ModelFeature ModelSplit ModelSample SplitSpec ModelTree TreeSpec TreeProofs ModelBallot ModelSearch SearchSpec
  GrowSpec ModelTargets ModelGrow SplitterProofs Dependable GrownSpec GrowProofs PropGrow ModelImpurity ImpuritySpec ImpurityProofs PropImpurity
  PropImpurity3 PropTargets2 ModelBoost BoostProofs PropBoost PropNewton ModelForest FitSpec LikeSpec PropFit.
From Verif Require PropFeatureSearch PropRows PropGrow2.
From Coq Require Import Reals Lra Ranalysis Arith.Cantor.
Local Open Scope string_scope.
Local Open Scope nat_scope.
Local Open Scope list_scope.

(** ** One case *)
Lemma exp_square x : (x <= 1)%R -> x <> 0%R -> (exp x < 1 + x + x * x)%R.
Proof.
  intros Hx Hn.
  assert (D : forall c, derivable_pt_lim (fun u => (1 + u + u * u) * exp (- u))%R c (c * (1 - c) * exp (- c))%R).
  { intros c. replace (c * (1 - c) * exp (- c))%R with ((0 + 1 + (1 * c + c * 1)) * exp (- c) + (1 + c + c * c) * (exp (- c) * - 1))%R by ring.
    apply (derivable_pt_lim_mult (fun u => 1 + u + u * u)%R (fun u => exp (- u))).
    - apply (derivable_pt_lim_plus (fun u => 1 + u)%R (fun u => u * u)%R).
      + apply (derivable_pt_lim_plus (fct_cte 1) id); [apply derivable_pt_lim_const|apply derivable_pt_lim_id].
      + apply (derivable_pt_lim_mult id id); apply derivable_pt_lim_id.
    - apply (derivable_pt_lim_comp (fun u => - u)%R exp); [|apply derivable_pt_lim_exp].
      apply (derivable_pt_lim_opp id). apply derivable_pt_lim_id. }
  assert (G : (1 < (1 + x + x * x) * exp (- x))%R).
  { destruct (Rlt_le_dec 0 x) as [H|H].
    - destruct (MVT_cor2 _ _ 0 x H (fun c _ => D c)) as (c & E & Hc). rewrite Ropp_0, exp_0 in E.
      assert (0 < c * (1 - c) * exp (- c) * (x - 0))%R; [|lra]. pose proof (exp_pos (- c)).
      apply Rmult_lt_0_compat; [|lra]. apply Rmult_lt_0_compat; [|assumption]. apply Rmult_lt_0_compat; lra.
    - assert (Hx0 : (x < 0)%R) by lra. destruct (MVT_cor2 _ _ x 0 Hx0 (fun c _ => D c)) as (c & E & Hc). rewrite Ropp_0, exp_0 in E.
      assert (0 < (- c) * (1 - c) * exp (- c) * (0 - x))%R; [|lra]. pose proof (exp_pos (- c)).
      apply Rmult_lt_0_compat; [|lra]. apply Rmult_lt_0_compat; [|assumption]. apply Rmult_lt_0_compat; lra. }
  rewrite exp_Ropp in G. pose proof (exp_pos x) as P. apply (Rmult_lt_compat_r _ _ _ P) in G. rewrite Rmult_1_l in G.
  rewrite Rmult_assoc, Rinv_l, Rmult_1_r in G by lra. exact G.
Qed.

Lemma ln_below x : (-1 < x)%R -> (ln (1 + x) <= x)%R.
Proof.
  intros H. destruct (Req_dec x 0) as [->|N]; [rewrite Rplus_0_r, ln_1; lra|]. apply Rlt_le, exp_lt_inv. rewrite exp_ln by lra.
  apply exp_ineq1, N.
Qed.

(** A label of chance [1 - r] at score [s]: the change of its logarithm when the score moves
    by [u], at most 1 in size. *)
Lemma one_minus s : (1 - logistic s = logistic (- s))%R.
Proof.
  unfold logistic. rewrite Ropp_involutive. pose proof (exp_pos s). rewrite exp_Ropp. field. lra.
Qed.
Lemma up_move s u : (- 1 <= u <= 1)%R ->
  (ln (logistic s) + ((1 - logistic s) * u - (1 - logistic s) * (u * u)) <= ln (logistic (s + u)))%R /\
  (u <> 0%R -> ln (logistic s) + ((1 - logistic s) * u - (1 - logistic s) * (u * u)) < ln (logistic (s + u)))%R.
Proof.
  intros Hu. destruct (logistic_range s) as [P0 P1]. set (q := (1 - logistic s)%R). pose proof (exp_pos (- u)) as Ep.
  assert (E : logistic (s + u) = (logistic s / (1 + q * (exp (- u) - 1)))%R).
  { unfold q, logistic. rewrite Ropp_plus_distr, exp_plus. pose proof (exp_pos (- s)) as Es. assert (0 < exp (- s) * exp (- u))%R by (apply Rmult_lt_0_compat; lra). field. repeat split; lra. }
  assert (Hx : (- 1 < q * (exp (- u) - 1))%R).
  { assert (0 < q < 1)%R by (unfold q; lra). assert (0 < q * exp (- u))%R by (apply Rmult_lt_0_compat; lra). nra. }
  rewrite E. unfold Rdiv. rewrite ln_mult; [|exact P0|apply Rinv_0_lt_compat; lra]. rewrite ln_Rinv by lra. pose proof (ln_below _ Hx) as L.
  assert (Hq : (0 < q)%R) by (unfold q; lra).
  destruct (Req_dec u 0) as [->|N].
  - rewrite Ropp_0, exp_0 in *. split; [|congruence]. replace (q * (1 - 1))%R with 0%R in * by ring. lra.
  - pose proof (exp_square (- u)) as S. assert (S' : (exp (- u) < 1 + - u + - u * - u)%R) by (apply S; lra).
    assert (q * (exp (- u) - 1) < q * (- u + u * u))%R by (apply Rmult_lt_compat_l; lra). split; intros; lra.
Qed.
Lemma own_move y s u : (y = 0 \/ y = 1)%R -> (- 1 <= u <= 1)%R ->
  let r := (y - logistic s)%R in
  (ln (own_chance y s) + (r * u - Rabs r * (u * u)) <= ln (own_chance y (s + u)))%R /\
  (u <> 0%R -> ln (own_chance y s) + (r * u - Rabs r * (u * u)) < ln (own_chance y (s + u)))%R.
Proof.
  intros Hy Hu r. destruct (logistic_range s) as [P0 P1]. unfold own_chance. destruct Hy as [-> | ->].
  - assert (Er : Rabs r = logistic s) by (unfold r; rewrite Rabs_left; lra). rewrite Er.
    replace (0 * logistic s + (1 - 0) * (1 - logistic s))%R with (logistic (- s)) by (rewrite <- one_minus; ring).
    replace (0 * logistic (s + u) + (1 - 0) * (1 - logistic (s + u)))%R with (logistic (- s + - u)) by (rewrite <- Ropp_plus_distr, <- one_minus; ring).
    destruct (up_move (- s) (- u)) as [U1 U2]; [lra|]. rewrite <- one_minus in U1, U2.
    replace (1 - (1 - logistic s))%R with (logistic s) in * by ring.
    replace (r * u - logistic s * (u * u))%R with (logistic s * - u - logistic s * (- u * - u))%R by (unfold r; ring).
    rewrite <- one_minus. split; [exact U1|]. intros N. apply U2. lra.
  - assert (Er : Rabs r = (1 - logistic s)%R) by (unfold r; rewrite Rabs_right; lra). rewrite Er.
    replace (1 * logistic s + (1 - 1) * (1 - logistic s))%R with (logistic s) by ring.
    replace (1 * logistic (s + u) + (1 - 1) * (1 - logistic (s + u)))%R with (logistic (s + u)) by ring.
    apply up_move, Hu.
Qed.

(** ** A leaf *)
Lemma grouped_le (key : nat -> option path) (f : nat -> R) : forall k ds, length ds <= k ->
  (forall q, let D := filter (fun d => match key d with Some q' => if path_dec q' q then true else false | None => false end) ds in
     (0 <= Rsum (map f D))%R) ->
  (forall d, In d ds -> key d = None -> (0 <= f d)%R) -> (0 <= Rsum (map f ds))%R.
Proof.
  induction k as [|k IH]; intros ds Hk Hq Hn.
  - destruct ds; [cbn; lra|cbn in Hk; lia].
  - destruct ds as [|d ds]; [cbn; lra|]. destruct (key d) as [q|] eqn:Ed.
    + set (P := fun d => match key d with Some q' => if path_dec q' q then true else false | None => false end).
      rewrite (Rsum_filter f P). apply Rplus_le_le_0_compat; [apply Hq|]. apply IH.
      * cbn [filter]. unfold P at 1. rewrite Ed. destruct (path_dec q q); [|congruence]. cbn [negb].
        etransitivity; [apply filter_shorter|]. cbn in Hk. lia.
      * intros q' D. unfold D. clear D. destruct (path_dec q' q) as [->|N].
        -- replace (filter _ _) with (@nil nat); [cbn; lra|]. symmetry.
           generalize (d :: ds). intros l. induction l as [|x l IHl]; [reflexivity|]. cbn [filter]. destruct (P x) eqn:Px; cbn [negb]; [exact IHl|].
           cbn [filter]. fold (P x). rewrite Px. exact IHl.
        -- replace (filter _ (filter _ (d :: ds))) with (filter (fun d => match key d with Some q0 => if path_dec q0 q' then true else false | None => false end) (d :: ds)).
           ++ apply Hq.
           ++ generalize (d :: ds). intros l. induction l as [|x l IHl]; [reflexivity|]. cbn [filter]. destruct (P x) eqn:Px; cbn [negb].
              ** unfold P in Px. destruct (key x) as [q0|]; [|discriminate]. destruct (path_dec q0 q) as [->|]; [|discriminate].
                 destruct (path_dec q q'); [congruence|exact IHl].
              ** cbn [filter]. destruct (match key x with Some q0 => if path_dec q0 q' then true else false | None => false end); [f_equal|]; exact IHl.
      * intros x Hx. apply filter_In in Hx as [Hx _]. auto.
    + cbn [map Rsum]. apply Rplus_le_le_0_compat; [apply Hn; [left; reflexivity|exact Ed]|]. apply IH; [cbn in Hk; lia| |intros; apply Hn; [right|]; auto].
      intros q D. specialize (Hq q). cbn [filter] in Hq. rewrite Ed in Hq. exact Hq.
Qed.

Lemma nil_or {B} (l : list B) : l = [] \/ l <> [].
Proof. destruct l; [left; reflexivity|right; discriminate]. Qed.
Lemma abs_in x : (Rabs x <= 1)%R -> (- 1 <= x <= 1)%R.
Proof. unfold Rabs. destruct (Rcase_abs x); lra. Qed.
Section Leaf.
  Variable y : nat -> R.
  Variable ss : list R.
  Variable l : R.
  Hypothesis Hl : (0 <= l)%R.
  Local Notation p c := (logistic (nth c ss 0%R)).
  Local Notation r c := (y c - p c)%R.
  Variable cs : list nat.
  Hypothesis Hy : forall c, In c cs -> (y c = 0 \/ y c = 1)%R.
  Hypothesis Ho : forall c, In c cs -> (l <= own_chance (y c) (nth c ss 0))%R.

  Let G := Rsum (map (fun c => r c) cs).
  Let H := Rsum (map (fun c => p c * (1 - p c))%R cs).
  Let D := Rsum (map (fun c => Rabs (r c)) cs).
  Lemma leaf_G : (Rabs G <= D)%R.
  Proof.
    unfold G, D. clear. induction cs as [|c ds IH]; cbn [map Rsum]; [rewrite Rabs_R0; lra|]. eapply Rle_trans; [apply Rabs_triang|]. lra.
  Qed.
  Lemma leaf_D : (l * D <= H)%R.
  Proof.
    unfold D, H. clear G D H. induction cs as [|c ds IH]; cbn [map Rsum]; [lra|].
    specialize (IH (fun c Hc => Hy c (or_intror Hc)) (fun c Hc => Ho c (or_intror Hc))).
    specialize (Hy c (or_introl eq_refl)). specialize (Ho c (or_introl eq_refl)). unfold own_chance in Ho. destruct (logistic_range (nth c ss 0%R)) as [P0 P1].
    assert (l * Rabs (r c) <= p c * (1 - p c))%R; [|lra]. destruct Hy as [E|E]; rewrite E in *.
    - rewrite Rabs_left by lra. replace (l * - (0 - p c))%R with (p c * l)%R by ring. apply Rmult_le_compat_l; lra.
    - rewrite Rabs_right by lra. rewrite (Rmult_comm (p c)). rewrite (Rmult_comm l). apply Rmult_le_compat_l; lra.
  Qed.
  Lemma leaf_H : cs <> [] -> (0 < H)%R.
  Proof.
    destruct cs as [|c ds] eqn:E; [congruence|]. intros _. unfold H. apply Rsum_pos with (y := c).
    - intros x _. destruct (logistic_range (nth x ss 0%R)). apply Rlt_le, Rmult_lt_0_compat; lra.
    - left. reflexivity.
    - destruct (logistic_range (nth c ss 0%R)). apply Rmult_lt_0_compat; lra.
  Qed.
  (** The step is at most 1 in size, and at first order the gain is no less than the loss at second order. *)
  Lemma leaf_step : (- 1 <= l * newton y ss cs <= 1)%R.
  Proof.
    destruct (nil_or cs) as [E|E]; [unfold newton; rewrite E; cbn; unfold Rdiv; rewrite Rmult_0_l, Rmult_0_r; lra|].
    pose proof (leaf_H E) as PH. pose proof leaf_G as HG. pose proof leaf_D as HD.
    unfold newton. fold G H. apply abs_in. unfold Rdiv. rewrite !Rabs_mult, (Rabs_right l), (Rabs_right (/ H)).
    - apply (Rmult_le_reg_r H); [exact PH|]. rewrite !Rmult_assoc, Rinv_l, Rmult_1_r, Rmult_1_l by lra.
      apply Rle_trans with (l * D)%R; [apply Rmult_le_compat_l; lra|exact HD].
    - left. apply Rinv_0_lt_compat. exact PH.
    - lra.
  Qed.
  Lemma leaf_gain : let u := (l * newton y ss cs)%R in (0 <= Rsum (map (fun c => r c * u - Rabs (r c) * (u * u))%R cs))%R.
  Proof.
    intros u. assert (E0 : Rsum (map (fun c => r c * u - Rabs (r c) * (u * u))%R cs) = (G * u - D * (u * u))%R).
    { unfold G, D. generalize u. clear. intros u. induction cs as [|c ds IH]; cbn [map Rsum]; [ring|]. rewrite IH. ring. }
    rewrite E0. destruct (nil_or cs) as [E|E]; [unfold G, D; rewrite E; cbn; lra|].
    pose proof (leaf_H E) as PH. pose proof leaf_D as HD.
    assert (Eu : u = (l * (G / H))%R) by reflexivity.
    replace (G * u - D * (u * u))%R with (l * ((G / H) * (G / H)) * (H - l * D))%R by (rewrite Eu; field; lra).
    apply Rmult_le_pos; [|lra]. apply Rmult_le_pos; [exact Hl|]. apply Rle_0_sqr.
  Qed.
End Leaf.

Lemma up_length l fm t y ss : length (step_up l fm t y ss) = length ss.
Proof. unfold step_up. rewrite map_length, seq_length. reflexivity. Qed.
Lemma up_nth l fm t y ss d : d < length ss -> nth d (step_up l fm t y ss) 0%R = (nth d ss 0 + l * newton y ss (leaf_mates fm t (length ss) d))%R.
Proof. intros H. unfold step_up. apply nth_error_nth, (nth_map_seq (fun d => nth d ss 0 + l * newton y ss (leaf_mates fm t (length ss) d))%R), H. Qed.

(** Steps with a learning rate up to the smallest chance that a training case gives its own
    class never lower the likelihood. *)
Theorem C138_small_steps : forall l fm t y ss, (0 <= l)%R ->
  (forall d, d < length ss -> (y d = 0 \/ y d = 1)%R /\ (l <= own_chance (y d) (nth d ss 0))%R) ->
  (likelihood y ss <= likelihood y (step_up l fm t y ss))%R /\
  ((0 < l)%R -> (exists d, d < length ss /\ newton y ss (leaf_mates fm t (length ss) d) <> 0%R) ->
   (likelihood y ss < likelihood y (step_up l fm t y ss))%R).
Proof.
  intros l fm t y ss Hl Hd. set (n := length ss) in *. set (u := fun d => (l * newton y ss (leaf_mates fm t n d))%R).
  set (e := fun d => ((y d - logistic (nth d ss 0)) * u d - Rabs (y d - logistic (nth d ss 0)) * (u d * u d))%R).
  assert (Hm : forall d c, In c (leaf_mates fm t n d) -> c < n) by (intros d c; apply mates_incl).
  assert (Hu : forall d, (- 1 <= u d <= 1)%R).
  { intros d. apply leaf_step; [exact Hl|intros c Hc; apply Hd, (Hm d c Hc)|intros c Hc; apply Hd, (Hm d c Hc)]. }
  assert (He : (0 <= Rsum (map e (seq 0 n)))%R).
  { apply (grouped_le (follow fm t) e n (seq 0 n)); [rewrite seq_length; lia| |].
    - intros q E. set (E0 := filter (ends_at fm t q) (seq 0 n)). change E with E0.
      assert (Hin : forall d, In d E0 -> d < n) by (intros d H; apply filter_In in H as [H _]; apply in_seq in H; lia).
      rewrite (Rsum_ext e (fun c => (y c - logistic (nth c ss 0)) * (l * newton y ss E0) - Rabs (y c - logistic (nth c ss 0)) * ((l * newton y ss E0) * (l * newton y ss E0)))%R).
      + apply leaf_gain; [exact Hl|intros c Hc; apply Hd, Hin, Hc|intros c Hc; apply Hd, Hin, Hc].
      + intros d Hc. unfold e, u. rewrite (mates_same _ _ _ _ q Hc). reflexivity.
    - intros d _ Hf. unfold e, u, leaf_mates. rewrite Hf. unfold newton. cbn. unfold Rdiv. rewrite Rmult_0_l, !Rmult_0_r. lra. }
  assert (Hdiff : (likelihood y (step_up l fm t y ss) - likelihood y ss =
     Rsum (map e (seq 0 n)) + Rsum (map (fun d => ln (own_chance (y d) (nth d ss 0 + u d)) - ln (own_chance (y d) (nth d ss 0)) - e d)%R (seq 0 n)))%R).
  { unfold likelihood. rewrite up_length. fold n. rewrite (Rsum_ext (fun d => ln (own_chance (y d) (nth d (step_up l fm t y ss) 0%R))) (fun d => ln (own_chance (y d) (nth d ss 0 + u d)%R))).
    - clear. induction (seq 0 n) as [|d ds IH]; cbn [map Rsum]; lra.
    - intros d H. apply in_seq in H. rewrite up_nth by (fold n; lia). reflexivity. }
  assert (Hnn : forall d, In d (seq 0 n) -> (0 <= ln (own_chance (y d) (nth d ss 0 + u d)) - ln (own_chance (y d) (nth d ss 0)) - e d)%R).
  { intros d H. apply in_seq in H. destruct (own_move (y d) (nth d ss 0%R) (u d)) as [U _]; [apply Hd; lia|apply Hu|]. cbv zeta in U. unfold e. lra. }
  split.
  - pose proof (Rsum_nonneg _ _ Hnn). lra.
  - intros Hl0 (d & Hdn & Hne).
    assert (P : (0 < Rsum (map (fun d => ln (own_chance (y d) (nth d ss 0 + u d)) - ln (own_chance (y d) (nth d ss 0)) - e d)%R (seq 0 n)))%R).
    { apply Rsum_pos with (y := d); [exact Hnn|apply in_seq; lia|]. destruct (own_move (y d) (nth d ss 0%R) (u d)) as [_ U]; [apply Hd; lia|apply Hu|].
      cbv zeta in U. unfold e. assert (u d <> 0)%R by (unfold u; apply Rmult_integral_contrapositive_currified; lra). specialize (U H). lra. }
    lra.
Qed.
Print Assumptions C138_small_steps.

(** ** Growing on the residuals of two classes *)

(** The numbers [num] can be calculated with, logarithms and chances included, and survive
    being written as the prediction of a leaf and read back. *)
Definition readable_chances (PF : string -> option XR) (fmtF : XR -> string) (num : R -> Prop) : Prop :=
  num 0%R /\ num 1%R /\
  (forall a b, num a -> num b -> num (a + b)%R /\ num (a - b)%R /\ num (a * b)%R /\ num (a / b)%R) /\
  (forall a, num a -> num (logistic a) /\ num (ln a)) /\ forall x, num x -> PF (fmtF (Some x)) = Some (Some x).

Lemma num_sum (num : R -> Prop) {B} (h : B -> R) l : num 0%R -> (forall a b, num a -> num b -> num (a + b)%R) ->
  (forall x, In x l -> num (h x)) -> num (Rsum (map h l)).
Proof. intros N0 Np. induction l as [|x l IH]; intros H; [exact N0|]. cbn [map Rsum]. apply Np; [apply H; left; reflexivity|]. apply IH. intros z Hz. apply H. right. exact Hz. Qed.

(** An even sample gives every leaf the Newton step of all its training cases. *)
Lemma even_sums n cs P (h : nat -> R) ds : evenly n cs -> Permutation (filter P cs) ds ->
  exists k, 0 < k /\ forall h : nat -> R, Rsum (map h ds) = (INR k * Rsum (map h (filter P (seq 0 n))))%R.
Proof.
  intros He Hp. destruct (even_copies n cs He) as (k & Hk & Hc). exists k. split; [exact Hk|]. clear h. intros h.
  assert (Hd : Permutation ds (concat (repeat (filter P (seq 0 n)) k))).
  { rewrite <- Hp. rewrite (Permutation_filter P Hc). clear. induction k as [|k IH]; [constructor|]. cbn [repeat concat]. rewrite filter_app. apply Permutation_app_head, IH. }
  rewrite (Rsum_perm _ _ (Permutation_map _ Hd)). clear. induction k as [|k IH]; [cbn; ring|]. cbn [repeat concat].
  rewrite map_app, Rsum_app, IH, S_INR. ring.
Qed.
Lemma even_newton n cs P y ss ds : evenly n cs -> Permutation (filter P cs) ds -> newton y ss ds = newton y ss (filter P (seq 0 n)).
Proof.
  intros He Hp. destruct (even_sums n cs P (fun _ => 0%R) ds He Hp) as (k & Hk & H). unfold newton. rewrite !H.
  assert (Hk' : INR k <> 0%R) by (apply not_0_INR; lia). set (D := filter P (seq 0 n)).
  destruct (nil_or D) as [-> | N]; [cbn; unfold Rdiv; rewrite Rmult_0_r, !Rmult_0_l; reflexivity|].
  assert (Rsum (map (fun c => logistic (nth c ss 0) * (1 - logistic (nth c ss 0)))%R D) <> 0)%R; [|field; split; assumption].
  apply Rgt_not_eq. destruct D as [|c D]; [congruence|].
  apply Rsum_pos with (y := c); [|left; reflexivity|].
  - intros x _. destruct (logistic_range (nth x ss 0%R)). apply Rlt_le, Rmult_lt_0_compat; lra.
  - destruct (logistic_range (nth c ss 0%R)). apply Rmult_lt_0_compat; lra.
Qed.

Section Training.
  Variable PF : string -> option XR.
  Variable fmtF : XR -> string.
  Variable fm : fmatrix.
  Variable p : params.
  Variable n : nat.
  Local Notation gst := (gstate XR (sums XR) (numcol XR)).
  Local Notation Kok := (fun k : numcol XR => length (ncData XR k) = n /\ length (ncMissing XR k) = n).
  Local Notation expit := (Expit XR xtanh).
  Local Notation growable_on gc := (growable XR (sums XR) (boost_target XR (ncData XR (gcRes XR gc))) (gcFindPredicted XR fmtF gc) (numcol XR)
    (gcCopyInTo XR gc) (ncShuffleCases XR) (fun k => num_target XR (ncData XR k)) p (fun c => c < n) (fun _ => True) Kok).

  Lemma predicted_total gc cs : full XR n (gcRes XR gc) -> full XR n (gcActual XR gc) -> Forall (fun c => c < n) cs ->
    exists v, gcPredicted XR cs gc = Ok v.
  Proof.
    intros (R1 & _) (A1 & _) H. unfold gcPredicted.
    match goal with |- context [foreach cs ?bd ?i] => assert (G : forall s, exists r, foreach cs bd s = Ok r) end.
    { induction cs as [|c cs IH]; intros [a b]; [cbn; eauto|]. inversion H; subst. cbn [foreach].
      destruct (@get_ok XR (ncData XR (gcRes XR gc)) c) as (r & -> & _); [lia|]. cbn [bind].
      destruct (@get_ok XR (ncData XR (gcActual XR gc)) c) as (x & -> & _); [lia|]. cbn [bind]. apply IH; auto. }
    destruct (G (nofZ XR 0, nofZ XR 0)) as ([a b] & E). rewrite E. cbn [bind]. eauto.
  Qed.
  Lemma class_growable gc cs g : full XR n (gcRes XR gc) -> full XR n (gcActual XR gc) -> Forall (fun c => c < n) cs -> trainable p n cs g -> growable_on gc cs g.
  Proof.
    intros FR FA Hc [H1 H2 H3 H4 H5 H6 H7 H8]. pose proof FR as (F1 & F2 & _). constructor; auto.
    - rewrite <- F1. apply boost_dependable.
    - apply PropFeatureSearch.sane_XR.
    - intros cs' H. unfold gcFindPredicted. destruct (predicted_total _ _ FR FA H) as (m & ->). cbn [bind]. eauto.
    - intros V. split; [|auto]. constructor.
      + intros k [K1 K2]. unfold gcCopyInTo. cbn [ncData ncMissing]. rewrite !PropRows.copyinto_full by congruence. auto.
      + intros dr cs' k H [K1 K2]. unfold ncShuffleCases. destruct (shuffle_total n dr cs' (ncMissing XR k) (ncData XR k) K1 K2 H) as (m' & d' & -> & L1 & L2).
        cbn [bind]. eexists. split; [reflexivity|]. cbn. auto.
      + intros k [K1 _]. rewrite <- K1. apply num_dependable.
  Qed.
  Lemma growable_class gc cs g : growable_on gc cs g -> trainable p n cs g.
  Proof. intros [H1 H2 H3 H4 H5 H6 H7 H8 H9 H10 H11 H12 H13]. constructor; auto. intros V. apply (H12 V). Qed.

  Variable num : R -> Prop.
  Hypothesis Hnum : readable_chances PF fmtF num.
  Variable f : catF.
  Variable pos : string.
  Local Notation y := (label f pos).
  Lemma label_01 d : (y d = 0 \/ y d = 1)%R.
  Proof. unfold label. destruct (cGetStr f d) as [s| |]; auto. destruct (s =? pos)%string; auto. Qed.
  Lemma num_label d : num (y d).
  Proof. destruct Hnum as (N0 & N1 & _). destruct (label_01 d) as [-> | ->]; assumption. Qed.
  Lemma num_at ss c : Forall num ss -> num (nth c ss 0%R).
  Proof.
    intros H. destruct Hnum as (N0 & _). destruct (Nat.lt_ge_cases c (length ss)) as [Hc|Hc].
    - rewrite Forall_forall in H. apply H, nth_In, Hc.
    - rewrite nth_overflow by exact Hc. exact N0.
  Qed.
  Lemma num_newton ss cs : Forall num ss -> num (newton y ss cs).
  Proof.
    intros H. pose proof Hnum as (N0 & N1 & Na & Nl & _). unfold newton. apply Na; apply num_sum; auto; try (intros a b Ha Hb; apply Na; assumption).
    - intros c _. apply Na; [apply num_label|]. apply Nl, num_at, H.
    - intros c _. assert (num (logistic (nth c ss 0%R))) by (apply Nl, num_at, H). apply Na; [assumption|]. apply Na; assumption.
  Qed.
  Lemma num_up l t ss : num l -> Forall num ss -> Forall num (step_up l fm t y ss).
  Proof.
    intros Hl H. unfold step_up. apply Forall_forall. intros x Hx. apply in_map_iff in Hx as (d & <- & _).
    pose proof Hnum as (_ & _ & Na & _). apply Na; [apply num_at, H|]. apply Na; [exact Hl|]. apply num_newton, H.
  Qed.

  (** The target holds the labels, the scores [ss] and their residuals. *)
  Definition scored (l prior : R) (gc : gbclass XR) (ss : list R) : Prop :=
    good_class XR expit f pos (Some l) (Some prior) n gc /\ ncData XR (gcPred XR gc) = numeric ss.
  Lemma scored_newton l prior gc ss cs : scored l prior gc ss -> Forall (fun c => c < n) cs -> cs <> [] ->
    gcPredicted XR cs gc = Ok (Some (newton y ss cs)).
  Proof.
    intros ((_ & _ & (R1 & _) & (A1 & _) & (P1 & _) & G) & Es) Hc Hne.
    assert (Hh : holds gc cs (map (fun c => (y c, nth c ss 0%R)) cs)).
    { clear Hne. induction cs as [|c cs IH]; [constructor|]. inversion Hc; subst. cbn [map]. constructor; [|apply IH; assumption].
      cbn [fst snd]. destruct (G c) as [G1 G2]; [assumption|].
      assert (Ep : PropBoost.positive XR f pos c = Some (y c)).
      { unfold PropBoost.positive, label. destruct (cGetStr f c) as [s| |]; auto. destruct (s =? pos)%string; auto. }
      assert (Ls : length ss = length (ncData XR (gcPred XR gc))) by (rewrite Es; unfold numeric; rewrite map_length; reflexivity).
      rewrite (nth_error_nth_lt _ _ (nofZ XR 0)) by lia. rewrite G1, Ep. split; [reflexivity|].
      rewrite (nth_error_nth_lt _ _ (nofZ XR 0)) by lia. rewrite G2, Ep, Es. unfold numeric. change (nofZ XR 0) with (Some 0%R : XR).
      rewrite (map_nth (fun x : R => Some x : XR)). rewrite expit_exact. reflexivity. }
    unfold gcPredicted. cbn [nofZ XR]. pose proof (predicted_exact gc cs _ 0 0 Hh) as E.
    match goal with |- context [bind ?X _] => assert (EX : X = _) by exact E; rewrite EX; clear EX E end.
    cbn [bind ndiv XR]. rewrite !Rplus_0_l, !map_map. cbn [fst snd]. rewrite xdiv_some; [reflexivity|].
    apply Rgt_not_eq. destruct cs as [|c cs]; [congruence|]. apply Rsum_pos with (y := c); [|left; reflexivity|].
    - intros x _. destruct (logistic_range (nth x ss 0%R)). apply Rlt_le, Rmult_lt_0_compat; lra.
    - destruct (logistic_range (nth c ss 0%R)). apply Rmult_lt_0_compat; lra.
  Qed.

  Hypothesis Hfm : fmData fm = pData p.
  Hypothesis Hlen : exists f, nth_error (pData p) 0 = Some f /\ fLength f = n.

  (** One round on an even sample. *)
  Lemma one_class rnd cs gc g (l prior : R) ss : evenly n cs -> trainable p n cs g -> scored l prior gc ss -> length ss = n -> Forall num ss ->
    exists t gc' g', class_round XR PF fmtF expit fm p rnd cs gc g = Ok (t, Some l, gc', g') /\
      scored l prior gc' (step_up l fm t y ss) /\
      (forall cs', trainable p n cs' g -> Forall (fun c => c < n) cs' -> trainable p n cs' g').
  Proof.
    intros He Ht Hs Hss Hn0. pose proof Hs as (HG & Es). pose proof HG as (GL & GP & FR & FA & FP & GD). pose proof (even_in n cs He) as Hin.
    assert (Hc : Forall (fun c => c < n) cs) by (apply Forall_forall; intros c H; apply Hin, H).
    pose proof (class_growable gc cs g FR FA Hc Ht) as Hg.
    destruct (growth _ _ _ _ rnd _ _ _ _ _ _ _ _ _ _ Hg) as (t & g' & us & En & G & _ & _ & Hk).
    pose proof (En (S (length cs)) (Nat.lt_succ_diag_r _)) as E0.
    destruct (C42_leaves_predict_their_cases _ _ _ _ rnd _ _ _ _ _ _ _ _ _ _ fm Hg Hfm _ t g' (Nat.lt_succ_diag_r _) E0) as (N1 & N2 & N3 & N4 & _).
    assert (Hu : usable fm (seq 0 n) t).
    { eapply grown_usable; [exact Hfm| |exact G]. intros i f1 Hi Ei. destruct (gr_data _ _ _ _ _ _ _ _ _ _ _ _ _ _ Hg i Hi) as (f' & E1 & (S1 & S2 & _) & _).
      assert (f' = f1) by congruence. subst f'. split; [exact S1|]. rewrite Forall_forall in S2 |- *. intros c H. apply S2, Hin. apply in_seq in H. lia. }
    assert (Hr : round_ok n (fm, t)). { destruct Hlen as (f0 & E & L). exists f0. rewrite Hfm. auto. }
    destruct (one_round XR PF (gbclass XR) XR
          (fun c x g => let* y := get (ncData XR (gcPred XR g)) c in
            let pred := nadd XR y (nmul XR (gcLearn XR g) x) in
            let* pf := ncPut XR c pred (gcPred XR g) in
            let* a := get (ncData XR (gcActual XR g)) c in
            let* rf := ncPut XR c (nsub XR a (expit pred)) (gcRes XR g) in
            Ok (mkGBC XR rf (gcActual XR g) pf (gcLearn XR g) (gcPrior XR g))) (gcUpdate XR expit) (fun _ _ _ => eq_refl) n
          (good_class XR expit f pos (Some l) (Some prior) n)
          (fun g d => nth d (ncData XR (gcPred XR g)) (nofZ XR 0)) (fun x v => nadd XR v (nmul XR (Some l : XR) x))
          (fun g c x => gc_step XR expit f pos (Some l) (Some prior) n g c x) fm t gc Hr HG) as (arr & leaves & preds & gc' & Ep & Eo & G1 & V1).
    exists t, gc', g'. split; [|split].
    - unfold class_round. rewrite E0. cbn [bind]. rewrite Ep. cbn [bind]. unfold gcBoost. rewrite Eo. cbn [bind]. destruct G1 as (-> & _). reflexivity.
    - split; [exact G1|]. destruct G1 as (_ & _ & _ & _ & (L1 & _ & _) & _). apply nth_ext with (d := nofZ XR 0) (d' := nofZ XR 0).
      { unfold numeric. rewrite map_length, up_length. congruence. }
      intros d Hd'. rewrite L1 in Hd'. rewrite V1 by exact Hd'. rewrite Es. change (nofZ XR 0) with (Some 0%R : XR).
      assert (Hn : forall ys, d < length ys -> nth d (numeric ys) (Some 0%R) = Some (nth d ys 0%R)).
      { intros ys H. unfold numeric. rewrite (nth_indep _ _ (Some 0%R)) by (rewrite map_length; exact H). apply map_nth. }
      rewrite !Hn by (rewrite ?up_length; lia). rewrite up_nth by lia. unfold leaf_words. cbn [flat_map]. rewrite app_nil_r.
      destruct (follow fm t d) as [q|] eqn:Eq; cbn [fold_left].
      + destruct (follow_terminal fm t d q N2 Eq) as (dd & tl & tr & tm & Ea & Te). rewrite Ea. cbn [node_pred].
        assert (Hdq : In d (filter (ends_at fm t q) cs)).
        { apply filter_In. split; [apply Hin; exact Hd'|]. unfold ends_at. rewrite Eq. destruct (path_dec q q); congruence. }
        destruct (N4 q dd tl tr tm Ea Te) as [(ds & Pd & Ed)|(_ & _ & Enil)]; [|rewrite Enil in Hdq; destruct Hdq].
        assert (Hds : Forall (fun c => c < n) ds).
        { eapply Permutation_Forall; [exact Pd|]. apply Forall_forall. intros c H. apply filter_In in H as [H _]. apply Hin, H. }
        assert (Hnd : ds <> []). { intros ->. apply Permutation_sym, Permutation_nil in Pd. rewrite Pd in Hdq. destruct Hdq. }
        unfold gcFindPredicted in Ed. rewrite (scored_newton l prior gc ss ds Hs Hds Hnd) in Ed.
        cbn [bind] in Ed. injection Ed as <-. unfold parse0. pose proof Hnum as (_ & _ & _ & _ & R3). rewrite R3 by (apply num_newton; exact Hn0).
        cbn [nmul nadd XR lift2]. do 3 f_equal. rewrite (even_newton n cs _ y ss ds He Pd). unfold leaf_mates. rewrite Eq, Hss. reflexivity.
      + unfold leaf_mates. rewrite Eq. unfold newton. cbn. f_equal. unfold Rdiv. ring.
    - intros cs' T' C'. apply (growable_class gc). apply Hk. apply class_growable; auto.
  Qed.

  (** The scores after the first [k] trees. *)
  Definition scores (l : R) (ss : list R) (ts : list (node * XR)) (k : nat) : list R :=
    fold_left (fun ss t => step_up l fm t y ss) (map fst (firstn k ts)) ss.

  Lemma forest_scores (l prior : R) sample rnd : forall nTrees lo gc g ss ts0,
    (forall i, lo <= i < lo + nTrees -> exists cs, sample i = Ok cs /\ evenly n cs /\ trainable p n cs g) ->
    scored l prior gc ss -> length ss = n -> num l -> Forall num ss ->
    exists ts gc' g', for_up nTrees lo (fun i '((ts, gc, g) : list (node * XR) * gbclass XR * gst) =>
        let* cases := sample i in
        let* (t, w, gc, g) := class_round XR PF fmtF expit fm p (rnd i) cases gc g in
        Ok (ts ++ [(t, w)], gc, g)) (ts0, gc, g) = Ok (ts0 ++ ts, gc', g') /\
      length ts = nTrees /\ map snd ts = repeat (Some l : XR) nTrees /\
      scored l prior gc' (scores l ss ts nTrees).
  Proof.
    induction nTrees as [|k IH]; intros lo gc g ss ts0 Hs HG Hss Nl Nr.
    - exists [], gc, g. cbn. rewrite app_nil_r. auto.
    - destruct (Hs lo) as (cs & Es & He & Ht); [lia|]. cbn [for_up]. rewrite Es. cbn [bind].
      destruct (one_class (rnd lo) cs gc g l prior ss He Ht HG Hss Nr) as (t & gc1 & g1 & E1 & D1 & T1). rewrite E1. cbn [bind].
      destruct (IH (S lo) gc1 g1 (step_up l fm t y ss) (ts0 ++ [(t, Some l)])) as (ts & gc2 & g2 & E2 & N2 & W2 & D2); auto.
      { intros i Hi. destruct (Hs i) as (cs' & Es' & He' & Ht'); [lia|]. exists cs'. split; [exact Es'|]. split; [exact He'|]. apply T1; [exact Ht'|].
        apply Forall_forall. intros c Hc. apply (even_in n cs' He'), Hc. }
      { rewrite up_length. exact Hss. }
      { apply num_up; assumption. }
      exists ((t, Some l) :: ts), gc2, g2. split; [etransitivity; [exact E2|rewrite <- app_assoc; reflexivity]|]. cbn [length map snd repeat].
      split; [congruence|]. split; [f_equal; exact W2|]. exact D2.
  Qed.
End Training.

Lemma xr_positive f pos c : PropBoost.positive XR f pos c = Some (label f pos c).
Proof. unfold PropBoost.positive, label. destruct (cGetStr f c) as [s| |]; auto. destruct (s =? pos)%string; auto. Qed.
Lemma labels_between f pos n : (exists i j, i < n /\ j < n /\ cGetStr f i = Ok pos /\ cGetStr f j <> Ok pos) ->
  let P := Rsum (map (label f pos) (seq 0 n)) in (0 < P < INR n)%R.
Proof.
  intros (i & j & Hi & Hj & Ei & Ej) P.
  assert (Hi1 : label f pos i = 1%R) by (unfold label; rewrite Ei, String.eqb_refl; reflexivity).
  assert (Hj0 : label f pos j = 0%R). { unfold label. destruct (cGetStr f j) as [s| |]; auto. destruct (String.eqb_spec s pos); auto. congruence. }
  split.
  - apply Rsum_pos with (y := i); [|apply in_seq; lia|lra]. intros x _. destruct (label_01 f pos x) as [-> | ->]; lra.
  - assert (E : (INR n - P = Rsum (map (fun d => 1 - label f pos d) (seq 0 n)))%R).
    { unfold P. rewrite <- (seq_length n 0) at 1. generalize (seq 0 n). clear. induction l as [|d l IH]; [cbn; lra|].
      cbn [length map Rsum]. rewrite S_INR, <- IH. ring. }
    assert (0 < Rsum (map (fun d => 1 - label f pos d) (seq 0 n)))%R; [|lra].
    apply Rsum_pos with (y := j); [|apply in_seq; lia|lra]. intros x _. destruct (label_01 f pos x) as [-> | ->]; lra.
Qed.
(** A new target: every score is the logit of the share of the positive class. *)
Lemma new_scored f pos (l : R) : readable f ->
  let n := length (cMissing f) in
  (exists i j, i < n /\ j < n /\ cGetStr f i = Ok pos /\ cGetStr f j <> Ok pos) ->
  let P := Rsum (map (label f pos) (seq 0 n)) in
  let prior := ln (P / (INR n - P))%R in
  exists gc f', NewGradBoostClassTarget XR (Expit XR xtanh) xln f (Some l) pos = Ok (gc, f') /\
    gcIntercept XR gc = Some prior /\ scored n f pos l prior gc (repeat prior n).
Proof.
  intros Hf n Hij P prior. pose proof (labels_between f pos n Hij) as HP. cbv zeta in HP. fold P in HP.
  destruct (new_class XR (Expit XR xtanh) xln f (Some l) pos Hf) as (gc & f' & E & L & Pr & F1 & F2 & F3 & V & _).
  fold n in Pr, F1, F2, F3, V. cbv zeta in Pr, V.
  assert (G : forall ds s, fold_left (nadd XR) (map (PropBoost.positive XR f pos) ds) (Some s) = Some (s + Rsum (map (label f pos) ds))%R).
  { induction ds as [|c ds IH]; intros s; cbn [map fold_left Rsum]; [f_equal; lra|]. rewrite xr_positive. cbn [nadd XR lift2]. rewrite IH. f_equal. lra. }
  assert (Epr : xln (ndiv XR (fold_left (nadd XR) (map (PropBoost.positive XR f pos) (seq 0 n)) (nofZ XR 0))
     (nsub XR (nofZ XR (Z.of_nat n)) (fold_left (nadd XR) (map (PropBoost.positive XR f pos) (seq 0 n)) (nofZ XR 0)))) = Some prior).
  { cbn [nofZ XR]. rewrite G, Rplus_0_l. fold P. cbn [nsub ndiv XR lift2]. rewrite <- INR_IZR_INZ. rewrite xdiv_some by lra. reflexivity. }
  rewrite Epr in Pr. exists gc, f'. split; [exact E|]. split; [exact Pr|]. split.
  - split; [exact L|]. split; [exact Pr|]. split; [exact F1|]. split; [exact F2|]. split; [exact F3|]. intros d Hd. destruct (V d Hd) as (V1 & V2 & V3).
    split; [exact V1|]. rewrite V3, V2. reflexivity.
  - destruct F3 as (L3 & _). apply nth_ext with (d := nofZ XR 0) (d' := Some prior : XR).
    + unfold numeric. rewrite map_length, repeat_length. exact L3.
    + intros d Hd. rewrite L3 in Hd. destruct (V d Hd) as (_ & V2 & _). rewrite V2, Epr. unfold numeric.
      rewrite (map_nth (fun x : R => Some x : XR)). rewrite nth_repeat. reflexivity.
Qed.

(** Boosting two classes from the start: after any number of trees grown on even samples the
    scores are those of the Newton steps of the leaves, starting from the logit of the share
    of the positive class.  A tree never lowers the likelihood of the training labels if the
    learning rate is no more than the chance that every case gives its own class before the
    tree; it raises it if some leaf has a value other than 0.  For the first tree these
    chances are the shares of the two classes. *)
Theorem C138_likelihood_never_falls_partial : forall PF fmtF num fm p f pos (l : R) sample rnd nTrees g,
  readable_chances PF fmtF num -> num l -> readable f ->
  let n := length (cMissing f) in
  (exists i j, i < n /\ j < n /\ cGetStr f i = Ok pos /\ cGetStr f j <> Ok pos) ->
  fmData fm = pData p -> (exists f, nth_error (pData p) 0 = Some f /\ fLength f = n) ->
  (forall i, i < nTrees -> exists cs, sample i = Ok cs /\ evenly n cs /\ trainable p n cs g) ->
  let y := label f pos in
  let P := Rsum (map y (seq 0 n)) in
  exists gc f' ts gc' g', NewGradBoostClassTarget XR (Expit XR xtanh) xln f (Some l) pos = Ok (gc, f') /\
    gcIntercept XR gc = Some (ln (P / (INR n - P))) /\
    class_trees XR PF fmtF (Expit XR xtanh) fm p sample rnd nTrees gc g = Ok (ts, gc', g') /\
    length ts = nTrees /\ map snd ts = repeat (Some l : XR) nTrees /\
    let ss := scores fm f pos l (repeat (ln (P / (INR n - P))) n) ts in
    ncData XR (gcPred XR gc') = numeric (ss nTrees) /\
    (forall k, k < nTrees -> (0 <= l)%R -> (forall d, d < n -> (l <= own_chance (y d) (nth d (ss k) 0))%R) ->
      (likelihood y (ss k) <= likelihood y (ss (S k)))%R /\
      forall t w, nth_error ts k = Some (t, w) -> (exists d, d < n /\ newton y (ss k) (leaf_mates fm t n d) <> 0%R) -> (0 < l)%R ->
        (likelihood y (ss k) < likelihood y (ss (S k)))%R) /\
    forall d, d < n -> own_chance (y d) (nth d (ss 0) 0%R) = (if Req_EM_T (y d) 1 then P / INR n else 1 - P / INR n)%R.
Proof.
  intros PF fmtF num fm p f pos l sample rnd nTrees g HPF Nl Hf n Hij Hfm Hlen Hs y P.
  pose proof (labels_between f pos n Hij) as HP. cbv zeta in HP. fold y P in HP.
  destruct (new_scored f pos l Hf Hij) as (gc & f' & E & Ei & Sc). fold n y P in Ei, Sc. set (prior := ln (P / (INR n - P))%R) in *.
  assert (Np : Forall num (repeat prior n)).
  { apply Forall_forall. intros x Hx. apply repeat_spec in Hx. subst x. pose proof HPF as (N0 & N1 & Na & Nln & _).
    assert (NP : num P) by (apply num_sum; [exact N0|intros a b Ha Hb; apply Na; assumption|intros d _; eapply num_label; exact HPF]).
    apply Nln. apply Na; [exact NP|]. apply Na; [|exact NP]. clear - N0 N1 Na. induction n as [|m IH]; [exact N0|]. rewrite S_INR. apply Na; assumption. }
  destruct (forest_scores PF fmtF fm p n num HPF f pos Hfm Hlen l prior sample rnd nTrees 0 gc g (repeat prior n) []) as (ts & gc' & g' & Et & Ln & Ws & Sc'); auto.
  { intros i Hi. apply Hs. lia. }
  { apply repeat_length. }
  exists gc, f', ts, gc', g'. split; [exact E|]. split; [exact Ei|]. split; [exact Et|]. split; [exact Ln|]. split; [exact Ws|].
  intros ss. split; [apply Sc'|].
  assert (Ls : forall k, length (ss k) = n).
  { intros k. unfold ss, scores. assert (G : forall us zs, length (fold_left (fun zs t => step_up l fm t (label f pos) zs) us zs) = length zs).
    { induction us as [|u us IH]; intros zs; [reflexivity|]. cbn [fold_left]. rewrite IH, up_length. reflexivity. }
    rewrite G. apply repeat_length. }
  split.
  - intros k Hk Hl0 Ho. destruct (nth_error ts k) as [[t w]|] eqn:En; [|apply nth_error_None in En; lia].
    assert (Es : ss (S k) = step_up l fm t y (ss k)).
    { unfold ss, scores. rewrite (firstn_S_snoc _ _ _ En), map_app, fold_left_app. reflexivity. }
    destruct (C138_small_steps l fm t y (ss k) Hl0) as [C1 C2].
    { rewrite Ls. intros d Hd. split; [apply label_01|apply Ho, Hd]. }
    rewrite <- Es in C1, C2. rewrite Ls in C2. split; [exact C1|]. intros t' w' Et' Hex Hlp. injection Et' as <- <-. apply C2; assumption.
  - intros d Hd. unfold ss, scores. cbn [firstn map fold_left]. rewrite (nth_indep _ 0%R prior) by (rewrite repeat_length; exact Hd). rewrite nth_repeat.
    assert (El : logistic prior = (P / INR n)%R).
    { unfold logistic, prior. rewrite exp_Ropp, exp_ln by (apply Rdiv_lt_0_compat; lra). field. repeat split; lra. }
    unfold own_chance. rewrite El. destruct (Req_EM_T (y d) 1) as [-> |N]; [lra|]. destruct (label_01 f pos d) as [E0|E0]; fold y in E0; [rewrite E0; lra|congruence].
Qed.
Print Assumptions C138_likelihood_never_falls_partial.

(** ** Sampling with replacement, as GrowRandomForest does, can lower the likelihood for any
    learning rate: one case of each class, a sample with the first one twice, one leaf. *)
Definition duo : catF := mkCat (mkCM [("n", 1); ("p", 0)] ["p"; "n"]) [0; 1] [false; false] "C:t" false false.
Theorem C138_bagging_refuted : forall PF fmtF (l : R) rnd, l <> 0%R ->
  PF (fmtF (Some 2%R)) = Some (Some 2%R) ->
  exists draw gc f' tree gc', NewGradBoostClassTarget XR (Expit XR xtanh) xln duo (Some l) "p" = Ok (gc, f') /\
    ncData XR (gcPred XR gc) = numeric [0; 0]%R /\
    GrowRandomForestClass XR PF fmtF (Expit XR xtanh) two_fm two_p draw rnd 2 1 gc [0]
      (mkAl [f0; f0] [0; 0]%Z (mkSums XR (Some 0%R) (Some 0%R) (Some 0%R) (Some 0%R) (Some 0%R) (Some 0%R)) 0) None
      = Ok ([(tree, Some l)], Some 0%R, gc') /\
    ncData XR (gcPred XR gc') = numeric [2 * l; 2 * l]%R /\
    (likelihood (label duo "p") [2 * l; 2 * l] < likelihood (label duo "p") [0; 0])%R.
Proof.
  intros PF fmtF l rnd Hl HPF. exists (fun _ _ => 0).
  assert (Hr : readable duo). { split; [reflexivity|]. intros [|[|i]] Hi; cbn in Hi; [eexists; reflexivity|eexists; reflexivity|lia]. }
  assert (L0 : label duo "p" 0 = 1%R) by reflexivity. assert (L1 : label duo "p" 1 = 0%R) by reflexivity.
  destruct (new_scored duo "p" l Hr) as (gc & f' & E & Ei & Sc).
  { exists 0, 1. cbn. split; [lia|]. split; [lia|]. split; [reflexivity|]. intros K. discriminate K. }
  cbn [length cMissing duo] in Ei, Sc. cbn [seq map Rsum] in Ei, Sc. rewrite L0, L1 in Ei, Sc.
  replace ((1 + (0 + 0)) / (INR 2 - (1 + (0 + 0))))%R with 1%R in Ei, Sc by (cbn; field). rewrite ln_1 in Ei, Sc. cbn [repeat] in Sc.
  assert (Hp : gcFindPredicted XR fmtF gc [0; 0] = Ok (fmtF (Some 2%R))).
  { unfold gcFindPredicted. rewrite (scored_newton 2 duo "p" l 0 gc [0; 0]%R [0; 0] Sc); [|repeat constructor|discriminate]. cbn [bind]. do 3 f_equal.
    unfold newton. cbn [map Rsum nth]. rewrite L0. assert (E0 : logistic 0 = (/ 2)%R) by (unfold logistic; rewrite Ropp_0, exp_0; f_equal; lra). rewrite E0. field. }
  pose proof Sc as (HG & Ed).
  destruct (one_round XR PF (gbclass XR) XR
          (fun c x g => let* y := get (ncData XR (gcPred XR g)) c in
            let pred := nadd XR y (nmul XR (gcLearn XR g) x) in
            let* pf := ncPut XR c pred (gcPred XR g) in
            let* a := get (ncData XR (gcActual XR g)) c in
            let* rf := ncPut XR c (nsub XR a (Expit XR xtanh pred)) (gcRes XR g) in
            Ok (mkGBC XR rf (gcActual XR g) pf (gcLearn XR g) (gcPrior XR g))) (gcUpdate XR (Expit XR xtanh)) (fun _ _ _ => eq_refl) 2
          (good_class XR (Expit XR xtanh) duo "p" (Some l) (Some 0%R) 2)
          (fun g d => nth d (ncData XR (gcPred XR g)) (nofZ XR 0)) (fun x v => nadd XR v (nmul XR (Some l : XR) x))
          (fun g c x => gc_step XR (Expit XR xtanh) duo "p" (Some l) (Some 0%R) 2 g c x) two_fm
          (Node (mkNd CNil 0 (fmtF (Some 2%R)) None) Nil Nil Nil) gc) as (arr & leaves & preds & gc' & Ep & Eo & G1 & V1); [|exact HG|].
  { eexists. split; [reflexivity|]. split; [reflexivity|]. split; [discriminate|]. split; [repeat constructor|]. repeat constructor. }
  exists gc, f', (Node (mkNd CNil 0 (fmtF (Some 2%R)) None) Nil Nil Nil), gc'. split; [exact E|]. split; [exact Ed|].
  assert (Gl : gcLearn XR gc' = Some l) by apply G1. split; [|split].
  - unfold GrowRandomForestClass, class_trees. cbn [for_up get nth_error fmData two_fm bind]. change (SampleWithReplacment (fun _ => 0) 2 _) with (@Ok (list nat) [0; 0]). cbn [bind].
    assert (Eb : forall g, class_round XR PF fmtF (Expit XR xtanh) two_fm two_p (rnd 0) [0; 0] gc g =
      Ok (Node (mkNd CNil 0 (fmtF (Some 2%R)) None) Nil Nil Nil, Some l, gc', g)).
    { intros g. unfold class_round, Grow. cbn [length grow_node newNode]. unfold grow_visit. cbn -[gcFindPredicted gcBoost TreePartition two_fm]. rewrite Hp.
      cbn -[gcFindPredicted gcBoost TreePartition two_fm]. rewrite Ep. cbn [bind]. unfold gcBoost. rewrite Eo. cbn [bind]. rewrite Gl. destruct g. reflexivity. }
    rewrite Eb. cbn [bind app]. rewrite Ei. reflexivity.
  - destruct G1 as (_ & _ & _ & _ & (P1 & _) & _). pose proof (V1 0 ltac:(lia)) as W0. pose proof (V1 1 ltac:(lia)) as W1. rewrite Ed in W0, W1.
    unfold leaf_words, parse0 in W0, W1. cbn in W0, W1. unfold parse0 in W0, W1. rewrite HPF in W0, W1. cbn in W0, W1.
    destruct (ncData XR (gcPred XR gc')) as [|a [|b [|c r]]]; cbn in P1; try lia. cbn in W0, W1. rewrite W0, W1. unfold numeric. cbn.
    replace (0 + l * 2)%R with (2 * l)%R by ring. reflexivity.
  - unfold likelihood. cbn [length seq map Rsum nth]. rewrite L0, L1. unfold own_chance.
    assert (E0 : logistic 0 = (/ 2)%R) by (unfold logistic; rewrite Ropp_0, exp_0; f_equal; lra). rewrite E0. destruct (logistic_range (2 * l)) as [R1 R2].
    set (q := logistic (2 * l)) in *. replace (1 * q + (1 - 1) * (1 - q))%R with q by ring. replace (0 * q + (1 - 0) * (1 - q))%R with (1 - q)%R by ring.
    replace (1 * / 2 + (1 - 1) * (1 - / 2))%R with (/ 2)%R by lra. replace (0 * / 2 + (1 - 0) * (1 - / 2))%R with (/ 2)%R by lra.
    rewrite !Rplus_0_r. rewrite <- !ln_mult by lra. apply ln_increasing; [apply Rmult_lt_0_compat; lra|].
    assert (Hq : q <> (/ 2)%R).
    { intros K. assert (Kl : (exp (- (2 * l)) = 1)%R). { unfold q, logistic in K. apply (f_equal Rinv) in K. rewrite !Rinv_inv in K; lra. }
      assert (K2 : (- (2 * l) = 0)%R) by (apply exp_inv; rewrite Kl, exp_0; reflexivity). lra. }
    assert (0 < (q - / 2) * (q - / 2))%R; [|lra]. apply Rsqr_pos_lt. lra.
Qed.
Print Assumptions C138_bagging_refuted.

(** ** Without the bound on the learning rate the likelihood can fall, for every learning rate:
    one positive case among many, in a leaf with one other. *)
Definition wide (m : nat) : catF := mkCat (mkCM [("n", 1); ("p", 0)] ["p"; "n"]) (0 :: repeat 1 (S m)) (repeat false (S (S m))) "C:t" false false.
Definition wide_fm (m : nat) : fmatrix := mkFM [FNum (mkNum (f1 :: f1 :: repeat f2 m) (repeat false (S (S m))) "N:a" false)] [("N:a", 0)] (repeat "" (S (S m))).
Definition wide_tree (a b : string) : node :=
  Node (mkNd (CNum f1) 0 "" (Some (mkSpl "N:a" true f1 []))) (Node (mkNd CNil 0 a None) Nil Nil Nil) (Node (mkNd CNil 0 b None) Nil Nil Nil) Nil.
Lemma nth_repeat_lt {T} (x d : T) k i : i < k -> nth i (repeat x k) d = x.
Proof. intros H. rewrite (nth_indep _ d x) by (rewrite repeat_length; exact H). apply nth_repeat. Qed.
Lemma wide_follow m a b d : d < S (S m) -> follow (wide_fm m) (wide_tree a b) d = Some (if d <? 2 then [DL] else [DR]).
Proof.
  intros H. cbn [follow wide_tree]. unfold turn, test_of. cbn [dCode dFeat column wide_fm fmData nth].
  assert (Em : fmissing (FNum (mkNum (f1 :: f1 :: repeat f2 m) (repeat false (S (S m))) "N:a" false)) d = false).
  { unfold fmissing. cbn [nMissing]. apply nth_repeat_lt, H. }
  rewrite Em. unfold coded_left, nvalue. cbn [nData].
  destruct d as [|[|d]]; [reflexivity|reflexivity|]. cbn [nth]. rewrite nth_repeat_lt by lia. reflexivity.
Qed.
Lemma wide_label m d : d < S (S m) -> label (wide m) "p" d = if d =? 0 then 1%R else 0%R.
Proof.
  intros H. unfold label, cGetStr, get. cbn [wide cMissing cData cMap]. destruct d as [|d]; [reflexivity|].
  rewrite nth_error_repeat by lia. cbn [bind nth_error]. rewrite nth_error_repeat by lia. reflexivity.
Qed.
Lemma wide_readable m : readable (wide m).
Proof.
  split; [cbn; rewrite !repeat_length; reflexivity|]. cbn [wide cMissing]. rewrite repeat_length. intros d Hd. unfold cGetStr, get. cbn [wide cData cMap cMissing].
  rewrite nth_error_repeat by exact Hd. destruct d as [|d]; [eexists; reflexivity|]. cbn [bind nth_error]. rewrite nth_error_repeat by lia. eexists. reflexivity.
Qed.
Lemma wide_mates m a b d : d < S (S m) -> leaf_mates (wide_fm m) (wide_tree a b) (S (S m)) d = if d <? 2 then [0; 1] else seq 2 m.
Proof.
  intros H. unfold leaf_mates. rewrite wide_follow by exact H. cbn [seq filter].
  assert (E : forall q c, c < 2 -> ends_at (wide_fm m) (wide_tree a b) q c = if path_dec [DL] q then true else false).
  { intros q c Hc. unfold ends_at. rewrite wide_follow by lia. destruct (Nat.ltb_spec c 2); [reflexivity|lia]. }
  rewrite !E by lia.
  assert (K : forall q, filter (ends_at (wide_fm m) (wide_tree a b) q) (seq 2 m) = if path_dec [DR] q then seq 2 m else []).
  { intros q. assert (K2 : forall cs, (forall c, In c cs -> 2 <= c < S (S m)) -> filter (ends_at (wide_fm m) (wide_tree a b) q) cs = if path_dec [DR] q then cs else []).
    { induction cs as [|c cs IH]; intros Hc; [destruct (path_dec [DR] q); reflexivity|]. cbn [filter]. rewrite IH by (intros x Hx; apply Hc; right; exact Hx).
      unfold ends_at. destruct (Hc c) as [C1 C2]; [left; reflexivity|]. rewrite wide_follow by exact C2. destruct (Nat.ltb_spec c 2); [lia|]. destruct (path_dec [DR] q); reflexivity. }
    apply K2. intros c Hc. apply in_seq in Hc. lia. }
  destruct (d <? 2); rewrite K; destruct (path_dec [DL] _); try congruence; destruct (path_dec [DR] _); congruence.
Qed.

(** The scores before and after. *)
Lemma wide_before m : let n := INR (S (S m)) in
  (- ln n - 1 <= likelihood (label (wide m) "p") (repeat (ln (1 / (n - 1))) (S (S m))))%R.
Proof.
  intros n. assert (Hn : (2 <= n)%R). { unfold n. rewrite !S_INR. pose proof (pos_INR m). lra. }
  assert (El : logistic (ln (1 / (n - 1))) = (/ n)%R).
  { unfold logistic. rewrite exp_Ropp, exp_ln by (apply Rdiv_lt_0_compat; lra). field. lra. }
  unfold likelihood. rewrite repeat_length. rewrite (Rsum_ext _ (fun d => if d =? 0 then ln (/ n) else ln (1 - / n))).
  - cbn [seq map Rsum Nat.eqb]. rewrite (Rsum_ext _ (fun _ => ln (1 - / n))).
    + rewrite Rsum_const, seq_length. rewrite ln_Rinv by lra.
      assert (Hl : (- / (n - 1) <= ln (1 - / n))%R).
      { replace (1 - / n)%R with (/ (1 + / (n - 1)))%R by (field; lra). assert (0 < / (n - 1))%R by (apply Rinv_0_lt_compat; lra).
        rewrite ln_Rinv by lra. pose proof (ln_below (/ (n - 1))). lra. }
      assert (Em : INR m = (n - 2)%R) by (unfold n; rewrite !S_INR; lra). rewrite Em.
      assert ((n - 1) * - / (n - 1) <= (n - 1) * ln (1 - / n))%R by (apply Rmult_le_compat_l; lra).
      replace ((n - 1) * - / (n - 1))%R with (-1)%R in H by (field; lra). lra.
    + intros d Hd. apply in_seq in Hd. destruct d as [|d]; [lia|]. reflexivity.
  - intros d Hd. apply in_seq in Hd. rewrite nth_repeat_lt, wide_label by lia. unfold own_chance. rewrite El. destruct (d =? 0); f_equal; lra.
Qed.
Lemma wide_after m ss : length ss = S (S m) -> (likelihood (label (wide m) "p") ss <= - nth 1 ss 0%R)%R.
Proof.
  intros Ls. unfold likelihood. rewrite Ls. cbn [seq map Rsum]. rewrite !wide_label by lia. change (0 =? 0) with true. change (1 =? 0) with false. cbv iota.
  assert (Neg : forall y s, y = 0%R \/ y = 1%R -> (ln (own_chance y s) <= 0)%R).
  { intros y s Hy. rewrite <- ln_1. destruct (logistic_range s) as [R1 R2]. apply Rlt_le, ln_increasing; unfold own_chance; destruct Hy as [-> | ->]; lra. }
  assert (H1 : (ln (own_chance 0 (nth 1 ss 0%R)) <= - nth 1 ss 0%R)%R).
  { unfold own_chance. replace (0 * logistic (nth 1 ss 0%R) + (1 - 0) * (1 - logistic (nth 1 ss 0%R)))%R with (1 - logistic (nth 1 ss 0%R))%R by ring.
    rewrite one_minus. rewrite <- (ln_exp (- nth 1 ss 0%R)) at 2. apply Rlt_le, ln_increasing; [apply logistic_range|]. unfold logistic.
    set (s := nth 1 ss 0%R). rewrite Ropp_involutive. rewrite exp_Ropp. pose proof (exp_pos s). apply Rinv_lt_contravar; [apply Rmult_lt_0_compat; lra|lra]. }
  pose proof (Neg 1%R (nth 0 ss 0%R) (or_intror eq_refl)) as H0.
  assert (Hr : (Rsum (map (fun d => ln (own_chance (label (wide m) "p" d) (nth d ss 0%R))) (seq 2 m)) <= 0)%R).
  { assert (G : forall ds, (Rsum (map (fun d => ln (own_chance (label (wide m) "p" d) (nth d ss 0%R))) ds) <= 0)%R); [|apply G].
    induction ds as [|d ds IH]; cbn [map Rsum]; [lra|]. pose proof (Neg (label (wide m) "p" d) (nth d ss 0%R) (label_01 _ _ _)). lra. }
  lra.
Qed.

Theorem C138_large_rate_refuted : forall PF fmtF num (l : R),
  readable_chances PF fmtF num -> (0 < l)%R ->
  exists m gc f' t arr leaves preds gc' ss, let n := S (S m) in let y := label (wide m) "p" in
    readable (wide m) /\
    NewGradBoostClassTarget XR (Expit XR xtanh) xln (wide m) (Some l) "p" = Ok (gc, f') /\ ncData XR (gcPred XR gc) = numeric ss /\
    (** the values of the leaves are those of the cases in them *)
    (forall d, d < n -> exists q, follow (wide_fm m) t d = Some q /\
       gcFindPredicted XR fmtF gc (leaf_mates (wide_fm m) t n d) = Ok (node_pred (at_path t q))) /\
    TreePartition (wide_fm m) t = Ok (arr, (leaves, preds)) /\
    gcBoost XR PF (Expit XR xtanh) arr leaves preds gc = Ok (gc', Some l) /\
    ncData XR (gcPred XR gc') = numeric (step_up l (wide_fm m) t y ss) /\
    (likelihood y (step_up l (wide_fm m) t y ss) < likelihood y ss)%R.
Proof.
  intros PF fmtF num l HPF Hl.
  assert (Hk : exists k, 2 <= k /\ (16 <= INR k * l)%R).
  { destruct (archimed (16 / l)) as [A1 _]. assert (Hz : (0 < 16 / l)%R) by (apply Rdiv_lt_0_compat; lra).
    assert (Hz' : (0 <= up (16 / l))%Z) by (apply le_IZR; lra). exists (2 + Z.to_nat (up (16 / l))). split; [lia|].
    rewrite plus_INR, INR_IZR_INZ, (INR_IZR_INZ (Z.to_nat _)), Z2Nat.id by exact Hz'.
    apply Rle_trans with (16 / l * l)%R; [right; field; lra|]. apply Rmult_le_compat_r; [lra|]. cbn. lra. }
  destruct Hk as (k & Hk2 & Hkl).
  destruct (k * k) as [|[|m]] eqn:Em; [nia|nia|].
  assert (En : INR (S (S m)) = (INR k * INR k)%R) by (rewrite <- Em; apply mult_INR).
  set (y := label (wide m) "p").
  destruct (new_scored (wide m) "p" l (wide_readable m)) as (gc & f' & E & Ei & Sc).
  { exists 0, 1. cbn [wide cMissing]. rewrite repeat_length. split; [lia|]. split; [lia|]. split; [reflexivity|]. intros K. discriminate K. }
  cbn [wide cMissing] in Ei, Sc. rewrite repeat_length in Ei, Sc. fold (wide m) in Ei, Sc. fold y in Ei, Sc.
  assert (EP : Rsum (map y (seq 0 (S (S m)))) = 1%R).
  { cbn [seq map Rsum]. unfold y at 1 2. rewrite !wide_label by lia. change (0 =? 0) with true. change (1 =? 0) with false. cbv iota.
    rewrite (Rsum_ext y (fun _ => 0%R)); [rewrite Rsum_const; lra|]. intros d Hd. apply in_seq in Hd. unfold y. rewrite wide_label by lia. destruct d; [lia|reflexivity]. }
  rewrite EP in Ei, Sc. set (n := S (S m)) in *. set (prior := ln (1 / (INR n - 1))%R) in *. set (ss := repeat prior n) in *.
  assert (Nr : Forall num ss).
  { apply Forall_forall. intros x Hx. apply repeat_spec in Hx. subst x. pose proof HPF as (N0 & N1 & Na & Nln & _).
    apply Nln. apply Na; [exact N1|]. apply Na; [|exact N1]. generalize n. intros z. induction z as [|z IH]; [exact N0|]. rewrite S_INR. apply Na; assumption. }
  assert (Hm : 0 < m) by nia.
  set (va := newton y ss [0; 1]). set (vb := newton y ss (seq 2 m)).
  assert (Ra : PF (fmtF (Some va)) = Some (Some va)) by (apply HPF; eapply num_newton; [exact HPF|exact Nr]).
  assert (Rb : PF (fmtF (Some vb)) = Some (Some vb)) by (apply HPF; eapply num_newton; [exact HPF|exact Nr]).
  set (t := wide_tree (fmtF (Some va)) (fmtF (Some vb))).
  assert (Hfo : forall d, d < n -> follow (wide_fm m) t d = Some (if d <? 2 then [DL] else [DR])) by (intros d Hd; apply wide_follow, Hd).
  assert (Hma : forall d, d < n -> leaf_mates (wide_fm m) t n d = if d <? 2 then [0; 1] else seq 2 m) by (intros d Hd; apply wide_mates, Hd).
  pose proof Sc as (HG & Ed).
  assert (Hr : round_ok n (wide_fm m, t)).
  { eexists. split; [reflexivity|]. split; [cbn; rewrite repeat_length; reflexivity|]. split; [discriminate|]. split.
    - cbn. repeat split; discriminate.
    - split; [|repeat constructor]. cbn. split; [lia|]. split; [exact I|]. split.
      + intros c Hc. exfalso.
        assert (K : forall z i, nth i (repeat false z) false = false) by (intros z i; apply nth_repeat).
        assert (Kc : fmissing (column (wide_fm m) 0) c = false) by apply (K (S (S m))). assert (Ht : true = false); [|discriminate]. rewrite <- Kc. symmetry. exact Hc.
      + apply Forall_forall. intros c Hc. change (In c (seq 0 n)) in Hc. apply in_seq in Hc. cbn. rewrite !repeat_length. fold n. lia. }
  destruct (one_round XR PF (gbclass XR) XR
          (fun c x g => let* y := get (ncData XR (gcPred XR g)) c in
            let pred := nadd XR y (nmul XR (gcLearn XR g) x) in
            let* pf := ncPut XR c pred (gcPred XR g) in
            let* a := get (ncData XR (gcActual XR g)) c in
            let* rf := ncPut XR c (nsub XR a (Expit XR xtanh pred)) (gcRes XR g) in
            Ok (mkGBC XR rf (gcActual XR g) pf (gcLearn XR g) (gcPrior XR g))) (gcUpdate XR (Expit XR xtanh)) (fun _ _ _ => eq_refl) n
          (good_class XR (Expit XR xtanh) (wide m) "p" (Some l) (Some prior) n)
          (fun g d => nth d (ncData XR (gcPred XR g)) (nofZ XR 0)) (fun x v => nadd XR v (nmul XR (Some l : XR) x))
          (fun g c x => gc_step XR (Expit XR xtanh) (wide m) "p" (Some l) (Some prior) n g c x) (wide_fm m) t gc Hr HG)
    as (arr & leaves & preds & gc' & Ep & Eo & G1 & V1).
  exists m, gc, f', t, arr, leaves, preds, gc', ss. fold n y. split; [apply wide_readable|]. split; [exact E|]. split; [exact Ed|]. split; [|split; [exact Ep|split; [|split]]].
  - intros d Hd. rewrite Hfo, Hma by exact Hd. eexists. split; [reflexivity|]. unfold gcFindPredicted. destruct (d <? 2).
    + erewrite scored_newton; [reflexivity|exact Sc|repeat constructor; unfold n; lia|discriminate].
    + erewrite scored_newton; [reflexivity|exact Sc| |destruct m; [lia|discriminate]]. apply Forall_forall. intros c Hc. apply in_seq in Hc. unfold n. lia.
  - unfold gcBoost. rewrite Eo. cbn [bind]. destruct G1 as (-> & _). reflexivity.
  - destruct G1 as (_ & _ & _ & _ & (L1 & _ & _) & _). assert (Lss : length ss = n) by apply repeat_length. apply nth_ext with (d := nofZ XR 0) (d' := nofZ XR 0).
    { unfold numeric. rewrite map_length, up_length. congruence. }
    intros d Hd. rewrite L1 in Hd. rewrite V1 by exact Hd. rewrite Ed. change (nofZ XR 0) with (Some 0%R : XR).
    assert (Hn : forall ys, d < length ys -> nth d (numeric ys) (Some 0%R) = Some (nth d ys 0%R)).
    { intros ys H. unfold numeric. rewrite (nth_indep _ _ (Some 0%R)) by (rewrite map_length; exact H). apply map_nth. }
    rewrite !Hn by (rewrite ?up_length; lia). rewrite up_nth by lia. unfold leaf_words. cbn [flat_map]. rewrite app_nil_r, Hfo by exact Hd.
    rewrite Lss, Hma by exact Hd. destruct (d <? 2); cbn [fold_left at_path child t wide_tree node_pred dPred]; unfold parse0; rewrite ?Ra, ?Rb; reflexivity.
  - apply Rle_lt_trans with (- nth 1 (step_up l (wide_fm m) t y ss) 0%R)%R.
    + apply wide_after. rewrite up_length. apply repeat_length.
    + apply Rlt_le_trans with (- ln (INR n) - 1)%R; [|apply wide_before].
      assert (Lss : length ss = n) by apply repeat_length. rewrite up_nth by (rewrite Lss; unfold n; lia). rewrite Lss, Hma by (unfold n; lia). change (1 <? 2) with true. cbv iota. fold va.
      assert (E1 : nth 1 ss 0%R = prior) by (apply nth_repeat_lt; unfold n; lia). rewrite E1.
      assert (Hn : (4 <= INR n)%R). { rewrite En. assert (2 <= INR k)%R by (apply (le_INR 2); exact Hk2). nra. }
      assert (El : logistic prior = (/ INR n)%R).
      { unfold logistic, prior. rewrite exp_Ropp, exp_ln by (apply Rdiv_lt_0_compat; lra). field. lra. }
      assert (Ev : va = (INR n * (INR n - 2) / (2 * (INR n - 1)))%R).
      { unfold va, newton. cbn [map Rsum]. rewrite E1. assert (E0 : nth 0 ss 0%R = prior) by (apply nth_repeat_lt; unfold n; lia). rewrite E0, El.
        unfold y. rewrite !wide_label by lia. change (0 =? 0) with true. change (1 =? 0) with false. cbv iota. field. repeat split; lra. }
      assert (Hv : (INR n / 4 <= va)%R).
      { rewrite Ev. apply (Rmult_le_reg_r (4 * (INR n - 1))%R); [lra|]. replace (INR n * (INR n - 2) / (2 * (INR n - 1)) * (4 * (INR n - 1)))%R with (2 * INR n * (INR n - 2))%R by (field; lra).
        replace (INR n / 4 * (4 * (INR n - 1)))%R with (INR n * (INR n - 1))%R by field. nra. }
      assert (Hp : (- ln (INR n) <= prior)%R).
      { unfold prior. replace (1 / (INR n - 1))%R with (/ (INR n - 1))%R by (field; lra). rewrite ln_Rinv by lra. assert (ln (INR n - 1) < ln (INR n))%R by (apply ln_increasing; lra). lra. }
      assert (Hln : (ln (INR n) <= 2 * (INR k - 1))%R).
      { assert (K2 : (2 <= INR k)%R) by (apply (le_INR 2); exact Hk2). rewrite En, ln_mult by lra. pose proof (ln_below (INR k - 1)) as B. replace (1 + (INR k - 1))%R with (INR k) in B by lra. lra. }
      assert (Hlv : (4 * INR k <= l * va)%R).
      { apply Rle_trans with (l * (INR n / 4))%R; [|apply Rmult_le_compat_l; lra]. rewrite En. assert (2 <= INR k)%R by (apply (le_INR 2); exact Hk2).
        replace (l * (INR k * INR k / 4))%R with (INR k * l * (INR k / 4))%R by field. assert (16 * (INR k / 4) <= INR k * l * (INR k / 4))%R by (apply Rmult_le_compat_r; lra). lra. }
      lra.
Qed.
Print Assumptions C138_large_rate_refuted.

(** ** Cases that meet the hypotheses *)

(** The numbers that arise from 0 and 1 by the operations above; a number is written as the
    place of one of its expressions in a list of them all. *)
Fixpoint made (fuel code : nat) : R :=
  match fuel with
  | 0 => 0%R
  | S fuel =>
      let (op, k) := Cantor.of_nat code in
      let (a, b) := Cantor.of_nat k in
      match op with
      | 0 => 0%R
      | 1 => 1%R
      | 2 => (made fuel a + made fuel b)%R
      | 3 => (made fuel a - made fuel b)%R
      | 4 => (made fuel a * made fuel b)%R
      | 5 => (made fuel a / made fuel b)%R
      | 6 => logistic (made fuel a)
      | _ => ln (made fuel a)
      end
  end.
Definition makeable (x : R) : Prop := exists fuel code, made fuel code = x.
Definition recipe (k : nat) : R := let (fuel, code) := Cantor.of_nat k in made fuel code.
Definition entry (x : R) : nat :=
  match ClassicalDedekindReals.sig_forall_dec (fun k => x <> recipe k)
          (fun k => match Req_EM_T x (recipe k) with Specif.left e => Specif.right (fun n => n e) | Specif.right e => Specif.left e end) with
  | Specif.inleft (exist _ k _) => k
  | Specif.inright _ => 0
  end.
Definition writeM (x : XR) : string := match x with Some x => tally (entry x) | None => EmptyString end.
Definition readM (s : string) : option XR := Some (Some (recipe (String.length s))).
Lemma made_zero f : made f 0 = 0%R.
Proof. destruct f; reflexivity. Qed.
Lemma made_op f op a b : made (S f) (Cantor.to_nat (op, Cantor.to_nat (a, b))) =
  match op with 0 => 0 | 1 => 1 | 2 => made f a + made f b | 3 => made f a - made f b | 4 => made f a * made f b | 5 => made f a / made f b
  | 6 => logistic (made f a) | _ => ln (made f a) end%R.
Proof. cbn [made]. rewrite !Cantor.cancel_of_to. reflexivity. Qed.
Lemma made_more f c k : exists c', made (k + f) c' = made f c.
Proof.
  induction k as [|k (c' & IH)]; [exists c; reflexivity|]. exists (Cantor.to_nat (2, Cantor.to_nat (c', 0))).
  rewrite Nat.add_succ_l, made_op, made_zero, IH. lra.
Qed.
Lemma made_both a b : makeable a -> makeable b -> exists f c d, made f c = a /\ made f d = b.
Proof.
  intros (f & c & <-) (g & d & <-). destruct (made_more f c g) as (c' & Ec). destruct (made_more g d f) as (d' & Ed).
  exists (g + f), c', d'. split; [exact Ec|]. rewrite Nat.add_comm. exact Ed.
Qed.
Example C138_makeable_example : readable_chances readM writeM makeable.
Proof.
  split; [exists 0, 0; reflexivity|]. split; [exists 1, (Cantor.to_nat (1, Cantor.to_nat (0, 0))); apply made_op|]. split; [|split].
  - intros a b Ha Hb. destruct (made_both a b Ha Hb) as (f & c & d & <- & <-).
    split; [|split; [|split]]; [exists (S f), (Cantor.to_nat (2, Cantor.to_nat (c, d)))|exists (S f), (Cantor.to_nat (3, Cantor.to_nat (c, d)))
      |exists (S f), (Cantor.to_nat (4, Cantor.to_nat (c, d)))|exists (S f), (Cantor.to_nat (5, Cantor.to_nat (c, d)))]; rewrite made_op; reflexivity.
  - intros a (f & c & <-). split; [exists (S f), (Cantor.to_nat (6, Cantor.to_nat (c, 0)))|exists (S f), (Cantor.to_nat (7, Cantor.to_nat (c, 0)))]; rewrite made_op; reflexivity.
  - intros x (f & c & Hx). unfold readM, writeM. do 2 f_equal.
    assert (El : forall k, String.length (tally k) = k) by (induction k as [|k IH]; cbn; congruence). rewrite El. unfold entry.
    destruct (ClassicalDedekindReals.sig_forall_dec _ _) as [[k Hk]|Hk].
    + destruct (Req_EM_T x (recipe k)) as [E|E]; [symmetry; exact E|contradiction].
    + destruct (Hk (Cantor.to_nat (f, c))). unfold recipe. rewrite Cantor.cancel_of_to. symmetry. exact Hx.
Qed.

(** Nine cases, four of them positive, learning rate a tenth; the samples and the columns are
    those of [C137_trainable_example].  All hypotheses of
    [C138_likelihood_never_falls_partial] hold, and the first tree meets its bound. *)
Definition nine_classes : catF := mkCat (mkCM [("n", 1); ("p", 0)] ["p"; "n"]) [0; 0; 0; 0; 1; 1; 1; 1; 1] (repeat false 9) "C:t" false false.
Example C138_hypotheses_example :
  readable nine_classes /\ (exists i j, i < 9 /\ j < 9 /\ cGetStr nine_classes i = Ok "p" /\ cGetStr nine_classes j <> Ok "p") /\
  makeable (1 / (1 + 1 + 1 + 1))%R /\
  let P := Rsum (map (label nine_classes "p") (seq 0 9)) in P = 4%R /\
  forall d, d < 9 -> (1 / (1 + 1 + 1 + 1) <= if Req_EM_T (label nine_classes "p" d) 1 then P / INR 9 else 1 - P / INR 9)%R.
Proof.
  split; [split; [reflexivity|]; intros d Hd; do 9 (destruct d as [|d]; [eexists; reflexivity|]); cbn in Hd; lia|].
  split; [exists 0, 4; split; [lia|]; split; [lia|]; split; [reflexivity|]; discriminate|].
  pose proof C138_makeable_example as (_ & N1 & Na & _). split.
  { apply Na; [exact N1|]. apply Na; [|exact N1]. apply Na; [|exact N1]. apply Na; exact N1. }
  assert (EP : Rsum (map (label nine_classes "p") (seq 0 9)) = 4%R) by (unfold label; cbn; lra). cbv zeta. rewrite EP. split; [reflexivity|].
  intros d _. replace (INR 9) with 9%R by (cbn; lra). destruct (Req_EM_T _ _); lra.
Qed.
