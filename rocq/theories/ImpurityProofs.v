(** Lemmas for the impurity theorems. *)
From Verif Require Import Go GoLemmas F64 F64Order Exact ModelFeature ModelImpurity ImpuritySpec.
Local Open Scope nat_scope.
Local Open Scope list_scope.

(** ** Counting *)

Lemma upd_map_seq' {A} (f : nat -> A) n c x : forall s, s <= c ->
  upd (map f (seq s n)) (c - s) x = map (fun j => if j =? c then x else f j) (seq s n).
Proof.
  induction n as [|n IH]; intros s Hs; [reflexivity|]. cbn [seq map upd].
  destruct (Nat.eq_dec s c) as [->|Hne].
  - rewrite Nat.sub_diag, Nat.eqb_refl. f_equal. apply map_ext_in. intros j Hj. apply in_seq in Hj.
    destruct (j =? c) eqn:E; [apply Nat.eqb_eq in E; lia|reflexivity].
  - assert (c - s = S (c - S s)) as -> by lia. rewrite IH by lia.
    f_equal. destruct (s =? c) eqn:E; [apply Nat.eqb_eq in E; lia|reflexivity].
Qed.

Lemma upd_map_seq0 {A} (f : nat -> A) n c x :
  upd (map f (seq 0 n)) c x = map (fun j => if j =? c then x else f j) (seq 0 n).
Proof. rewrite <- (upd_map_seq' f n c x 0) by lia. rewrite Nat.sub_0_r. reflexivity. Qed.

Definition counts (data : list nat) (k : nat) (cases : list nat) : list Z :=
  map (fun c => Z.of_nat (occurs (labels data cases) c)) (seq 0 k).

Lemma counts_length data k cases : length (counts data k cases) = k.
Proof. unfold counts. rewrite map_length, seq_length. reflexivity. Qed.

Lemma nth_map_seq {A} (f : nat -> A) k c : c < k -> nth_error (map f (seq 0 k)) c = Some (f c).
Proof.
  intros. rewrite nth_error_map.
  rewrite (nth_error_nth' (seq 0 k) 0) by (rewrite seq_length; lia). cbn.
  rewrite seq_nth by lia. reflexivity.
Qed.

Lemma labelled_get data k cases i : labelled data k cases -> In i cases ->
  get data i = Ok (nth i data 0) /\ nth i data 0 < k.
Proof.
  intros H Hi. unfold labelled in H. rewrite Forall_forall in H. destruct (H i Hi) as [H1 H2].
  split; [|exact H2]. apply get_nth. apply nth_error_nth'. exact H1.
Qed.

Lemma occurs_app a b c : occurs (a ++ b) c = occurs a c + occurs b c.
Proof. apply count_occ_app. Qed.
Lemma labels_app data a b : labels data (a ++ b) = labels data a ++ labels data b.
Proof. apply map_app. Qed.
Lemma labels_length data a : length (labels data a) = length a.
Proof. apply map_length. Qed.
Lemma labels_perm data a b : Permutation a b -> Permutation (labels data a) (labels data b).
Proof. apply Permutation_map. Qed.
Lemma occurs_perm a b c : Permutation a b -> occurs a c = occurs b c.
Proof. intros H. unfold occurs. revert c. apply (Permutation_count_occ Nat.eq_dec). exact H. Qed.
Lemma counts_perm data k a b : Permutation a b -> counts data k a = counts data k b.
Proof.
  intros H. unfold counts. apply map_ext. intros c. f_equal. apply occurs_perm, labels_perm, H.
Qed.

Lemma count_step data k (pre : list nat) i :
  nth i data 0 < k ->
  (let* n := get (counts data k pre) (nth i data 0) in
   set (counts data k pre) (nth i data 0) (n + 1)%Z) = Ok (counts data k (pre ++ [i])).
Proof.
  intros Hc. unfold counts at 1. rewrite (get_nth _ _ (nth_map_seq _ _ _ Hc)). cbn [bind].
  rewrite set_ok by (rewrite counts_length; exact Hc). f_equal.
  unfold counts. rewrite upd_map_seq0.
  apply map_ext. intros c. rewrite labels_app, occurs_app. cbn [labels map occurs count_occ].
  destruct (c =? nth i data 0) eqn:E.
  - apply Nat.eqb_eq in E. subst c. destruct (Nat.eq_dec _ _); [|congruence].
    change count_occ with (@count_occ nat) in *. unfold occurs. lia.
  - apply Nat.eqb_neq in E. destruct (Nat.eq_dec _ _); [congruence|]. unfold occurs. lia.
Qed.

Lemma count_loop data k cases : forall pre, labelled data k cases ->
  foreach cases (fun i counter =>
    let* c := get data i in
    let* n := get counter c in
    set counter c (n + 1)%Z) (counts data k pre) = Ok (counts data k (pre ++ cases)).
Proof.
  induction cases as [|i cases IH]; intros pre H; cbn [foreach].
  - rewrite app_nil_r. reflexivity.
  - destruct (labelled_get _ _ _ i H (or_introl eq_refl)) as [E Hc]. rewrite E. cbn [bind].
    rewrite count_step by exact Hc. cbn [bind]. rewrite IH.
    + rewrite <- app_assoc. reflexivity.
    + inversion H; assumption.
Qed.

Lemma map_const_seq {A B} (b : B) : forall (l : list A) s, map (fun _ => b) l = map (fun _ => b) (seq s (length l)).
Proof. induction l as [|a l IH]; intros s; cbn; [reflexivity|]. f_equal. apply IH. Qed.

Lemma CountPerCat_ok data cases counter : labelled data (length counter) cases ->
  CountPerCat data cases counter = Ok (counts data (length counter) cases).
Proof.
  intros H. unfold CountPerCat.
  replace (map (fun _ => 0%Z) counter) with (counts data (length counter) []).
  - rewrite count_loop by exact H. reflexivity.
  - unfold counts. cbn. symmetry. apply map_const_seq.
Qed.

Lemma uncount_step data k (i : nat) (post : list nat) :
  nth i data 0 < k ->
  (let* n := get (counts data k (i :: post)) (nth i data 0) in
   set (counts data k (i :: post)) (nth i data 0) (n - 1)%Z) = Ok (counts data k post).
Proof.
  intros Hc. unfold counts at 1. rewrite (get_nth _ _ (nth_map_seq _ _ _ Hc)). cbn [bind].
  rewrite set_ok by (rewrite counts_length; exact Hc). f_equal.
  unfold counts. rewrite upd_map_seq0.
  apply map_ext. intros c. cbn [labels map]. unfold occurs. cbn [count_occ].
  destruct (c =? nth i data 0) eqn:E.
  - apply Nat.eqb_eq in E. subst c. destruct (Nat.eq_dec _ _); [|congruence]. unfold labels. lia.
  - apply Nat.eqb_neq in E. destruct (Nat.eq_dec _ _); [congruence|]. reflexivity.
Qed.

Lemma MoveCounts_ok data k moved : forall l r, labelled data k moved ->
  MoveCountsRtoL data moved (counts data k l) (counts data k (moved ++ r))
  = Ok (counts data k (l ++ moved), counts data k r).
Proof.
  unfold MoveCountsRtoL.
  induction moved as [|i moved IH]; intros l r H; cbn [foreach app].
  - rewrite app_nil_r. reflexivity.
  - destruct (labelled_get _ _ _ i H (or_introl eq_refl)) as [E Hc]. rewrite E. cbn [bind].
    pose proof (count_step data k l i Hc) as S1.
    pose proof (uncount_step data k i (moved ++ r) Hc) as S2.
    destruct (get (counts data k l) (nth i data 0)) as [n| |]; try discriminate. cbn [bind] in *.
    rewrite S1. cbn [bind].
    destruct (get (counts data k (i :: moved ++ r)) (nth i data 0)) as [n'| |]; try discriminate.
    cbn [bind] in *. rewrite S2. cbn [bind]. rewrite IH.
    + rewrite <- app_assoc. reflexivity.
    + inversion H; assumption.
Qed.

Lemma MoveCounts_perm data k moved l r l' r' : labelled data k moved ->
  Permutation l' (l ++ moved) -> Permutation r (moved ++ r') ->
  MoveCountsRtoL data moved (counts data k l) (counts data k r)
  = Ok (counts data k l', counts data k r').
Proof.
  intros H Pl Pr. rewrite (counts_perm _ _ _ _ Pl), (counts_perm _ _ _ _ Pr).
  apply MoveCounts_ok, H.
Qed.

Lemma labelled_perm data k a b : Permutation a b -> labelled data k a -> labelled data k b.
Proof. intros P H. unfold labelled in *. eapply Permutation_Forall; eauto. Qed.
Lemma labelled_app data k a b : labelled data k (a ++ b) <-> labelled data k a /\ labelled data k b.
Proof. apply Forall_app. Qed.

(** ** Sums of reals *)
Local Open Scope R_scope.

Lemma Rsum_ext {A} (f g : A -> R) l : (forall x, In x l -> f x = g x) -> Rsum (map f l) = Rsum (map g l).
Proof. intros H. f_equal. apply map_ext_in. exact H. Qed.
Lemma Rsum_plus {A} (f g : A -> R) l : Rsum (map (fun x => f x + g x) l) = Rsum (map f l) + Rsum (map g l).
Proof. induction l; cbn; lra. Qed.
Lemma Rsum_minus {A} (f g : A -> R) l : Rsum (map (fun x => f x - g x) l) = Rsum (map f l) - Rsum (map g l).
Proof. induction l; cbn; lra. Qed.
Lemma Rsum_scal {A} (f : A -> R) a l : Rsum (map (fun x => a * f x) l) = a * Rsum (map f l).
Proof. induction l; cbn; lra. Qed.
Lemma Rsum_scal_r {A} (f : A -> R) a l : Rsum (map (fun x => f x * a) l) = Rsum (map f l) * a.
Proof. induction l; cbn; lra. Qed.
Lemma Rsum_const {A} (a : R) (l : list A) : Rsum (map (fun _ => a) l) = INR (length l) * a.
Proof. induction l; cbn [map Rsum length]; [cbn; lra|]. rewrite S_INR. lra. Qed.
Lemma Rsum_le {A} (f g : A -> R) l : (forall x, In x l -> f x <= g x) -> Rsum (map f l) <= Rsum (map g l).
Proof.
  induction l as [|a l IH]; intros H; cbn; [lra|].
  pose proof (H a (or_introl eq_refl)).
  assert (Rsum (map f l) <= Rsum (map g l)) by (apply IH; intros; apply H; right; assumption). lra.
Qed.
Lemma Rsum_nonneg {A} (f : A -> R) l : (forall x, In x l -> 0 <= f x) -> 0 <= Rsum (map f l).
Proof.
  induction l as [|a l IH]; intros H; cbn; [lra|].
  pose proof (H a (or_introl eq_refl)).
  assert (0 <= Rsum (map f l)) by (apply IH; intros; apply H; right; assumption). lra.
Qed.
Lemma Rsum_zero {A} (f : A -> R) l : (forall x, In x l -> 0 <= f x) -> Rsum (map f l) = 0 ->
  forall x, In x l -> f x = 0.
Proof.
  induction l as [|a l IH]; intros H E x Hx; [destruct Hx|]. cbn in E.
  pose proof (H a (or_introl eq_refl)).
  assert (H' : forall y, In y l -> 0 <= f y) by (intros; apply H; right; assumption).
  pose proof (Rsum_nonneg f l H').
  destruct Hx as [<-|Hx]; [lra|]. apply IH; auto. lra.
Qed.
Lemma Rsum_all_zero {A} (f : A -> R) l : (forall x, In x l -> f x = 0) -> Rsum (map f l) = 0.
Proof. intros H. rewrite (Rsum_ext f (fun _ => 0) l H), Rsum_const. lra. Qed.
Lemma Rsum_single (f : nat -> R) k c : (c < k)%nat ->
  (forall j, (j < k)%nat -> j <> c -> f j = 0) -> Rsum (map f (seq 0 k)) = f c.
Proof.
  intros Hc H.
  assert (Hs : seq 0 k = (seq 0 c ++ c :: seq (S c) (k - S c))%list).
  { replace k with (c + S (k - S c))%nat at 1 by lia. rewrite seq_app. reflexivity. }
  rewrite Hs, map_app, Rsum_app. cbn [map Rsum].
  rewrite (Rsum_all_zero f (seq 0 c)), (Rsum_all_zero f (seq (S c) (k - S c))); [lra| |];
    intros j Hj; apply in_seq in Hj; apply H; lia.
Qed.

(** ** Shares *)

Lemma sum_occurs ls k : Forall (fun c => c < k)%nat ls ->
  Rsum (map (fun c => INR (occurs ls c)) (seq 0 k)) = INR (length ls).
Proof.
  induction ls as [|a ls IH]; intros H.
  - cbn. apply Rsum_all_zero. reflexivity.
  - inversion H as [|? ? Ha Hl]; subst.
    rewrite (Rsum_ext _ (fun c => (if (c =? a)%nat then 1 else 0) + INR (occurs ls c))).
    + rewrite Rsum_plus, IH by assumption. rewrite (Rsum_single _ k a Ha).
      * rewrite Nat.eqb_refl. cbn [length]. rewrite S_INR. lra.
      * intros j _ Hj. apply Nat.eqb_neq in Hj. rewrite Hj. reflexivity.
    + intros c _. unfold occurs. cbn [count_occ].
      destruct (Nat.eq_dec a c) as [->|Hne].
      * rewrite Nat.eqb_refl, S_INR. lra.
      * destruct (c =? a)%nat eqn:E; [apply Nat.eqb_eq in E; congruence|lra].
Qed.

Lemma occurs_le ls c : (occurs ls c <= length ls)%nat.
Proof. induction ls as [|a ls IH]; cbn; [lia|]. unfold occurs in *. destruct (Nat.eq_dec a c); lia. Qed.

Lemma len_pos {A} (l : list A) : l <> nil -> 0 < INR (length l).
Proof. intros H. apply lt_0_INR. destruct l; [congruence|cbn; lia]. Qed.

Lemma share_range ls c : ls <> nil -> 0 <= share ls c <= 1.
Proof.
  intros H. pose proof (len_pos ls H) as Hp. unfold share.
  pose proof (le_INR _ _ (occurs_le ls c)). pose proof (pos_INR (occurs ls c)).
  split.
  - apply Rmult_le_pos; [lra|]. left. apply Rinv_0_lt_compat, Hp.
  - apply Rmult_le_reg_r with (INR (length ls)); [lra|].
    unfold Rdiv. rewrite Rmult_assoc, Rinv_l by lra. lra.
Qed.

Lemma sum_share ls k : ls <> nil -> Forall (fun c => c < k)%nat ls ->
  Rsum (map (share ls) (seq 0 k)) = 1.
Proof.
  intros H Hk. pose proof (len_pos ls H) as Hp.
  unfold share, Rdiv. rewrite Rsum_scal_r, sum_occurs by assumption. apply Rinv_r. lra.
Qed.

Lemma occurs_pure ls c : pure ls -> In c ls -> occurs ls c = length ls.
Proof.
  intros Hp Hc. unfold occurs.
  assert (H : forall l, (forall a, In a l -> a = c) -> count_occ Nat.eq_dec l c = length l).
  { induction l as [|a l IH]; intros Hl; [reflexivity|]. cbn.
    destruct (Nat.eq_dec a c) as [_|n]; [f_equal; apply IH; intros; apply Hl; right; assumption|].
    exfalso. apply n, Hl. left; reflexivity. }
  apply H. intros a Ha. apply Hp; assumption.
Qed.

Lemma occurs_full ls c : occurs ls c = length ls -> forall a, In a ls -> a = c.
Proof.
  unfold occurs. induction ls as [|b ls IH]; intros E a Ha; [destruct Ha|].
  cbn in E. pose proof (occurs_le ls c) as Hle. unfold occurs in Hle.
  destruct (Nat.eq_dec b c) as [->|n]; [|lia].
  destruct Ha as [<-|Ha]; [reflexivity|]. apply IH; [lia|exact Ha].
Qed.

Lemma pure_shares ls k : ls <> nil -> Forall (fun c => c < k)%nat ls ->
  (pure ls <-> forall c, (c < k)%nat -> share ls c = 0 \/ share ls c = 1).
Proof.
  intros Hne Hk. pose proof (len_pos ls Hne) as Hp. split.
  - intros P c _. destruct (in_dec Nat.eq_dec c ls) as [Hi|Hi].
    + right. unfold share. rewrite (occurs_pure ls c P Hi). apply Rinv_r. lra.
    + left. unfold share, occurs. apply (count_occ_not_In Nat.eq_dec) in Hi. rewrite Hi.
      cbn. unfold Rdiv. lra.
  - intros H. destruct ls as [|c ls]; [congruence|].
    assert (Hc : (c < k)%nat) by (inversion Hk; assumption).
    assert (E : occurs (c :: ls) c = length (c :: ls)).
    { destruct (H c Hc) as [E|E].
      - exfalso. unfold share in E.
        assert (0 < INR (occurs (c :: ls) c)).
        { apply lt_0_INR. unfold occurs. cbn. destruct (Nat.eq_dec c c); [lia|congruence]. }
        apply Rmult_integral in E. destruct E as [E|E]; [lra|].
        apply Rinv_neq_0_compat in E; [exact E|lra].
      - unfold share in E. apply INR_eq.
        apply Rmult_eq_reg_r with (/ INR (length (c :: ls))); [|apply Rinv_neq_0_compat; lra].
        rewrite Rinv_r by lra. exact E. }
    intros a b Ha Hb. rewrite (occurs_full _ _ E a Ha), (occurs_full _ _ E b Hb). reflexivity.
Qed.

(** ** Gini *)

Lemma gini_alt ls k : ls <> nil -> Forall (fun c => c < k)%nat ls ->
  gini ls k = Rsum (map (fun c => share ls c * (1 - share ls c)) (seq 0 k)).
Proof.
  intros H Hk. unfold gini.
  rewrite (Rsum_ext (fun c => share ls c * (1 - share ls c)) (fun c => share ls c - share ls c * share ls c))
    by (intros; lra).
  rewrite Rsum_minus, sum_share by assumption. reflexivity.
Qed.

Lemma gini_nonneg ls k : ls <> nil -> Forall (fun c => c < k)%nat ls -> 0 <= gini ls k.
Proof.
  intros H Hk. rewrite gini_alt by assumption. apply Rsum_nonneg. intros c _.
  pose proof (share_range ls c H). apply Rmult_le_pos; lra.
Qed.

Lemma gini_upper ls k : ls <> nil -> Forall (fun c => c < k)%nat ls -> gini ls k <= 1 - / INR k.
Proof.
  intros H Hk.
  assert (Hkp : 0 < INR k).
  { apply lt_0_INR. destruct ls as [|a ls]; [congruence|]. inversion Hk; lia. }
  assert (Hq : 0 <= Rsum (map (fun c => (share ls c - / INR k) * (share ls c - / INR k)) (seq 0 k)))
    by (apply Rsum_nonneg; intros; apply Rle_0_sqr).
  rewrite (Rsum_ext _ (fun c => share ls c * share ls c + (share ls c * (- 2 * / INR k) + / INR k * / INR k)))
    in Hq by (intros; lra).
  rewrite Rsum_plus, Rsum_plus, Rsum_scal_r, Rsum_const, seq_length, sum_share in Hq by assumption.
  replace (INR k * (/ INR k * / INR k)) with (/ INR k) in Hq by (field; lra). unfold gini. lra.
Qed.

Lemma gini_zero ls k : ls <> nil -> Forall (fun c => c < k)%nat ls -> (gini ls k = 0 <-> pure ls).
Proof.
  intros H Hk. rewrite (pure_shares ls k H Hk), gini_alt by assumption. split.
  - intros E c Hc.
    assert (Hz : share ls c * (1 - share ls c) = 0).
    { apply (Rsum_zero (fun c => share ls c * (1 - share ls c)) (seq 0 k)); [|exact E|apply in_seq; lia].
      intros x _. pose proof (share_range ls x H). apply Rmult_le_pos; lra. }
    apply Rmult_integral in Hz. destruct Hz; [left|right]; lra.
  - intros Hs. apply Rsum_all_zero. intros c Hc. apply in_seq in Hc.
    destruct (Hs c ltac:(lia)) as [-> | ->]; lra.
Qed.

Lemma share_perm a b c : Permutation a b -> share a c = share b c.
Proof. intros P. unfold share. rewrite (occurs_perm _ _ c P), (Permutation_length P). reflexivity. Qed.
Lemma gini_perm a b k : Permutation a b -> gini a k = gini b k.
Proof. intros P. unfold gini. f_equal. apply Rsum_ext. intros c _. rewrite (share_perm a b c P). reflexivity. Qed.

(** weighted Gini as counts *)
Lemma gini_scaled ls k : ls <> nil ->
  INR (length ls) * gini ls k
  = INR (length ls) - Rsum (map (fun c => INR (occurs ls c) * INR (occurs ls c) / INR (length ls)) (seq 0 k)).
Proof.
  intros H. pose proof (len_pos ls H). unfold gini.
  rewrite (Rsum_ext (fun c => INR (occurs ls c) * INR (occurs ls c) / INR (length ls))
             (fun c => INR (length ls) * (share ls c * share ls c))).
  - rewrite Rsum_scal. lra.
  - intros c _. unfold share. field. lra.
Qed.

Lemma square_mix a b n m : 0 < n -> 0 < m -> (a + b) * (a + b) / (n + m) <= a * a / n + b * b / m.
Proof.
  intros Hn Hm.
  assert (E : a * a / n + b * b / m - (a + b) * (a + b) / (n + m)
              = (a * m - b * n) * (a * m - b * n) / (n * m * (n + m))) by (field; lra).
  assert (0 <= (a * m - b * n) * (a * m - b * n) / (n * m * (n + m))).
  { apply Rmult_le_pos; [apply Rle_0_sqr|]. left. apply Rinv_0_lt_compat.
    repeat apply Rmult_lt_0_compat; lra. }
  lra.
Qed.

Lemma gini_concave l r k : l <> nil -> r <> nil ->
  INR (length l) * gini l k + INR (length r) * gini r k <= INR (length (l ++ r)) * gini (l ++ r) k.
Proof.
  intros Hl Hr. pose proof (len_pos l Hl). pose proof (len_pos r Hr).
  rewrite !gini_scaled by (first [assumption | destruct l; [congruence|discriminate]]).
  rewrite app_length, plus_INR.
  assert (Rsum (map (fun c => INR (occurs (l ++ r) c) * INR (occurs (l ++ r) c) / (INR (length l) + INR (length r))) (seq 0 k))
          <= Rsum (map (fun c => INR (occurs l c) * INR (occurs l c) / INR (length l)) (seq 0 k))
             + Rsum (map (fun c => INR (occurs r c) * INR (occurs r c) / INR (length r)) (seq 0 k))).
  { rewrite <- Rsum_plus. apply Rsum_le. intros c _. rewrite occurs_app, plus_INR.
    apply square_mix; assumption. }
  lra.
Qed.

(** ** Entropy *)

Lemma ln_le_minus1 x : 0 < x -> ln x <= x - 1.
Proof.
  intros Hx. destruct (Req_dec (ln x) 0) as [E|E].
  - rewrite E. rewrite <- (exp_ln x Hx), E, exp_0. lra.
  - pose proof (exp_ineq1 (ln x) E) as H. rewrite exp_ln in H by assumption. lra.
Qed.

Lemma plogp_neg p : 0 <= p <= 1 -> plogp p <= 0.
Proof.
  intros H. unfold plogp. destruct (Req_EM_T p 0); [lra|].
  assert (Hl : ln p <= p - 1) by (apply ln_le_minus1; lra).
  assert (p * ln p <= p * (p - 1)) by (apply Rmult_le_compat_l; lra).
  assert (p * (p - 1) <= 0). { assert (0 <= p * (1 - p)) by (apply Rmult_le_pos; lra). lra. }
  lra.
Qed.

Lemma plogp_zero p : 0 <= p <= 1 -> plogp p = 0 -> p = 0 \/ p = 1.
Proof.
  intros H E. unfold plogp in E. destruct (Req_EM_T p 0); [left; assumption|].
  right. apply Rmult_integral in E. destruct E as [E|E]; [lra|].
  apply ln_inv; [lra|lra|]. rewrite ln_1. exact E.
Qed.

Lemma entropy_nonneg ls k : ls <> nil -> 0 <= entropy ls k.
Proof.
  intros H. unfold entropy.
  assert (0 <= Rsum (map (fun c => - plogp (share ls c)) (seq 0 k))).
  { apply Rsum_nonneg. intros c _. pose proof (plogp_neg _ (share_range ls c H)). lra. }
  rewrite (Rsum_ext _ (fun c => -1 * plogp (share ls c))) in H0 by (intros; lra).
  rewrite Rsum_scal in H0. lra.
Qed.

Lemma entropy_zero ls k : ls <> nil -> Forall (fun c => c < k)%nat ls -> (entropy ls k = 0 <-> pure ls).
Proof.
  intros H Hk. rewrite (pure_shares ls k H Hk). unfold entropy. split.
  - intros E c Hc. apply plogp_zero; [apply share_range, H|].
    assert (Hz : - plogp (share ls c) = 0).
    { apply (Rsum_zero (fun c => - plogp (share ls c)) (seq 0 k)); [| |apply in_seq; lia].
      - intros x _. pose proof (plogp_neg _ (share_range ls x H)). lra.
      - rewrite (Rsum_ext _ (fun c => -1 * plogp (share ls c))) by (intros; lra).
        rewrite Rsum_scal. lra. }
    lra.
  - intros Hs. rewrite Rsum_all_zero; [lra|]. intros c Hc. apply in_seq in Hc. unfold plogp.
    destruct (Hs c ltac:(lia)) as [-> | ->]; destruct (Req_EM_T _ 0); try lra.
    rewrite ln_1. lra.
Qed.

(** Gibbs' inequality in the form needed: for q > 0, -p ln p <= -p ln q + q - p. *)
Lemma gibbs p q : 0 <= p -> 0 < q -> - plogp p <= - (p * ln q) + q - p.
Proof.
  intros Hp Hq. unfold plogp. destruct (Req_EM_T p 0) as [->|Hne]; [lra|].
  assert (Hp' : 0 < p) by lra.
  assert (Hl : ln (q / p) <= q / p - 1).
  { apply ln_le_minus1. apply Rdiv_lt_0_compat; assumption. }
  unfold Rdiv in Hl. rewrite ln_mult, ln_Rinv in Hl by (try apply Rinv_0_lt_compat; assumption).
  assert (H : p * (ln q + - ln p) <= p * (q * / p - 1)) by (apply Rmult_le_compat_l; lra).
  replace (p * (q * / p - 1)) with (q - p) in H by (field; lra). lra.
Qed.

Lemma entropy_upper ls k : ls <> nil -> Forall (fun c => c < k)%nat ls -> entropy ls k <= ln (INR k).
Proof.
  intros H Hk.
  assert (Hkp : 0 < INR k).
  { apply lt_0_INR. destruct ls as [|a ls]; [congruence|]. inversion Hk; lia. }
  unfold entropy.
  assert (Hle : Rsum (map (fun c => - plogp (share ls c)) (seq 0 k))
                <= Rsum (map (fun c => share ls c * (ln (INR k) - 1) + / INR k) (seq 0 k))).
  { apply Rsum_le. intros c _. pose proof (share_range ls c H).
    pose proof (gibbs (share ls c) (/ INR k) ltac:(lra) (Rinv_0_lt_compat _ Hkp)) as G.
    rewrite ln_Rinv in G by assumption. lra. }
  rewrite (Rsum_ext (fun c => - plogp (share ls c)) (fun c => -1 * plogp (share ls c))) in Hle by (intros; lra).
  rewrite Rsum_scal, Rsum_plus, Rsum_scal_r, Rsum_const, seq_length, sum_share in Hle by assumption.
  rewrite Rinv_r in Hle by lra. lra.
Qed.

Lemma entropy_perm a b k : Permutation a b -> entropy a k = entropy b k.
Proof. intros P. unfold entropy. f_equal. apply Rsum_ext. intros c _. rewrite (share_perm a b c P). reflexivity. Qed.

(** A split never increases the weighted entropy. *)
Lemma entropy_concave l r k : l <> nil -> r <> nil ->
  Forall (fun c => c < k)%nat l -> Forall (fun c => c < k)%nat r ->
  INR (length l) * entropy l k + INR (length r) * entropy r k <= INR (length (l ++ r)) * entropy (l ++ r) k.
Proof.
  intros Hl Hr Kl Kr. pose proof (len_pos l Hl) as Pl. pose proof (len_pos r Hr) as Pr.
  assert (Hn : (l ++ r)%list <> nil) by (destruct l; [congruence|discriminate]).
  pose proof (len_pos (l ++ r) Hn) as Pn.
  rewrite app_length, plus_INR in *.
  set (nl := INR (length l)) in *. set (nr := INR (length r)) in *.
  assert (Hmix : forall c, (nl + nr) * share (l ++ r) c = nl * share l c + nr * share r c).
  { intros c. unfold share. rewrite occurs_app, app_length, !plus_INR. fold nl nr. field. lra. }
  unfold entropy.
  assert (Hc : forall c, (c < k)%nat ->
     nl * - plogp (share l c) + nr * - plogp (share r c)
     <= (nl + nr) * - plogp (share (l ++ r) c)).
  { intros c _. pose proof (share_range l c Hl) as Sl. pose proof (share_range r c Hr) as Sr.
    pose proof (share_range (l ++ r) c Hn) as Sn. specialize (Hmix c).
    set (p := share l c) in *. set (q := share r c) in *. set (s := share (l ++ r) c) in *.
    destruct (Req_dec s 0) as [Es|Es].
    - rewrite Es in Hmix. rewrite Rmult_0_r in Hmix.
      assert (0 <= nl * p) by (apply Rmult_le_pos; lra).
      assert (0 <= nr * q) by (apply Rmult_le_pos; lra).
      assert (E1 : nl * p = 0) by lra. assert (E2 : nr * q = 0) by lra.
      apply Rmult_integral in E1. apply Rmult_integral in E2.
      assert (p = 0) by (destruct E1; lra). assert (q = 0) by (destruct E2; lra).
      unfold plogp. rewrite H1, H2, Es. destruct (Req_EM_T 0 0); lra.
    - assert (Hs : 0 < s) by lra.
      pose proof (gibbs p s ltac:(lra) Hs) as G1. pose proof (gibbs q s ltac:(lra) Hs) as G2.
      unfold plogp at 3. destruct (Req_EM_T s 0); [contradiction|].
      assert (nl * - plogp p <= nl * (- (p * ln s) + s - p)) by (apply Rmult_le_compat_l; lra).
      assert (nr * - plogp q <= nr * (- (q * ln s) + s - q)) by (apply Rmult_le_compat_l; lra).
      assert (E : nl * (- (p * ln s) + s - p) + nr * (- (q * ln s) + s - q)
                  = - ((nl * p + nr * q) * ln s) + (nl + nr) * s - (nl * p + nr * q)) by ring.
      rewrite <- Hmix in E. lra. }
  rewrite <- !Ropp_mult_distr_r, <- !Rsum_scal.
  assert (Hall : Rsum (map (fun c => nl * - plogp (share l c) + nr * - plogp (share r c)) (seq 0 k))
          <= Rsum (map (fun c => (nl + nr) * - plogp (share (l ++ r) c)) (seq 0 k))).
  { apply Rsum_le. intros c Hi. apply in_seq in Hi. apply Hc. lia. }
  rewrite Rsum_plus in Hall.
  rewrite (Rsum_ext (fun c => nl * - plogp (share l c)) (fun c => -1 * (nl * plogp (share l c)))) in Hall by (intros; lra).
  rewrite (Rsum_ext (fun c => nr * - plogp (share r c)) (fun c => -1 * (nr * plogp (share r c)))) in Hall by (intros; lra).
  rewrite (Rsum_ext (fun c => (nl + nr) * - plogp (share (l ++ r) c)) (fun c => -1 * ((nl + nr) * plogp (share (l ++ r) c)))) in Hall by (intros; lra).
  rewrite !(Rsum_scal _ (-1)) in Hall. lra.
Qed.

(** ** Squared deviations *)

Lemma sse_alt vs : vs <> nil -> sse vs = Rsum (map (fun v => v * v) vs) - Rsum vs * Rsum vs / INR (length vs).
Proof.
  intros H. pose proof (len_pos vs H) as Hp. unfold sse.
  set (m := mean vs).
  rewrite (Rsum_ext (fun v => (v - m) * (v - m)) (fun v => v * v + (v * (-2 * m) + m * m))) by (intros; ring).
  rewrite Rsum_plus, Rsum_plus, Rsum_scal_r, Rsum_const, map_id. unfold m, mean. field. lra.
Qed.

Lemma sse_nonneg vs : 0 <= sse vs.
Proof. unfold sse. apply Rsum_nonneg. intros; apply Rle_0_sqr. Qed.

Lemma sse_zero vs : vs <> nil -> (sse vs = 0 <-> constant_list vs).
Proof.
  intros H. pose proof (len_pos vs H) as Hp. split.
  - intros E a b Ha Hb.
    assert (Hz : forall x, In x vs -> x = mean vs).
    { intros x Hx. pose proof (Rsum_zero (fun v => (v - mean vs) * (v - mean vs)) vs
        (fun v _ => Rle_0_sqr (v - mean vs)) E x Hx) as Z. cbn in Z.
      apply Rmult_integral in Z. lra. }
    rewrite (Hz a Ha), (Hz b Hb). reflexivity.
  - intros Hc. destruct vs as [|v vs]; [congruence|].
    assert (Hall : forall x, In x (v :: vs) -> x = v) by (intros x Hx; apply Hc; [exact Hx|left; reflexivity]).
    assert (Hm : mean (v :: vs) = v).
    { unfold mean. rewrite <- (map_id (v :: vs)) at 1.
      rewrite (Rsum_ext (fun x => x) (fun _ => v) (v :: vs) Hall), Rsum_const. field. lra. }
    unfold sse. apply Rsum_all_zero. intros x Hx. rewrite Hm, (Hall x Hx). lra.
Qed.

Lemma sse_perm a b : Permutation a b -> sse a = sse b.
Proof.
  intros P. assert (Hm : mean a = mean b).
  { unfold mean. rewrite (Rsum_perm _ _ P), (Permutation_length P). reflexivity. }
  unfold sse. rewrite Hm. apply Rsum_perm, Permutation_map, P.
Qed.

Lemma sse_split l r : l <> nil -> r <> nil -> sse l + sse r <= sse (l ++ r).
Proof.
  intros Hl Hr. pose proof (len_pos l Hl). pose proof (len_pos r Hr).
  rewrite !sse_alt by (first [assumption | destruct l; [congruence|discriminate]]).
  rewrite map_app, !Rsum_app, app_length, plus_INR.
  pose proof (square_mix (Rsum l) (Rsum r) _ _ H H0). lra.
Qed.

(** ** Adding zero in float64 *)
Local Close Scope R_scope.

Definition unsigned (x : f64) : Prop :=
  match x with
  | S754_zero s | S754_infinity s | S754_finite s _ _ => s = false
  | S754_nan => True
  end.

Lemma binary_round_unsigned m e : unsigned (binary_round 53 1024 false m e).
Proof.
  unfold binary_round. destruct (shl_align m e _) as [mz ez].
  unfold binary_round_aux. destruct (shr_fexp 53 1024 (Zpos mz) ez loc_Exact) as [a b].
  destruct (shr_fexp 53 1024 _ b loc_Exact) as [c d].
  destruct (shr_m c); try reflexivity; try exact I. destruct (Z.leb d (1024 - 53)); reflexivity.
Qed.

Lemma unsigned_of_nat n : unsigned (f_of_Z (Z.of_nat n)).
Proof.
  unfold f_of_Z. destruct n as [|n]; [reflexivity|].
  change (Z.of_nat (S n)) with (Zpos (Pos.of_succ_nat n)). apply binary_round_unsigned.
Qed.

Lemma unsigned_add x y : unsigned x -> unsigned y -> unsigned (fadd x y).
Proof.
  unfold fadd. destruct x as [sx|sx| |sx mx ex]; destruct y as [sy|sy| |sy my ey]; cbn -[binary_normalize];
    intros Hx Hy; subst; cbn -[binary_normalize]; auto.
  apply binary_round_unsigned.
Qed.

Lemma unsigned_add0 x : unsigned x -> fadd x f0 = x.
Proof. unfold fadd. destruct x; cbn; intros; subst; reflexivity. Qed.

(** ** Incremental update of class counts *)

Section Incremental.
  Variable A : arith.

  (** Both ways of computing an impurity agree. *)
  Definition coherent (data : list nat) (imp : impurity A) (from : recount A) : Prop :=
    forall cases counter, imp cases counter
      = (let* c := CountPerCat data cases counter in let* e := from cases c in Ok (e, c)).

  Lemma split_from data imp from l r m k n : coherent data imp from ->
    labelled data n l -> labelled data n r ->
    (forall mm, m = Some mm -> labelled data n mm) ->
    length (kL k) = n -> length (kR k) = n -> length (kM k) = n ->
    SplitImpurity A imp l r m k
    = (let* il := from l (counts data n l) in
       let* ir := from r (counts data n r) in
       match has_m m with
       | Some mm =>
           let* im := from mm (counts data n mm) in
           Ok (ndiv A (nadd A (nadd A (nmul A (len A l) il) (nmul A (len A r) ir)) (nmul A (len A mm) im))
                      (nadd A (nadd A (len A l) (len A r)) (len A mm)),
               mkK (counts data n l) (counts data n r) (counts data n mm))
       | None =>
           Ok (ndiv A (nadd A (nmul A (len A l) il) (nmul A (len A r) ir))
                      (nadd A (nadd A (len A l) (len A r)) (nofZ A 0)),
               mkK (counts data n l) (counts data n r) (kM k))
       end).
  Proof.
    intros Hc Hl Hr Hm Kl Kr Km. unfold SplitImpurity. rewrite !Hc.
    rewrite !CountPerCat_ok by (rewrite ?Kl, ?Kr; assumption). rewrite Kl, Kr. cbn [bind].
    destruct (from l (counts data n l)) as [il| |]; cbn [bind]; auto.
    destruct (from r (counts data n r)) as [ir| |]; cbn [bind]; auto.
    destruct m as [[|c mm]|]; cbn [has_m]; auto.
    rewrite Hc, CountPerCat_ok by (rewrite Km; apply Hm; reflexivity). rewrite Km. cbn [bind].
    destruct (from (c :: mm) (counts data n (c :: mm))) as [im| |]; cbn [bind]; auto.
  Qed.

  Lemma has_m_some m mm : has_m m = Some mm -> m = Some mm.
  Proof. destruct m as [[|c l]|]; cbn; congruence. Qed.

  (** The counter for the missing cases is only looked at when there are some. *)
  Definition holds_m (data : list nat) (n : nat) (m : option (list nat)) (k : counters) : Prop :=
    match has_m m with Some mm => kM k = counts data n mm | None => True end.

  Lemma update_from data from l r l' r' moved m k n :
    labelled data n moved -> Permutation l' (l ++ moved) -> Permutation r (moved ++ r') ->
    kL k = counts data n l -> kR k = counts data n r -> holds_m data n m k ->
    UpdateSImp A data from l' r' m k moved
    = (let* il := from l' (counts data n l') in
       let* ir := from r' (counts data n r') in
       match has_m m with
       | Some mm =>
           let* im := from mm (counts data n mm) in
           Ok (ndiv A (nadd A (nadd A (nmul A (len A l') il) (nmul A (len A r') ir)) (nmul A (len A mm) im))
                      (nadd A (nadd A (len A l') (len A r')) (len A mm)),
               mkK (counts data n l') (counts data n r') (kM k))
       | None =>
           Ok (ndiv A (nadd A (nmul A (len A l') il) (nmul A (len A r') ir))
                      (nadd A (nadd A (len A l') (len A r')) (nofZ A 0)),
               mkK (counts data n l') (counts data n r') (kM k))
       end).
  Proof.
    intros Hm Pl Pr Kl Kr Km. unfold UpdateSImp. rewrite Kl, Kr.
    rewrite (MoveCounts_perm data n moved l r l' r' Hm Pl Pr). cbn [bind].
    destruct (from l' (counts data n l')) as [il| |]; cbn [bind]; auto.
    destruct (from r' (counts data n r')) as [ir| |]; cbn [bind]; auto.
    unfold holds_m in Km. destruct (has_m m) as [mm|]; auto. rewrite Km. reflexivity.
  Qed.

  Lemma update_gini_from data from l r l' r' moved m k n :
    labelled data n moved -> Permutation l' (l ++ moved) -> Permutation r (moved ++ r') ->
    kL k = counts data n l -> kR k = counts data n r -> holds_m data n m k ->
    UpdateSImp_gini A data from l' r' m k moved
    = (let* il := from l' (counts data n l') in
       let* ir := from r' (counts data n r') in
       match has_m m with
       | Some mm =>
           let* im := from mm (counts data n mm) in
           Ok (ndiv A (nadd A (nadd A (nmul A (len A l') il) (nmul A (len A r') ir)) (nmul A (len A mm) im))
                      (nadd A (nadd A (len A l') (len A mm)) (len A r')),
               mkK (counts data n l') (counts data n r') (kM k))
       | None =>
           Ok (ndiv A (nadd A (nmul A (len A l') il) (nmul A (len A r') ir))
                      (nadd A (len A l') (len A r')),
               mkK (counts data n l') (counts data n r') (kM k))
       end).
  Proof.
    intros Hm Pl Pr Kl Kr Km. unfold UpdateSImp_gini. rewrite Kl, Kr.
    rewrite (MoveCounts_perm data n moved l r l' r' Hm Pl Pr). cbn [bind].
    destruct (from l' (counts data n l')) as [il| |]; cbn [bind]; auto.
    destruct (from r' (counts data n r')) as [ir| |]; cbn [bind]; auto.
    unfold holds_m in Km. destruct (has_m m) as [mm|]; auto. rewrite Km. reflexivity.
  Qed.
End Incremental.

(** ** Loops at XR *)

Lemma xr_sub_loop (cs : list Z) (g : Z -> R) (f : xr -> Z -> xr) :
  (forall a i, In i cs -> f (Some a) i = Some (a - g i)%R) ->
  forall a, fold_left f cs (Some a) = Some (a - Rsum (map g cs))%R.
Proof.
  induction cs as [|i cs IH]; intros H a; cbn [fold_left map Rsum].
  - f_equal. lra.
  - rewrite H by (left; reflexivity). rewrite IH; [f_equal; lra|].
    intros; apply H; right; assumption.
Qed.

Lemma foreach_fold {B St} (l : list B) (f : St -> B -> St) s :
  foreach l (fun a s => Ok (f s a)) s = Ok (fold_left f l s).
Proof. revert s. induction l as [|a l IH]; intros s; cbn; [reflexivity|]. apply IH. Qed.

Lemma foreach_ext {B St} (l : list B) (f g : B -> St -> res St) s :
  (forall a s, In a l -> f a s = g a s) -> foreach l f s = foreach l g s.
Proof.
  revert s. induction l as [|a l IH]; intros s H; cbn; [reflexivity|].
  rewrite H by (left; reflexivity). destruct (g a s); cbn [bind]; auto.
  apply IH. intros; apply H; right; assumption.
Qed.

(** The scan for a maximum: first strictly larger value wins. *)
Section Scan.
  Variable T : Type.
  Variable lt : T -> T -> bool.
  Variable good : T -> Prop.
  Hypothesis le_trans : forall x y z, good x -> good y -> good z ->
    lt y x = false -> lt z y = false -> lt z x = false.
  Hypothesis le_lt_trans : forall x y z, good x -> good y -> good z ->
    lt y x = false -> lt y z = true -> lt x z = true.
  Hypothesis lt_asym : forall x y, good x -> good y -> lt x y = true -> lt y x = false.
  Hypothesis lt_irrefl : forall x, good x -> lt x x = false.

  Fixpoint scan (v : nat -> T) (k n m : nat) (x : T) : nat * T :=
    match n with
    | 0 => (m, x)
    | S n' => if lt x (v k) then scan v (S k) n' k (v k) else scan v (S k) n' m x
    end.

  Lemma scan_spec v n : forall k m x m' x', good x -> (forall j, k <= j < k + n -> good (v j)) ->
    scan v k n m x = (m', x') ->
    (m' = m /\ x' = x /\ forall j, k <= j < k + n -> lt x (v j) = false)
    \/ (k <= m' < k + n /\ x' = v m' /\ lt x (v m') = true
        /\ (forall j, k <= j < k + n -> lt (v m') (v j) = false)
        /\ (forall j, k <= j < m' -> lt (v j) (v m') = true)).
  Proof.
    induction n as [|n IH]; intros k m x m' x' Gx Gv E; cbn in E.
    - inversion E; subst. left. split; [reflexivity|split; [reflexivity|intros; lia]].
    - assert (Gk : good (v k)) by (apply Gv; lia).
      assert (Gv' : forall j, S k <= j < S k + n -> good (v j)) by (intros; apply Gv; lia).
      destruct (lt x (v k)) eqn:C.
      + apply IH in E; [|assumption|assumption]. right.
        destruct E as [(-> & -> & H)|(H1 & -> & H2 & H3 & H4)].
        * split; [lia|split; [reflexivity|split; [exact C|split; intros j Hj]]]; [|lia].
          destruct (Nat.eq_dec j k) as [->|]; [apply lt_irrefl; assumption|apply H; lia].
        * assert (Gm : good (v m')) by (apply Gv; lia).
          split; [lia|split; [reflexivity|split; [|split; intros j Hj]]].
          -- apply le_lt_trans with (v k); auto.
          -- destruct (Nat.eq_dec j k) as [->|]; [apply lt_asym; auto|apply H3; lia].
          -- destruct (Nat.eq_dec j k) as [->|]; [auto|apply H4; lia].
      + apply IH in E; [|assumption|assumption].
        destruct E as [(-> & -> & H)|(H1 & -> & H2 & H3 & H4)].
        * left. split; [reflexivity|split; [reflexivity|intros j Hj]].
          destruct (Nat.eq_dec j k) as [->|]; [assumption|apply H; lia].
        * assert (Gm : good (v m')) by (apply Gv; lia).
          right. split; [lia|split; [reflexivity|split; [assumption|split; intros j Hj]]].
          -- destruct (Nat.eq_dec j k) as [->|]; [|apply H3; lia].
             apply le_trans with x; auto.
          -- destruct (Nat.eq_dec j k) as [->|]; [|apply H4; lia].
             apply le_lt_trans with x; auto.
  Qed.

  Lemma scan_first_max v k z m' x' : 0 < k -> good z -> (forall c, c < k -> good (v c)) ->
    (forall c, c < k -> lt (v c) z = false) ->
    scan v 0 k 0 z = (m', x') ->
    m' < k /\ (forall c, c < k -> lt (v m') (v c) = false) /\ (forall c, c < m' -> lt (v c) (v m') = true).
  Proof.
    intros Hk Gz Gv Hz E. apply scan_spec in E; [|assumption|intros; apply Gv; lia].
    destruct E as [(-> & _ & H)|(H1 & _ & _ & H3 & H4)].
    - split; [lia|split; [|intros; lia]]. intros c Hc.
      apply le_trans with z; auto. apply H; lia.
    - split; [lia|split; intros c Hc; [apply H3|apply H4]; lia].
  Qed.

  Lemma scan_loop {B} (v : nat -> T) (body : nat * B -> nat * T -> res (nat * T)) (l : list B) :
    forall k, (forall i t m x, In (i, t) (indexed k l) ->
       body (i, t) (m, x) = Ok (if lt x (v i) then (i, v i) else (m, x))) ->
    forall m x, foreach (indexed k l) body (m, x) = Ok (scan v k (length l) m x).
  Proof.
    induction l as [|a l IH]; intros k H m x; cbn [indexed foreach length scan]; [reflexivity|].
    rewrite H by (left; reflexivity). cbn [bind].
    destruct (lt x (v k)); rewrite IH; auto; intros; apply H; right; assumption.
  Qed.
End Scan.

Lemma indexed_in {T} (l : list T) : forall k i t, In (i, t) (indexed k l) -> k <= i /\ nth_error l (i - k) = Some t.
Proof.
  induction l as [|a l IH]; intros k i t H; [destruct H|]. cbn in H. destruct H as [H|H].
  - inversion H; subst. rewrite Nat.sub_diag. split; [lia|reflexivity].
  - apply IH in H. destruct H as [H1 H2]. split; [lia|].
    replace (i - k) with (S (i - S k)) by lia. exact H2.
Qed.

(** Sum loops over an indexed counter. *)
Lemma sum_loop {T} (g : nat -> T -> R) (body : nat * T -> xr -> res xr) (l : list T) :
  forall k, (forall i t x, In (i, t) (indexed k l) -> body (i, t) (Some x) = Ok (Some (x + g i t)%R)) ->
  forall x, foreach (indexed k l) body (Some x)
    = Ok (Some (x + Rsum (map (fun '(i, t) => g i t) (indexed k l)))%R).
Proof.
  induction l as [|a l IH]; intros k H x; cbn [indexed foreach map Rsum].
  - do 2 f_equal. lra.
  - rewrite H by (left; reflexivity). cbn [bind]. rewrite IH.
    + do 2 f_equal. lra.
    + intros; apply H; right; assumption.
Qed.

Lemma indexed_map_seq {T} (f : nat -> T) n : forall k,
  indexed k (map f (seq k n)) = map (fun c => (c, f c)) (seq k n).
Proof. induction n as [|n IH]; intros k; cbn; [reflexivity|]. f_equal. apply IH. Qed.

Lemma IZR_of_nat n : IZR (Z.of_nat n) = INR n.
Proof. symmetry. apply INR_IZR_INZ. Qed.

(** The two orders used with [scan]. *)
Lemma f_le_trans x y z : nn x -> nn y -> nn z -> fltb y x = false -> fltb z y = false -> fltb z x = false.
Proof.
  intros Hx Hy Hz H1 H2. apply flt_not_le in H1; auto. apply flt_not_le in H2; auto.
  destruct (fltb z x) eqn:E; auto.
  pose proof (fle_trans _ _ _ H1 H2) as H3. pose proof (flt_le_trans _ _ _ E H3) as H4.
  rewrite flt_irrefl in H4. discriminate.
Qed.
Lemma f_le_lt_trans x y z : nn x -> nn y -> nn z -> fltb y x = false -> fltb y z = true -> fltb x z = true.
Proof. intros Hx Hy Hz H1 H2. apply flt_not_le in H1; auto. eapply fle_lt_trans; eauto. Qed.
Lemma f_lt_asym x y : nn x -> nn y -> fltb x y = true -> fltb y x = false.
Proof.
  intros Hx Hy H. destruct (fltb y x) eqn:E; auto.
  pose proof (flt_trans _ _ _ H E) as H4. rewrite flt_irrefl in H4. discriminate.
Qed.
Definition f_scan_max := scan_first_max f64 fltb nn f_le_trans f_le_lt_trans f_lt_asym (fun x _ => flt_irrefl x).

Definition is_some (x : xr) : Prop := exists a, x = Some a.
Lemma x_le_trans (x y z : xr) : is_some x -> is_some y -> is_some z ->
  nltb XR y x = false -> nltb XR z y = false -> nltb XR z x = false.
Proof.
  intros [a ->] [b ->] [c ->]. cbn. rewrite !Rltb_false. lra.
Qed.
Lemma x_le_lt_trans (x y z : xr) : is_some x -> is_some y -> is_some z ->
  nltb XR y x = false -> nltb XR y z = true -> nltb XR x z = true.
Proof. intros [a ->] [b ->] [c ->]. cbn. rewrite Rltb_false, !Rltb_true. lra. Qed.
Lemma x_lt_asym (x y : xr) : is_some x -> is_some y -> nltb XR x y = true -> nltb XR y x = false.
Proof. intros [a ->] [b ->]. cbn. rewrite Rltb_false, !Rltb_true. lra. Qed.
Lemma x_lt_irrefl (x : xr) : is_some x -> nltb XR x x = false.
Proof. intros [a ->]. cbn. rewrite Rltb_false. lra. Qed.
Definition x_scan_max := scan_first_max xr (nltb XR) is_some x_le_trans x_le_lt_trans x_lt_asym x_lt_irrefl.
