(** Rounding in float64, read on the integers: every valid float is an integer
    number of units 2^-1074 (its [key]), the order of floats is the order of keys,
    and addition and halving round the exact result with one monotone function. *)
From Verif Require Import Go F64 F64Order.
Local Open Scope Z_scope.

(** Floats in canonical form; the only ones the operations produce. *)
Definition valid (x : f64) : Prop := valid_binary 53 1024 x = true.

Definition INF : Z := 2 ^ 2098.

Definition key (x : f64) : Z :=
  match x with
  | S754_finite s m e => cond_Zopp s (Zpos m * 2 ^ (e + 1074))
  | S754_infinity s => cond_Zopp s INF
  | _ => 0
  end.

(** Rounding of V quarter units to a number of units with 53 significant bits. *)
Definition kof (V : Z) : Z := Z.max 0 (Z.log2 V - 54).
Definition rup (k V : Z) : Z :=
  let q := V / 2 ^ (k + 2) in
  q + (if Z.odd (V / 2 ^ (k + 1)) && (negb (V mod 2 ^ (k + 1) =? 0) || Z.odd q) then 1 else 0).
Definition rnd4 (V : Z) : Z := rup (kof V) V * 2 ^ kof V.

(** ... with overflow and sign. *)
Definition RND4 (V : Z) : Z :=
  if V <? 0 then - Z.min INF (rnd4 (- V)) else Z.min INF (rnd4 V).

Lemma digits_log2 p : Zpos (digits2_pos p) = Z.log2 (Zpos p) + 1.
Proof.
  assert (E : forall q, digits2_pos q = Pos.size q) by (induction q; cbn; congruence).
  rewrite E. destruct p; cbn; try reflexivity; rewrite Pos2Z.inj_succ; reflexivity.
Qed.

(** Rounding to a fixed number of bits *)
Lemma rup_cases k V : 0 <= k -> 0 <= V ->
  let P := 2 ^ (k + 1) in
  exists q R, V = 2 * P * q + R /\ 0 <= R < 2 * P /\ 0 <= q /\ q = V / 2 ^ (k + 2) /\
    rup k V = q + (if R <? P then 0 else if R =? P then (if Z.odd q then 1 else 0) else 1).
Proof.
  intros Hk HV P.
  assert (HP : 0 < P) by (apply Z.pow_pos_nonneg; lia).
  assert (E2 : 2 ^ (k + 2) = 2 * P).
  { unfold P. replace (k + 2) with (1 + (k + 1)) by lia. rewrite Z.pow_add_r by lia. reflexivity. }
  set (q := V / 2 ^ (k + 2)). set (R := V mod 2 ^ (k + 2)).
  assert (HR : 0 <= R < 2 * P) by (unfold R; rewrite E2; apply Z.mod_pos_bound; lia).
  assert (EV : V = 2 * P * q + R) by (unfold q, R; rewrite E2; apply Z.div_mod; lia).
  exists q, R. split; auto. split; auto. split; [apply Z.div_pos; [lia|apply Z.pow_pos_nonneg; lia]|].
  split; auto. unfold rup. fold q P.
  destruct (R <? P) eqn:C.
  - apply Z.ltb_lt in C.
    assert (D : V / P = 2 * q) by (symmetry; apply Z.div_unique with R; lia).
    rewrite D, Z.odd_mul. reflexivity.
  - apply Z.ltb_ge in C.
    assert (D : V / P = 2 * q + 1) by (symmetry; apply Z.div_unique with (R - P); lia).
    assert (M : V mod P = R - P) by (symmetry; apply Z.mod_unique with (2 * q + 1); lia).
    rewrite D, M, Z.odd_add, Z.odd_mul. cbn [Z.odd xorb andb].
    destruct (R =? P) eqn:E.
    + apply Z.eqb_eq in E. replace (R - P =? 0) with true by (symmetry; apply Z.eqb_eq; lia). cbn.
      destruct (Z.odd q); reflexivity.
    + apply Z.eqb_neq in E. replace (R - P =? 0) with false by (symmetry; apply Z.eqb_neq; lia). reflexivity.
Qed.

Lemma rup_mono k U V : 0 <= k -> 0 <= U <= V -> rup k U <= rup k V.
Proof.
  intros Hk H.
  destruct (rup_cases k U Hk ltac:(lia)) as (q & R & E & B & Q & _ & ->).
  destruct (rup_cases k V Hk ltac:(lia)) as (q' & R' & E' & B' & Q' & _ & ->).
  set (P := 2 ^ (k + 1)) in *. assert (HP : 0 < P) by (apply Z.pow_pos_nonneg; lia).
  assert (Hq : q < q' \/ (q = q' /\ R <= R')).
  { destruct (Z.lt_trichotomy q q') as [|[->|L]]; [auto|right; split; auto; lia|].
    exfalso. assert (2 * P * (q' + 1) <= 2 * P * q) by (apply Z.mul_le_mono_nonneg_l; lia). lia. }
  destruct Hq as [Hq|[-> Hr]].
  - destruct (R <? P), (R =? P), (Z.odd q), (R' <? P), (R' =? P), (Z.odd q'); lia.
  - destruct (Z.ltb_spec R P), (Z.ltb_spec R' P), (Z.eqb_spec R P), (Z.eqb_spec R' P), (Z.odd q'); lia.
Qed.

Lemma rup_bounds k V : 0 <= k -> 0 <= V -> V / 2 ^ (k + 2) <= rup k V <= V / 2 ^ (k + 2) + 1.
Proof.
  intros. destruct (rup_cases k V) as (q & R & E & B & Q & <- & ->); auto.
  destruct (R <? 2 ^ (k + 1)), (R =? 2 ^ (k + 1)), (Z.odd q); lia.
Qed.

Lemma kof_nonneg V : 0 <= kof V.
Proof. unfold kof. lia. Qed.

Lemma quo_lt V : 0 <= V -> V / 2 ^ (kof V + 2) < 2 ^ 53.
Proof.
  intros H. pose proof (kof_nonneg V).
  apply Z.div_lt_upper_bound; [apply Z.pow_pos_nonneg; lia|].
  rewrite <- Z.pow_add_r by lia.
  destruct (Z.eq_dec V 0) as [->|]; [apply Z.pow_pos_nonneg; lia|].
  eapply Z.lt_le_trans; [apply Z.log2_spec; lia|]. apply Z.pow_le_mono_r; unfold kof; lia.
Qed.

Lemma quo_ge V : 0 < kof V -> 2 ^ 52 <= V / 2 ^ (kof V + 2).
Proof.
  intros H. apply Z.div_le_lower_bound; [apply Z.pow_pos_nonneg; lia|].
  rewrite <- Z.pow_add_r by lia. unfold kof in *.
  assert (0 < V). { destruct (Z.le_gt_cases V 0); auto. rewrite Z.log2_nonpos in H by lia. lia. }
  eapply Z.le_trans; [|apply (Z.log2_spec V); auto]. apply Z.pow_le_mono_r; lia.
Qed.

Lemma kof_mono U V : U <= V -> kof U <= kof V.
Proof. intros. pose proof (Z.log2_le_mono U V H). unfold kof. lia. Qed.

Lemma rnd4_mono U V : 0 <= U <= V -> rnd4 U <= rnd4 V.
Proof.
  intros H. unfold rnd4. pose proof (kof_nonneg U). pose proof (kof_mono U V ltac:(lia)).
  destruct (Z.eq_dec (kof U) (kof V)) as [E|N].
  - rewrite <- E. apply Z.mul_le_mono_nonneg_r; [apply Z.pow_nonneg; lia|]. apply rup_mono; auto.
  - pose proof (rup_bounds (kof U) U ltac:(lia) ltac:(lia)).
    pose proof (rup_bounds (kof V) V ltac:(lia) ltac:(lia)).
    pose proof (quo_lt U ltac:(lia)). pose proof (quo_ge V ltac:(lia)).
    apply Z.le_trans with (2 ^ 53 * 2 ^ kof U).
    { apply Z.mul_le_mono_nonneg_r; [apply Z.pow_nonneg; lia|]. lia. }
    apply Z.le_trans with (2 ^ 52 * 2 ^ kof V).
    2:{ apply Z.mul_le_mono_nonneg_r; [apply Z.pow_nonneg; lia|]. lia. }
    rewrite <- !Z.pow_add_r by lia. apply Z.pow_le_mono_r; lia.
Qed.

Lemma rnd4_nonneg V : 0 <= V -> 0 <= rnd4 V.
Proof.
  intros H. unfold rnd4. pose proof (kof_nonneg V).
  pose proof (rup_bounds (kof V) V ltac:(lia) H).
  pose proof (Z.div_pos V (2 ^ (kof V + 2)) H ltac:(apply Z.pow_pos_nonneg; lia)).
  apply Z.mul_nonneg_nonneg; [lia|apply Z.pow_nonneg; lia].
Qed.

Lemma INF_pos : 0 < INF.
Proof. unfold INF. apply Z.pow_pos_nonneg; lia. Qed.

Lemma RND4_mono U V : U <= V -> RND4 U <= RND4 V.
Proof.
  intros H. unfold RND4. pose proof INF_pos.
  destruct (Z.ltb_spec U 0), (Z.ltb_spec V 0); try lia.
  - pose proof (rnd4_mono (- V) (- U)). lia.
  - pose proof (rnd4_nonneg (- U)). pose proof (rnd4_nonneg V). lia.
  - pose proof (rnd4_mono U V). lia.
Qed.

Lemma RND4_opp V : RND4 (- V) = - RND4 V.
Proof.
  unfold RND4. destruct (Z.ltb_spec (- V) 0), (Z.ltb_spec V 0); try lia.
  - rewrite Z.opp_involutive. lia.
  - assert (V = 0) by lia. subst. reflexivity.
Qed.

(** Numbers with 53 significant bits are left alone. *)
Definition short (n : Z) : Prop := exists m j, n = m * 2 ^ j /\ 0 <= j /\ - 2 ^ 53 < m < 2 ^ 53.

Lemma rnd4_short n : 0 <= n -> short n -> rnd4 (4 * n) = n.
Proof.
  intros Hn (m & j & E & Hj & Hm).
  destruct (Z.eq_dec n 0) as [->|Hn0]; [reflexivity|].
  assert (Pj : 0 < 2 ^ j) by (apply Z.pow_pos_nonneg; lia).
  assert (0 < m). { destruct (Z.le_gt_cases m 0); auto. exfalso. assert (m * 2 ^ j <= 0) by (apply Z.mul_nonpos_nonneg; lia). lia. }
  assert (Hk : kof (4 * n) <= j).
  { unfold kof. replace (4 * n) with (m * 2 ^ (j + 2)).
    2:{ rewrite Z.pow_add_r by lia. rewrite E. change (2 ^ 2) with 4. ring. }
    rewrite Z.log2_mul_pow2 by lia.
    assert (Z.log2 m < 53) by (apply Z.log2_lt_pow2; lia). lia. }
  pose proof (kof_nonneg (4 * n)). set (k := kof (4 * n)) in *.
  assert (Pk : 0 < 2 ^ k) by (apply Z.pow_pos_nonneg; lia).
  set (h := m * 2 ^ (j - k)).
  assert (En : n = h * 2 ^ k).
  { unfold h. rewrite <- Z.mul_assoc, <- Z.pow_add_r by lia. replace (j - k + k) with j by lia. auto. }
  assert (E4 : 4 * n = h * 2 ^ (k + 2)).
  { rewrite En, Z.pow_add_r by lia. change (2 ^ 2) with 4. ring. }
  unfold rnd4. fold k.
  destruct (rup_cases k (4 * n) ltac:(lia) ltac:(lia)) as (q & R & EV & B & Q & Eq & ->).
  assert (q = h). { rewrite Eq, E4. apply Z.div_mul. apply Z.pow_nonzero; lia. }
  assert (R = 0).
  { replace (k + 2) with (1 + (k + 1)) in E4 by lia. rewrite Z.pow_add_r in E4 by lia. change (2 ^ 1) with 2 in E4. subst q. lia. }
  subst R. replace (0 <? 2 ^ (k + 1)) with true by (symmetry; apply Z.ltb_lt; apply Z.pow_pos_nonneg; lia).
  rewrite Z.add_0_r, En. f_equal; auto.
Qed.

Lemma short_opp n : short n -> short (- n).
Proof. intros (m & j & -> & Hj & Hm). exists (- m), j. lia. Qed.

Lemma RND4_short n : short n -> - INF <= n <= INF -> RND4 (4 * n) = n.
Proof.
  intros Hs Hb. unfold RND4. destruct (Z.ltb_spec (4 * n) 0).
  - replace (- (4 * n)) with (4 * - n) by lia. rewrite rnd4_short; [lia|lia|apply short_opp; auto].
  - rewrite rnd4_short; [lia|lia|auto].
Qed.

(** The shift register of SpecFloat *)
Definition lcode (l : location) : Z :=
  match l with
  | loc_Exact => 0
  | loc_Inexact Lt => 1
  | loc_Inexact Eq => 2
  | loc_Inexact Gt => 3
  end.

Lemma lcode_bounds l : 0 <= lcode l < 4.
Proof. destruct l as [|[]]; cbn; lia. Qed.

Definition reads (M k : Z) (r : shr_record) : Prop :=
  shr_m r = M / 2 ^ (k + 1) /\ shr_r r = Z.odd (M / 2 ^ k) /\ shr_s r = negb (M mod 2 ^ k =? 0).

Lemma reads_init m l : 0 <= m -> reads (4 * m + lcode l) 1 (shr_record_of_loc m l).
Proof.
  intros Hm. unfold reads. change (2 ^ (1 + 1)) with 4. change (2 ^ 1) with 2.
  assert (B : 0 <= lcode l < 4) by (pose proof (lcode_bounds l); lia).
  assert (E1 : (4 * m + lcode l) / 4 = m) by (symmetry; apply Z.div_unique with (lcode l); lia).
  rewrite E1.
  assert (E2 : (4 * m + lcode l) / 2 = 2 * m + lcode l / 2).
  { replace (4 * m + lcode l) with (lcode l + (2 * m) * 2) by lia. rewrite Z.div_add by lia. lia. }
  assert (E3 : (4 * m + lcode l) mod 2 = lcode l mod 2).
  { replace (4 * m + lcode l) with (lcode l + (2 * m) * 2) by lia. apply Z.mod_add; lia. }
  rewrite E2, E3, Z.odd_add, Z.odd_mul. destruct l as [|[]]; cbn; auto.
Qed.

Lemma shr_1_pos m r s : 0 <= m ->
  shr_1 (Build_shr_record m r s) = Build_shr_record (m / 2) (Z.odd m) (r || s).
Proof.
  intros H. destruct m as [|[p|p|]|p]; try reflexivity; try lia; cbn [shr_1 Z.odd]; f_equal.
  - apply Z.div_unique with 1; lia.
  - apply Z.div_unique with 0; lia.
Qed.

Lemma reads_step M k r : 0 <= M -> 0 <= k -> reads M k r -> reads M (k + 1) (shr_1 r).
Proof.
  intros HM Hk (E1 & E2 & E3). destruct r as [m ro s]. cbn in E1, E2, E3.
  assert (P : 0 < 2 ^ k) by (apply Z.pow_pos_nonneg; lia).
  assert (Es : 2 ^ (k + 1) = 2 ^ k * 2) by (rewrite Z.pow_add_r by lia; reflexivity).
  rewrite shr_1_pos by (rewrite E1; apply Z.div_pos; lia).
  unfold reads. cbn.
  assert (D2 : 2 ^ (k + 1 + 1) = 2 ^ (k + 1) * 2) by (rewrite (Z.pow_add_r 2 (k + 1)) by lia; reflexivity).
  split; [|split].
  - rewrite D2, E1, Z.div_div by lia. reflexivity.
  - rewrite E1. reflexivity.
  - rewrite E2, E3, Es. rewrite Z.rem_mul_r by lia.
    set (a := M mod 2 ^ k) in *. assert (0 <= a) by (apply Z.mod_pos_bound; lia).
    rewrite (Zmod_odd (M / 2 ^ k)).
    destruct (Z.odd (M / 2 ^ k)); cbn.
    + replace (a + 2 ^ k * 1 =? 0) with false by (symmetry; apply Z.eqb_neq; lia). reflexivity.
    + f_equal. f_equal. lia.
Qed.

Lemma reads_iter M p : 0 <= M -> forall k r, 0 <= k -> reads M k r -> reads M (k + Zpos p) (iter_pos shr_1 p r).
Proof.
  intros HM. induction p; intros k r Hk H; cbn [iter_pos].
  - replace (k + Zpos p~1) with (k + 1 + Zpos p + Zpos p) by lia.
    apply IHp; [lia|]. apply IHp; [lia|]. apply reads_step; auto.
  - replace (k + Zpos p~0) with (k + Zpos p + Zpos p) by lia.
    apply IHp; [lia|]. apply IHp; [lia|]. auto.
  - apply reads_step; auto.
Qed.

Lemma shr_reads m l e n : 0 <= m -> 0 <= n ->
  reads (4 * m + lcode l) (1 + n) (fst (shr (shr_record_of_loc m l) e n)) /\
  snd (shr (shr_record_of_loc m l) e n) = e + n.
Proof.
  intros Hm Hn. destruct n as [|p|p]; [| |lia].
  - cbn [shr fst snd]. rewrite !Z.add_0_r. split; auto. apply reads_init; auto.
  - cbn [shr fst snd]. split; auto. apply reads_iter; [pose proof (lcode_bounds l); lia|lia|apply reads_init; auto].
Qed.

Lemma round_reads M k r : 0 <= M -> 0 <= k -> reads M (k + 1) r ->
  round_nearest_even (shr_m r) (loc_of_shr_record r) = rup k M.
Proof.
  intros HM Hk (E1 & E2 & E3). destruct r as [m ro s]. cbn in E1, E2, E3.
  replace (k + 1 + 1) with (k + 2) in E1 by lia. unfold rup. rewrite <- E1, <- E2.
  replace (M mod 2 ^ (k + 1) =? 0) with (negb s) by (rewrite E3, negb_involutive; reflexivity).
  rewrite negb_involutive. cbn. destruct ro, s; cbn; try lia.
  rewrite <- Z.negb_odd. destruct (Z.odd m); cbn; lia.
Qed.

Lemma rup_scale k M d : 0 <= k -> 0 <= d -> rup (k + d) (M * 2 ^ d) = rup k M.
Proof.
  intros Hk Hd. unfold rup.
  assert (0 < 2 ^ d) by (apply Z.pow_pos_nonneg; lia).
  assert (0 < 2 ^ (k + 1)) by (apply Z.pow_pos_nonneg; lia).
  assert (0 < 2 ^ (k + 2)) by (apply Z.pow_pos_nonneg; lia).
  replace (k + d + 2) with (k + 2 + d) by lia. replace (k + d + 1) with (k + 1 + d) by lia.
  rewrite !(Z.pow_add_r 2 _ d) by lia.
  rewrite !Z.div_mul_cancel_r by lia. rewrite Z.mul_mod_distr_r by lia.
  replace (M mod 2 ^ (k + 1) * 2 ^ d =? 0) with (M mod 2 ^ (k + 1) =? 0); auto.
  pose proof (Z.mod_pos_bound M (2 ^ (k + 1)) ltac:(lia)).
  destruct (Z.eqb_spec (M mod 2 ^ (k + 1)) 0) as [->|]; symmetry; [apply Z.eqb_eq; lia|].
  apply Z.eqb_neq. intros E. apply Z.mul_eq_0 in E. lia.
Qed.

Lemma fexp_eq e : fexp 53 1024 e = Z.max (e - 53) (-1074).
Proof. reflexivity. Qed.

(** Rounding: the result is canonical, a number, and the rounded value. *)
Definition rounds_to (r : f64) (s : bool) (V : Z) : Prop :=
  valid r /\ is_nan r = false /\ key r = cond_Zopp s (Z.min INF (rnd4 V)).

Lemma round_aux s m e l : 0 <= m -> -1074 <= e -> e <= fexp 53 1024 (Zdigits2 m + e) ->
  rounds_to (binary_round_aux 53 1024 s m e l) s ((4 * m + lcode l) * 2 ^ (e + 1074)).
Proof.
  intros Hm He Hf. set (M := 4 * m + lcode l). set (d := e + 1074). set (V := M * 2 ^ d).
  assert (HM : 0 <= M) by (pose proof (lcode_bounds l); lia).
  assert (HML : lcode l < 4) by (pose proof (lcode_bounds l); lia).
  assert (Hlc : 0 <= lcode l) by (pose proof (lcode_bounds l); lia).
  assert (Pd : 0 < 2 ^ d) by (apply Z.pow_pos_nonneg; lia).
  assert (Hk : kof V = fexp 53 1024 (Zdigits2 m + e) + 1074).
  { rewrite fexp_eq in *. destruct m as [|p|p]; [| |lia].
    - cbn [Zdigits2] in *. assert (e = -1074) by lia. subst e. unfold V, d, M. cbn.
      destruct l as [|[]]; reflexivity.
    - cbn [Zdigits2] in *. rewrite digits_log2 in *. unfold kof, V.
      rewrite Z.log2_mul_pow2 by lia.
      assert (El : Z.log2 M = Z.log2 (Zpos p) + 2).
      { apply Z.log2_unique; [pose proof (Z.log2_nonneg (Zpos p)); lia|].
        pose proof (Z.log2_spec (Zpos p) ltac:(lia)). pose proof (Z.log2_nonneg (Zpos p)).
        set (g := Z.log2 (Zpos p)) in *.
        replace (Z.succ (g + 2)) with (Z.succ g + 2) by lia. rewrite !(Z.pow_add_r 2 _ 2) by lia.
        change (2 ^ 2) with 4. unfold M. lia. }
      rewrite El. unfold d. lia. }
  set (n := fexp 53 1024 (Zdigits2 m + e) - e).
  destruct (shr_reads m l e n) as [R1 R2]; [auto|unfold n; lia|].
  unfold binary_round_aux, shr_fexp at 1. fold n.
  destruct (shr (shr_record_of_loc m l) e n) as [mrs e'] eqn:Es. cbn [fst snd] in R1, R2.
  replace (1 + n) with (n + 1) in R1 by lia.
  rewrite (round_reads M n mrs HM ltac:(unfold n; lia) R1).
  assert (Hq : rup n M = rup (kof V) V).
  { unfold V at 2. rewrite <- (rup_scale n M d) by (unfold n; lia). f_equal. unfold n, d. lia. }
  rewrite Hq. set (q := rup (kof V) V).
  assert (HV : 0 <= V) by (apply Z.mul_nonneg_nonneg; lia).
  pose proof (kof_nonneg V) as K0. pose proof (rup_bounds (kof V) V K0 HV) as QB. fold q in QB.
  pose proof (quo_lt V HV) as QL. pose proof (quo_ge V) as QG.
  pose proof (Z.div_pos V (2 ^ (kof V + 2)) HV ltac:(apply Z.pow_pos_nonneg; lia)) as Q0.
  assert (Er : rnd4 V = q * 2 ^ kof V) by reflexivity.
  assert (Ee : e' = kof V - 1074) by (unfold n in R2; lia).
  assert (Hbig : 0 < kof V -> 2 ^ 52 <= q) by (intros Hp; specialize (QG Hp); lia).
  assert (Hle : q <= 2 ^ 53) by lia. assert (Hq0 : 0 <= q) by lia.
  set (k := kof V) in *. clearbody k q. clear QB QL QG Q0. clear Hq R1 R2 Es Hk.
  unfold shr_fexp, rounds_to. rewrite Er. cbn [shr_record_of_loc].
  destruct (Z.eq_dec q (2 ^ 53)) as [->|Hn53].
  - replace (fexp 53 1024 (Zdigits2 (2 ^ 53) + e') - e') with 1
      by (rewrite fexp_eq; change (Zdigits2 (2 ^ 53)) with 54; lia).
    change (shr {| shr_m := 2 ^ 53; shr_r := false; shr_s := false |} e' 1)
      with ({| shr_m := 2 ^ 52; shr_r := false; shr_s := false |}, e' + 1).
    cbn [shr_m]. change (2 ^ 52) with (Zpos 4503599627370496).
    destruct (Z.leb_spec (e' + 1) (1024 - 53)) as [L|L].
    + assert (Hin : 2 ^ 53 * 2 ^ k <= INF).
      { unfold INF. rewrite <- Z.pow_add_r by lia. apply Z.pow_le_mono_r; lia. }
      rewrite Z.min_r by lia. split; [|split; [reflexivity|]].
      * unfold valid, valid_binary, bounded. apply andb_true_iff. split.
        -- apply Zeq_is_eq_bool. rewrite fexp_eq. change (Zpos (digits2_pos 4503599627370496)) with 53. lia.
        -- apply Z.leb_le. lia.
      * cbn [key]. f_equal. change (Zpos 4503599627370496) with (2 ^ 52). rewrite <- !Z.pow_add_r by lia.
        f_equal. lia.
    + assert (Hin : INF <= 2 ^ 53 * 2 ^ k).
      { unfold INF. rewrite <- Z.pow_add_r by lia. apply Z.pow_le_mono_r; lia. }
      rewrite Z.min_l by lia. split; [reflexivity|split; reflexivity].
  - assert (Hd : Zdigits2 q <= 53 /\ (2 ^ 52 <= q -> Zdigits2 q = 53)).
    { destruct q as [|p|p]; [cbn; lia| |lia]. cbn [Zdigits2]. rewrite digits_log2.
      assert (Z.log2 (Zpos p) < 53) by (apply Z.log2_lt_pow2; lia). split; [lia|].
      intros Hp. apply Z.log2_le_pow2 in Hp; lia. }
    assert (Hs : fexp 53 1024 (Zdigits2 q + e') - e' <= 0) by (rewrite fexp_eq; lia).
    assert (Es : shr {| shr_m := q; shr_r := false; shr_s := false |} e' (fexp 53 1024 (Zdigits2 q + e') - e')
                 = ({| shr_m := q; shr_r := false; shr_s := false |}, e')).
    { destruct (fexp 53 1024 (Zdigits2 q + e') - e'); [reflexivity|lia|reflexivity]. }
    rewrite Es. cbn [shr_m]. destruct q as [|p|p]; [| |lia].
    + split; [reflexivity|split; [reflexivity|]]. cbn [key].
      rewrite Z.min_r by (pose proof INF_pos; lia). destruct s; reflexivity.
    + destruct (Z.leb_spec e' (1024 - 53)) as [L|L].
      * assert (Hin : Zpos p * 2 ^ k <= INF).
        { replace INF with (2 ^ 53 * 2 ^ 2045) by (unfold INF; rewrite <- Z.pow_add_r by lia; reflexivity).
          apply Z.mul_le_mono_nonneg; [lia|lia|apply Z.pow_nonneg; lia|apply Z.pow_le_mono_r; lia]. }
        rewrite Z.min_r by lia. split; [|split; [reflexivity|]].
        -- unfold valid, valid_binary, bounded. apply andb_true_iff. split; [|apply Z.leb_le; lia].
           apply Zeq_is_eq_bool. rewrite fexp_eq in *. change (Zpos (digits2_pos p)) with (Zdigits2 (Zpos p)).
           destruct Hd as [Hd1 Hd2]. destruct (Z.eq_dec k 0); [lia|]. rewrite Hd2 by (apply Hbig; lia). lia.
        -- cbn [key]. replace (e' + 1074) with k by lia. reflexivity.
      * assert (Hin : INF <= Zpos p * 2 ^ k).
        { replace INF with (2 ^ 52 * 2 ^ 2046) by (unfold INF; rewrite <- Z.pow_add_r by lia; reflexivity).
          apply Z.mul_le_mono_nonneg;
            [apply Z.pow_nonneg; lia|apply Hbig; lia|apply Z.pow_nonneg; lia|apply Z.pow_le_mono_r; lia]. }
        rewrite Z.min_l by lia. split; [reflexivity|split; reflexivity].
Qed.

(** What being canonical means for a finite number *)
Lemma valid_finite s m e : valid (S754_finite s m e) ->
  -1074 <= e <= 971 /\ Zpos m < 2 ^ 53 /\ (-1074 < e -> 2 ^ 52 <= Zpos m).
Proof.
  unfold valid, valid_binary, bounded, canonical_mantissa. intros H.
  apply andb_true_iff in H as [H1 H2]. apply Zeq_bool_eq in H1. apply Z.leb_le in H2.
  rewrite fexp_eq, digits_log2 in H1.
  split; [lia|]. split.
  - apply Z.log2_lt_pow2; lia.
  - intros He. apply Z.log2_le_pow2; lia.
Qed.

Definition finite (x : f64) : Prop :=
  match x with S754_zero _ | S754_finite _ _ _ => True | _ => False end.

Lemma key_short x : valid x -> short (key x).
Proof.
  intros H. destruct x as [s|s| |s m e]; cbn [key].
  - exists 0, 0. lia.
  - exists (cond_Zopp s 1), 2098. unfold INF. destruct s; cbn [cond_Zopp]; lia.
  - exists 0, 0. lia.
  - apply valid_finite in H as (H1 & H2 & _). exists (cond_Zopp s (Zpos m)), (e + 1074).
    destruct s; cbn [cond_Zopp]; lia.
Qed.

Lemma key_finite x : valid x -> finite x -> - INF < key x < INF.
Proof.
  pose proof INF_pos as P. intros H F. destruct x as [s|s| |s m e]; cbn [key finite] in *; try tauto; try lia.
  apply valid_finite in H as (H1 & H2 & _).
  assert (0 < 2 ^ (e + 1074)) by (apply Z.pow_pos_nonneg; lia).
  assert (Zpos m * 2 ^ (e + 1074) < INF).
  { apply Z.lt_le_trans with (2 ^ 53 * 2 ^ (e + 1074)); [apply Z.mul_lt_mono_pos_r; lia|].
    unfold INF. rewrite <- Z.pow_add_r by lia. apply Z.pow_le_mono_r; lia. }
  assert (0 < Zpos m * 2 ^ (e + 1074)) by (apply Z.mul_pos_pos; lia).
  destruct s; cbn [cond_Zopp]; lia.
Qed.

Lemma key_bound x : valid x -> - INF <= key x <= INF.
Proof.
  intros H. pose proof INF_pos. destruct x as [s|[]| |s m e]; try (cbn [key cond_Zopp]; lia).
  pose proof (key_finite _ H I). lia.
Qed.

Lemma RND4_key x : valid x -> RND4 (4 * key x) = key x.
Proof. intros. apply RND4_short; [apply key_short|apply key_bound]; auto. Qed.

(** Order *)
Lemma compare_key_pos m e m' e' s s' :
  valid (S754_finite s m e) -> valid (S754_finite s' m' e') ->
  (Zpos m * 2 ^ (e + 1074) ?= Zpos m' * 2 ^ (e' + 1074)) =
  match Z.compare e e' with Lt => Lt | Gt => Gt | Eq => Pcompare m m' Eq end.
Proof.
  intros H H'. apply valid_finite in H as (B & L & G). apply valid_finite in H' as (B' & L' & G').
  assert (K : forall m e m' e', -1074 <= e -> e < e' -> Zpos m < 2 ^ 53 -> 2 ^ 52 <= Zpos m' ->
    Zpos m * 2 ^ (e + 1074) < Zpos m' * 2 ^ (e' + 1074)).
  { clear. intros m e m' e' B He L G. assert (P : 0 < 2 ^ (e + 1074)) by (apply Z.pow_pos_nonneg; lia).
    apply Z.lt_le_trans with (2 ^ 53 * 2 ^ (e + 1074)); [apply Z.mul_lt_mono_pos_r; lia|].
    apply Z.le_trans with (2 ^ 52 * 2 ^ (e' + 1074)).
    - rewrite <- !Z.pow_add_r by lia. apply Z.pow_le_mono_r; lia.
    - apply Z.mul_le_mono_nonneg_r; [apply Z.pow_nonneg; lia|lia]. }
  destruct (Z.compare_spec e e') as [->|C|C].
  - assert (P : 0 < 2 ^ (e' + 1074)) by (apply Z.pow_pos_nonneg; lia).
    change (Pcompare m m' Eq) with (Zpos m ?= Zpos m').
    destruct (Z.compare_spec (Zpos m) (Zpos m')) as [->|D|D].
    + apply Z.compare_refl.
    + apply Z.compare_lt_iff. apply Z.mul_lt_mono_pos_r; auto.
    + apply Z.compare_gt_iff. apply Z.mul_lt_mono_pos_r; auto.
  - apply Z.compare_lt_iff. apply K; lia.
  - apply Z.compare_gt_iff. apply K; lia.
Qed.

Lemma compare_key x y : valid x -> valid y -> is_nan x = false -> is_nan y = false ->
  SFcompare x y = Some (key x ?= key y).
Proof.
  intros Hx Hy Nx Ny. pose proof INF_pos as P.
  assert (Fx : finite x -> - INF < key x < INF) by (apply key_finite; auto).
  assert (Fy : finite y -> - INF < key y < INF) by (apply key_finite; auto).
  assert (Hpos : forall s m e, valid (S754_finite s m e) -> 0 < Zpos m * 2 ^ (e + 1074)).
  { intros s m e V. apply valid_finite in V as (V & _). apply Z.mul_pos_pos; [lia|apply Z.pow_pos_nonneg; lia]. }
  destruct x as [s|s| |s m e], y as [s'|s'| |s' m' e']; try discriminate; cbn [finite] in Fx, Fy;
    try specialize (Fx I); try specialize (Fy I); unfold SFcompare; f_equal; symmetry.
  - destruct s'; cbn [key cond_Zopp] in *; [apply Z.compare_gt_iff|apply Z.compare_lt_iff]; lia.
  - specialize (Hpos _ _ _ Hy). destruct s'; cbn [key cond_Zopp] in *; [apply Z.compare_gt_iff|apply Z.compare_lt_iff]; lia.
  - destruct s; cbn [key cond_Zopp] in *; [apply Z.compare_lt_iff|apply Z.compare_gt_iff]; lia.
  - destruct s, s'; cbn [key cond_Zopp] in *; [apply Z.compare_refl| | |apply Z.compare_refl]; [apply Z.compare_lt_iff|apply Z.compare_gt_iff]; lia.
  - destruct s; cbn [key cond_Zopp] in *; [apply Z.compare_lt_iff|apply Z.compare_gt_iff]; lia.
  - specialize (Hpos _ _ _ Hx). destruct s; cbn [key cond_Zopp] in *; [apply Z.compare_lt_iff|apply Z.compare_gt_iff]; lia.
  - destruct s'; cbn [key cond_Zopp] in *; [apply Z.compare_gt_iff|apply Z.compare_lt_iff]; lia.
  - pose proof (Hpos _ _ _ Hx). pose proof (Hpos _ _ _ Hy). pose proof (compare_key_pos _ _ _ _ _ _ Hx Hy) as C.
    destruct s, s'; cbn [key cond_Zopp] in *.
    + rewrite Z.compare_opp, Z.compare_antisym, C.
      destruct (Z.compare e e'); auto.
    + apply Z.compare_lt_iff; lia.
    + apply Z.compare_gt_iff; lia.
    + exact C.
Qed.

Lemma fltb_key x y : valid x -> valid y -> is_nan x = false -> is_nan y = false ->
  fltb x y = (key x <? key y).
Proof.
  intros. unfold fltb, SFltb. rewrite compare_key by auto. unfold Z.ltb. destruct (key x ?= key y); reflexivity.
Qed.

Lemma fleb_key x y : valid x -> valid y -> is_nan x = false -> is_nan y = false ->
  fleb x y = (key x <=? key y).
Proof.
  intros. unfold fleb, SFleb. rewrite compare_key by auto. unfold Z.leb. destruct (key x ?= key y); reflexivity.
Qed.

(** Addition *)
Lemma shl_align_le m e e' : e' <= e -> 
  Zpos (fst (shl_align m e e')) = Zpos m * 2 ^ (e - e') /\ snd (shl_align m e e') = e'.
Proof.
  intros H. unfold shl_align. destruct (e' - e) as [|d|d] eqn:E; [|lia|].
  - assert (e = e') by lia. subst. rewrite Z.sub_diag. cbn [fst snd]. lia.
  - cbn [fst snd]. rewrite shift_pos_correct. split; auto.
    replace (e - e') with (Zpos d) by lia. rewrite Z.mul_comm. reflexivity.
Qed.

Lemma shl_align_ge m e e' : e <= e' -> shl_align m e e' = (m, e).
Proof. intros H. unfold shl_align. destruct (e' - e) as [|d|d] eqn:E; auto. lia. Qed.

Lemma Zdigits2_log2 m : 0 < m -> Zdigits2 m = Z.log2 m + 1.
Proof. intros H. destruct m as [|p|p]; [lia| |lia]. apply digits_log2. Qed.

Lemma binary_round_to s m e : -1074 <= e ->
  rounds_to (binary_round 53 1024 s m e) s (4 * (Zpos m * 2 ^ (e + 1074))).
Proof.
  intros He. unfold binary_round. set (e1 := fexp 53 1024 (Zpos (digits2_pos m) + e)).
  assert (H1 : -1074 <= e1) by (unfold e1; rewrite fexp_eq; lia).
  destruct (Z.le_gt_cases e1 e) as [L|L].
  - destruct (shl_align_le m e e1 L) as [S1 S2].
    destruct (shl_align m e e1) as [mz ez]. cbn [fst snd] in S1, S2. subst ez.
    assert (P : 0 < 2 ^ (e - e1)) by (apply Z.pow_pos_nonneg; lia).
    replace (4 * (Zpos m * 2 ^ (e + 1074))) with ((4 * Zpos mz + lcode loc_Exact) * 2 ^ (e1 + 1074)).
    2:{ rewrite S1. cbn [lcode]. replace (e + 1074) with ((e - e1) + (e1 + 1074)) by lia.
        rewrite (Z.pow_add_r 2 (e - e1)) by lia. ring. }
    apply round_aux; [lia|lia|].
    rewrite Zdigits2_log2 by lia. rewrite S1, Z.log2_mul_pow2 by lia.
    unfold e1. rewrite digits_log2, !fexp_eq. lia.
  - rewrite shl_align_ge by lia.
    replace (4 * (Zpos m * 2 ^ (e + 1074))) with ((4 * Zpos m + lcode loc_Exact) * 2 ^ (e + 1074)) by (cbn [lcode]; ring).
    apply round_aux; [lia|lia|]. cbn [Zdigits2]. fold e1. lia.
Qed.

Definition is_rounded (r : f64) (V : Z) : Prop := valid r /\ is_nan r = false /\ key r = RND4 V.

Lemma normalize_key m e z : -1074 <= e ->
  is_rounded (binary_normalize 53 1024 m e z) (4 * (m * 2 ^ (e + 1074))).
Proof.
  intros He. assert (P : 0 < 2 ^ (e + 1074)) by (apply Z.pow_pos_nonneg; lia).
  destruct m as [|p|p]; cbn [binary_normalize].
  - split; [reflexivity|split; reflexivity].
  - destruct (binary_round_to false p e He) as (V & N & K). split; auto. split; auto. rewrite K.
    unfold RND4. replace (4 * (Zpos p * 2 ^ (e + 1074)) <? 0) with false; [reflexivity|].
    symmetry. apply Z.ltb_ge. lia.
  - destruct (binary_round_to true p e He) as (V & N & K). split; auto. split; auto. rewrite K.
    unfold RND4. replace (4 * (Zneg p * 2 ^ (e + 1074)) <? 0) with true.
    + cbn [cond_Zopp]. do 3 f_equal. lia.
    + symmetry. apply Z.ltb_lt. assert (Zneg p * 2 ^ (e + 1074) < 0) by (apply Z.mul_neg_pos; lia). lia.
Qed.

Lemma rounded_self x : valid x -> is_nan x = false -> is_rounded x (4 * key x).
Proof. intros V N. split; auto. split; auto. symmetry. apply RND4_key; auto. Qed.

Lemma fadd_key x y : valid x -> valid y -> finite x -> finite y ->
  is_rounded (fadd x y) (4 * (key x + key y)).
Proof.
  intros Vx Vy Fx Fy. destruct x as [s|s| |s m e], y as [s'|s'| |s' m' e']; cbn [finite] in Fx, Fy; try tauto.
  - cbn [fadd SFadd key]. destruct (Bool.eqb s s'); split; try reflexivity; split; reflexivity.
  - change (fadd _ _) with (S754_finite s' m' e'). cbn [key]. rewrite Z.add_0_l. apply rounded_self; auto.
  - change (fadd _ _) with (S754_finite s m e). cbn [key]. rewrite Z.add_0_r. apply rounded_self; auto.
  - pose proof (valid_finite _ _ _ Vx) as (B & _). pose proof (valid_finite _ _ _ Vy) as (B' & _).
    unfold fadd, SFadd. cbv zeta. set (ez := Z.min e e').
    destruct (shl_align_le m e ez ltac:(lia)) as [S1 _]. destruct (shl_align_le m' e' ez ltac:(lia)) as [S2 _].
    rewrite S1, S2.
    match goal with |- is_rounded (binary_normalize _ _ ?n _ _) _ =>
      pose proof (normalize_key n ez false ltac:(lia)) as K; 
      assert (E : n * 2 ^ (ez + 1074) = key (S754_finite s m e) + key (S754_finite s' m' e'))
    end.
    { cbn [key]. replace (e + 1074) with ((e - ez) + (ez + 1074)) by lia.
      replace (e' + 1074) with ((e' - ez) + (ez + 1074)) by lia.
      rewrite (Z.pow_add_r 2 (e - ez)), (Z.pow_add_r 2 (e' - ez)) by lia.
      destruct s, s'; cbn [cond_Zopp]; ring. }
    rewrite E in K. exact K.
Qed.

(** Halving *)
Lemma half_key x : valid x -> finite x -> is_rounded (fdiv x f2) (2 * key x).
Proof.
  intros Vx Fx. destruct x as [s|s| |s m e]; cbn [finite] in Fx; try tauto.
  - split; [reflexivity|split; reflexivity].
  - pose proof (valid_finite _ _ _ Vx) as (B & L & G).
    assert (K : rounds_to (fdiv (S754_finite s m e) f2) s (2 * (Zpos m * 2 ^ (e + 1074)))).
    { unfold fdiv, f2, SFdiv, SFdiv_core_binary. cbv zeta.
      change (Zdigits2 (Zpos 4503599627370496)) with 53.
      assert (E' : Z.min (fexp 53 1024 (Zdigits2 (Zpos m) + e - (53 + -51))) (e - -51) = Z.max (e - 2) (-1074)).
      { rewrite Zdigits2_log2, fexp_eq by lia. assert (Z.log2 (Zpos m) < 53) by (apply Z.log2_lt_pow2; lia).
        assert (-1074 < e -> Z.log2 (Zpos m) = 52).
        { intros He. specialize (G He). apply Z.log2_le_pow2 in G; lia. }
        lia. }
      rewrite E'. rewrite xorb_false_r.
      destruct (Z.eq_dec e (-1074)) as [E0|N0].
      - subst e. change (Z.max (-1074 - 2) (-1074)) with (-1074). change (-1074 - -51 - -1074) with 51. cbv iota.
        rewrite Z.shiftl_mul_pow2 by lia.
        pose proof (Z_div_mod (Zpos m * 2 ^ 51) (Zpos 4503599627370496) ltac:(lia)) as D.
        destruct (Z.div_eucl (Zpos m * 2 ^ 51) (Zpos 4503599627370496)) as [q r].
        replace (2 * (Zpos m * 2 ^ (-1074 + 1074))) with ((4 * q + lcode (new_location (Zpos 4503599627370496) r)) * 2 ^ (-1074 + 1074)).
        + apply round_aux; [lia|lia|]. rewrite fexp_eq. lia.
        + change (2 ^ (-1074 + 1074)) with 1. rewrite !Z.mul_1_r. unfold new_location. cbn [Z.even].
          unfold new_location_even. destruct (Zeq_bool r 0) eqn:Er.
          * apply Zeq_bool_eq in Er. cbn [lcode]. lia.
          * apply Zeq_bool_neq in Er.
            assert (r = 2 ^ 51) by lia.
            replace (2 * r ?= Zpos 4503599627370496) with Eq by (symmetry; apply Z.compare_eq_iff; lia).
            cbn [lcode]. lia.
      - specialize (G ltac:(lia)).
        assert (Es : exists t, (t = 0 \/ t = 1) /\ Z.max (e - 2) (-1074) = e - 1 - t /\ (t = 0 -> e = -1073) /\ (t = 1 -> -1073 < e)).
        { destruct (Z.eq_dec e (-1073)); [exists 0|exists 1]; lia. }
        destruct Es as (t & Ht & -> & Ht0 & Ht1).
        replace (e - -51 - (e - 1 - t)) with (52 + t) by lia.
        assert (El : match 52 + t with | 0 => Zpos m | Zpos _ => Z.shiftl (Zpos m) (52 + t) | Zneg _ => 0 end
                     = (Zpos m * 2 ^ t) * Zpos 4503599627370496).
        { assert (R : Z.shiftl (Zpos m) (52 + t) = (Zpos m * 2 ^ t) * Zpos 4503599627370496).
          { rewrite Z.shiftl_mul_pow2 by lia. change (Zpos 4503599627370496) with (2 ^ 52).
            rewrite Z.pow_add_r by lia. ring. }
          destruct Ht as [->| ->]; exact R. }
        rewrite El.
        pose proof (Z_div_mod (Zpos m * 2 ^ t * Zpos 4503599627370496) (Zpos 4503599627370496) ltac:(lia)) as D.
        destruct (Z.div_eucl (Zpos m * 2 ^ t * Zpos 4503599627370496) (Zpos 4503599627370496)) as [q r].
        assert (r = 0 /\ q = Zpos m * 2 ^ t) as [-> ->] by lia. clear D El.
        change (new_location (Zpos 4503599627370496) 0) with loc_Exact.
        assert (P : 0 < 2 ^ t) by (apply Z.pow_pos_nonneg; lia).
        replace (2 * (Zpos m * 2 ^ (e + 1074))) with ((4 * (Zpos m * 2 ^ t) + lcode loc_Exact) * 2 ^ (e - 1 - t + 1074)).
        + apply round_aux; [lia|lia|].
          rewrite Zdigits2_log2 by lia. rewrite Z.log2_mul_pow2, fexp_eq by lia.
          apply Z.log2_le_pow2 in G; [|lia]. lia.
        + cbn [lcode]. replace (e + 1074) with (t + (1 + (e - 1 - t + 1074))) by lia.
          rewrite (Z.pow_add_r 2 t), (Z.pow_add_r 2 1) by lia. change (2 ^ 1) with 2. ring. }
    destruct K as (V & N & K). split; auto. split; auto. rewrite K.
    assert (0 < Zpos m * 2 ^ (e + 1074)) by (apply Z.mul_pos_pos; [lia|apply Z.pow_pos_nonneg; lia]).
    destruct s; cbn [key cond_Zopp].
    + replace (2 * - (Zpos m * 2 ^ (e + 1074))) with (- (2 * (Zpos m * 2 ^ (e + 1074)))) by lia.
      rewrite RND4_opp. unfold RND4. replace (2 * (Zpos m * 2 ^ (e + 1074)) <? 0) with false; [reflexivity|].
      symmetry. apply Z.ltb_ge. lia.
    + unfold RND4. replace (2 * (Zpos m * 2 ^ (e + 1074)) <? 0) with false; [reflexivity|].
      symmetry. apply Z.ltb_ge. lia.
Qed.

(** The error of one rounding *)
Lemma rnd4_error V g : 0 <= V < 2 ^ (g + 55) -> 0 <= g ->
  V - 2 * 2 ^ g <= 4 * rnd4 V <= V + 2 * 2 ^ g /\ rnd4 V <= 2 ^ (g + 53).
Proof.
  intros H Hg. pose proof (kof_nonneg V) as K0.
  assert (K : kof V <= g).
  { unfold kof. destruct (Z.eq_dec V 0) as [->|]; [cbn; lia|].
    assert (Z.log2 V < g + 55) by (apply Z.log2_lt_pow2; lia). lia. }
  assert (Pk : 0 < 2 ^ kof V) by (apply Z.pow_pos_nonneg; lia).
  assert (Pg : 2 ^ kof V <= 2 ^ g) by (apply Z.pow_le_mono_r; lia).
  pose proof (quo_lt V ltac:(lia)) as QL. pose proof (rup_bounds (kof V) V ltac:(lia) ltac:(lia)) as QB.
  assert (U : rnd4 V <= 2 ^ (g + 53)).
  { unfold rnd4. rewrite (Z.pow_add_r 2 g) by lia. rewrite (Z.mul_comm (2 ^ g)).
    apply Z.mul_le_mono_nonneg; try lia.
    pose proof (Z.div_pos V (2 ^ (kof V + 2)) ltac:(lia) ltac:(apply Z.pow_pos_nonneg; lia)). lia. }
  split; auto. unfold rnd4. destruct (rup_cases (kof V) V K0 ltac:(lia)) as (q & R & E & B & Q & _ & ->).
  rewrite (Z.pow_add_r 2 (kof V) 1) in * by lia. change (2 ^ 1) with 2 in *.
  set (P := 2 ^ kof V) in *.
  destruct (Z.ltb_spec R (P * 2)); [|destruct (Z.eqb_spec R (P * 2)); [destruct (Z.odd q)|]].
  - replace (4 * ((q + 0) * P)) with (2 * (P * 2) * q) by ring. lia.
  - replace (4 * ((q + 1) * P)) with (2 * (P * 2) * q + 4 * P) by ring. lia.
  - replace (4 * ((q + 0) * P)) with (2 * (P * 2) * q) by ring. lia.
  - replace (4 * ((q + 1) * P)) with (2 * (P * 2) * q + 4 * P) by ring. lia.
Qed.

Lemma RND4_error V g : - 2 ^ (g + 55) < V < 2 ^ (g + 55) -> 0 <= g <= 2045 ->
  V - 2 * 2 ^ g <= 4 * RND4 V <= V + 2 * 2 ^ g.
Proof.
  intros H Hg. assert (HI : 2 ^ (g + 53) <= INF) by (unfold INF; apply Z.pow_le_mono_r; lia).
  unfold RND4. destruct (Z.ltb_spec V 0).
  - destruct (rnd4_error (- V) g) as [E1 E2]; lia.
  - destruct (rnd4_error V g) as [E1 E2]; lia.
Qed.

(** Halving a float rounds by at most half a unit. *)
Lemma half_error W : short W -> - INF <= W <= INF -> W - 1 <= 2 * RND4 (2 * W) <= W + 1.
Proof.
  intros (m & j & E & Hj & Hm) HW.
  destruct (Z.eq_dec j 0) as [->|Nj].
  - change (2 ^ 0) with 1 in E. assert (W = m) by lia.
    pose proof (RND4_error (2 * W) 0) as R. change (2 ^ 0) with 1 in R. change (2 ^ (0 + 55)) with (2 * (2 * 2 ^ 53)) in R. lia.
  - assert (E2 : W = 2 * (m * 2 ^ (j - 1))).
    { rewrite E. replace j with (1 + (j - 1)) at 1 by lia. rewrite Z.pow_add_r by lia. change (2 ^ 1) with 2. ring. }
    replace (2 * W) with (4 * (m * 2 ^ (j - 1))) by lia.
    rewrite RND4_short; [lia| |lia]. exists m, (j - 1). lia.
Qed.

(** Adding is monotone. *)
Lemma fadd_mono x y z : valid x -> valid y -> valid z -> finite x -> finite y -> finite z ->
  fleb x y = true -> fleb (fadd x z) (fadd y z) = true.
Proof.
  intros Vx Vy Vz Fx Fy Fz H.
  destruct (fadd_key x z) as (V1 & N1 & K1); auto. destruct (fadd_key y z) as (V2 & N2 & K2); auto.
  assert (Nx : is_nan x = false) by (destruct x; auto; destruct Fx).
  assert (Ny : is_nan y = false) by (destruct y; auto; destruct Fy).
  rewrite fleb_key in * by auto. apply Z.leb_le in H. apply Z.leb_le. rewrite K1, K2.
  apply RND4_mono. lia.
Qed.

Lemma valid_1e_7 : valid f1e_7.
Proof. reflexivity. Qed.

Lemma finite_cases x : is_nan x = false -> finite x \/ exists s, x = S754_infinity s.
Proof. destruct x; cbn; intros; try discriminate; eauto. Qed.

(** Adding something positive does not make a number smaller. *)
Lemma fadd_up x c : valid x -> valid c -> finite c -> 0 <= key c -> is_nan x = false ->
  fleb x (fadd x c) = true /\ is_nan (fadd x c) = false /\ valid (fadd x c).
Proof.
  intros Vx Vc Fc Hc Nx. destruct (finite_cases x Nx) as [Fx|[s ->]].
  - destruct (fadd_key x c) as (V & N & K); auto. split; auto.
    rewrite fleb_key by auto. apply Z.leb_le. rewrite K. rewrite <- (RND4_key x) by auto.
    apply RND4_mono. rewrite (RND4_key x) by auto. lia.
  - destruct c; try destruct Fc; destruct s; auto.
Qed.

(** The smallest and largest value of a part are between those of the whole, so if
    the whole is within the tolerance, the part is. *)
Lemma within_tolerance x x' y y' : valid x -> valid x' -> valid y -> valid y' ->
  is_nan x = false -> is_nan x' = false -> is_nan y = false -> is_nan y' = false ->
  fleb x x' = true -> fleb y' y = true ->
  fleb y (fadd x f1e_7) = true -> fleb y' (fadd x' f1e_7) = true.
Proof.
  intros Vx Vx' Vy Vy' Nx Nx' Ny Ny' H1 H2 H3.
  eapply fle_trans; [exact H2|]. eapply fle_trans; [exact H3|].
  destruct (finite_cases x Nx) as [Fx|[s ->]], (finite_cases x' Nx') as [Fx'|[s' ->]].
  - apply fadd_mono; auto; first [reflexivity|exact I].
  - destruct s'.
    + destruct x; cbn in H1, Fx; try discriminate; tauto.
    + change (fadd (S754_infinity false) f1e_7) with (S754_infinity false).
      destruct (fadd_up x f1e_7) as (_ & N & _); auto; try first [reflexivity|exact I|vm_compute; discriminate].
      destruct (fadd x f1e_7) as [?|[]| |]; cbn in N |- *; try discriminate; auto.
  - destruct s.
    + change (fadd (S754_infinity true) f1e_7) with (S754_infinity true).
      destruct (fadd_up x' f1e_7) as (_ & N & _); auto; try first [reflexivity|exact I|vm_compute; discriminate].
      destruct (fadd x' f1e_7) as [?|[]| |]; cbn in N |- *; try discriminate; auto.
    + destruct x'; cbn in H1, Fx'; try discriminate; tauto.
  - destruct s, s'; cbn in *; try discriminate; auto.
Qed.

(** Values of magnitude at most 2^29 that are more than the tolerance apart are
    separated by their computed midpoint. *)
Definition moderate (x : f64) : Prop := fleb (fabs x) (f_of_Z (2 ^ 29)) = true.

Lemma moderate_key x : valid x -> moderate x -> finite x /\ - 2 ^ 1103 <= key x <= 2 ^ 1103.
Proof.
  intros V M. unfold moderate in M.
  assert (Vb : valid (f_of_Z (2 ^ 29))) by (vm_compute; reflexivity).
  assert (Nb : is_nan (f_of_Z (2 ^ 29)) = false) by (vm_compute; reflexivity).
  assert (Kb : key (f_of_Z (2 ^ 29)) = 2 ^ 1103) by (vm_compute; reflexivity).
  destruct x as [s|s| |s m e].
  - cbn [finite key]. split; auto. split; [apply Z.opp_nonpos_nonneg; apply Z.pow_nonneg; lia|apply Z.pow_nonneg; lia].
  - vm_compute in M. discriminate.
  - vm_compute in M. discriminate.
  - split; [exact I|]. change (fabs (S754_finite s m e)) with (S754_finite false m e) in M.
    rewrite fleb_key in M by (auto; reflexivity). apply Z.leb_le in M. rewrite Kb in M.
    cbn [key cond_Zopp] in *. pose proof (valid_finite _ _ _ V) as (B & _).
    assert (0 < Zpos m * 2 ^ (e + 1074)) by (apply Z.mul_pos_pos; [lia|apply Z.pow_pos_nonneg; lia]).
    set (K := Zpos m * 2 ^ (e + 1074)) in *. set (T := 2 ^ 1103) in *. clearbody K T.
    destruct s; cbn [cond_Zopp]; lia.
Qed.

Lemma midpoint_separates x y : valid x -> valid y -> moderate x -> moderate y ->
  fltb (fadd x f1e_7) y = true ->
  fleb x (fdiv (fadd x y) f2) = true /\ fltb (fdiv (fadd x y) f2) y = true.
Proof.
  intros Vx Vy Mx My H.
  destruct (moderate_key x Vx Mx) as [Fx Bx]. destruct (moderate_key y Vy My) as [Fy By].
  assert (Nx : is_nan x = false) by (destruct x; auto; destruct Fx).
  assert (Ny : is_nan y = false) by (destruct y; auto; destruct Fy).
  destruct (fadd_key x f1e_7) as (V1 & N1 & K1); auto; [reflexivity|exact I|].
  rewrite fltb_key in H by auto. apply Z.ltb_lt in H. rewrite K1 in H.
  destruct (fadd_key x y) as (V2 & N2 & K2); auto.
  set (X := key x) in *. set (Y := key y) in *.
  assert (EC : key f1e_7 = 7555786372591432 * 2 ^ 998) by reflexivity.
  rewrite EC in H. clear K1 V1 N1 EC.
  assert (ET : 2 ^ 1103 = 2 ^ 105 * 2 ^ 998) by (rewrite <- Z.pow_add_r by lia; reflexivity).
  assert (E1 : 2 ^ 1050 = 2 ^ 52 * 2 ^ 998) by (rewrite <- Z.pow_add_r by lia; reflexivity).
  assert (E2 : 2 ^ 1051 = 2 ^ 53 * 2 ^ 998) by (rewrite <- Z.pow_add_r by lia; reflexivity).
  assert (E3 : 2 ^ (1050 + 55) = 4 * 2 ^ 105 * 2 ^ 998)
    by (change (4 * 2 ^ 105) with (2 ^ 107); rewrite <- Z.pow_add_r by lia; reflexivity).
  assert (E4 : 2 ^ (1051 + 55) = 8 * 2 ^ 105 * 2 ^ 998)
    by (change (8 * 2 ^ 105) with (2 ^ 108); rewrite <- Z.pow_add_r by lia; reflexivity).
  assert (EI : INF = 2 ^ 995 * 2 ^ 105 * 2 ^ 998)
    by (unfold INF; rewrite <- !Z.pow_add_r by lia; reflexivity).
  assert (PU : 0 < 2 ^ 998) by (apply Z.pow_pos_nonneg; lia).
  assert (PI : 4 * 2 ^ 105 * 2 ^ 998 < INF).
  { rewrite EI. apply Z.mul_lt_mono_pos_r; auto. }
  assert (ST : short (2 ^ 1103)) by (exists 1, 1103; lia).
  rewrite ET in *.
  (* x + 1e-7 is below the bound *)
  assert (HXC : X + 7555786372591432 * 2 ^ 998 < 2 ^ 105 * 2 ^ 998).
  { destruct (Z.lt_ge_cases (X + 7555786372591432 * 2 ^ 998) (2 ^ 105 * 2 ^ 998)) as [|G]; auto.
    exfalso. assert (Q : RND4 (4 * (2 ^ 105 * 2 ^ 998)) <= RND4 (4 * (X + 7555786372591432 * 2 ^ 998)))
      by (apply RND4_mono; lia).
    rewrite RND4_short in Q; auto; lia. }
  assert (HC : 4 * (X + 7555786372591432 * 2 ^ 998) - 2 * 2 ^ 1050 <= 4 * RND4 (4 * (X + 7555786372591432 * 2 ^ 998))).
  { apply RND4_error; [|lia]. rewrite E3. lia. }
  rewrite E1 in HC.
  assert (HXY : X + (7555786372591432 - 2 ^ 51) * 2 ^ 998 < Y) by lia.
  destruct (half_key (fadd x y)) as (V3 & N3 & K3); auto.
  { assert (RND4 (4 * (X + Y)) < INF /\ - INF < RND4 (4 * (X + Y))).
    { pose proof (RND4_error (4 * (X + Y)) 1051) as R. rewrite E4, E2 in R.
      assert (R' := R ltac:(lia) ltac:(lia)). clear R.
      assert (8 * 2 ^ 105 * 2 ^ 998 < INF) by (rewrite EI; apply Z.mul_lt_mono_pos_r; auto). lia. }
    destruct (finite_cases (fadd x y) N2) as [|[s E]]; auto. exfalso. rewrite E in K2.
    destruct s; cbn [key cond_Zopp] in K2; lia. }
  rewrite fleb_key, fltb_key by auto. rewrite K3. fold X Y.
  set (W := key (fadd x y)) in *.
  assert (SW : short W) by (apply key_short; auto).
  assert (BW : - INF <= W <= INF) by (apply key_bound; auto).
  split.
  - apply Z.leb_le. assert (RX : RND4 (4 * X) = X) by (apply RND4_key; auto).
    rewrite <- RX. apply RND4_mono.
    assert (HW : 2 * X <= W).
    { rewrite K2. transitivity (RND4 (4 * (2 * X))).
      - destruct (key_short x Vx) as (m & j & E & Hj & Hm).
        rewrite RND4_short; [lia| |lia]. exists m, (j + 1). unfold X. rewrite E, Z.pow_add_r by lia.
        change (2 ^ 1) with 2. lia.
      - apply RND4_mono. lia. }
    lia.
  - apply Z.ltb_lt. pose proof (half_error W SW BW).
    assert (HW : 4 * W <= 4 * (X + Y) + 2 * 2 ^ 1051).
    { rewrite K2. apply RND4_error; [|lia]. rewrite E4. lia. }
    rewrite E2 in HW. lia.
Qed.
