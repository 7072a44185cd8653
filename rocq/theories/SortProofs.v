(** Proofs about the model of sortby.go. *)
From Verif Require Import Go GoLemmas F64 F64Order ModelSort.

(** ** Swaps and sequences of swaps *)

Lemma swap_inv s i j s' :
  swap s i j = Ok s' -> swapl (fst s) i j = Ok (fst s') /\ swapl (snd s) i j = Ok (snd s').
Proof.
  destruct s as [cs vs]; cbn. intros E.
  apply bind_ok in E as (c & E1 & E). apply bind_ok in E as (v & E2 & E).
  inversion E; subst; auto.
Qed.

Definition fits (hi : nat) (s : st) : Prop := hi <= length (fst s) /\ hi <= length (snd s).

Lemma swap_ok hi s i j : fits hi s -> i < hi -> j < hi -> exists s', swap s i j = Ok s'.
Proof.
  destruct s as [cs vs]; unfold fits; cbn; intros [H1 H2] Hi Hj.
  destruct (@swapl_ok _ cs i j) as [c Ec]; try lia.
  destruct (@swapl_ok _ vs i j) as [v Ev]; try lia.
  rewrite Ec, Ev; cbn; eauto.
Qed.

Lemma swap_nth s i j s' k :
  swap s i j = Ok s' ->
  nth_error (snd s') k = if k =? i then nth_error (snd s) j
                         else if k =? j then nth_error (snd s) i else nth_error (snd s) k.
Proof. intros E. apply swap_inv in E as [_ E]. apply swapl_nth; auto. Qed.

Lemma swap_len s i j s' :
  swap s i j = Ok s' -> length (fst s') = length (fst s) /\ length (snd s') = length (snd s).
Proof.
  intros E. apply swap_inv in E as [E1 E2].
  split; eapply swapl_length; eauto.
Qed.

Inductive steps (lo hi : nat) : st -> st -> Prop :=
| steps_refl s : steps lo hi s s
| steps_cons s s1 s2 i j :
    lo <= i < hi -> lo <= j < hi -> swap s i j = Ok s1 -> steps lo hi s1 s2 -> steps lo hi s s2.

Lemma steps_trans lo hi s1 s2 s3 : steps lo hi s1 s2 -> steps lo hi s2 s3 -> steps lo hi s1 s3.
Proof. induction 1; auto. intros. eapply steps_cons; [| |exact H1|auto]; auto. Qed.

Lemma steps_one lo hi s s' i j :
  lo <= i < hi -> lo <= j < hi -> swap s i j = Ok s' -> steps lo hi s s'.
Proof. intros Hi Hj E. eapply steps_cons; [| |exact E|constructor]; auto. Qed.

Lemma steps_snoc lo hi s0 s s' i j :
  steps lo hi s0 s -> lo <= i < hi -> lo <= j < hi -> swap s i j = Ok s' -> steps lo hi s0 s'.
Proof. intros S0 Hi Hj E. eapply steps_trans; [exact S0|]. eapply steps_one; [| |exact E]; auto. Qed.

Lemma steps_widen lo hi lo' hi' s s' : lo' <= lo -> hi <= hi' -> steps lo hi s s' -> steps lo' hi' s s'.
Proof.
  intros H1 H2. induction 1; [constructor|].
  eapply steps_cons; [| |eauto|eauto]; lia.
Qed.

Lemma steps_len lo hi s s' :
  steps lo hi s s' -> length (fst s') = length (fst s) /\ length (snd s') = length (snd s).
Proof.
  induction 1; auto. apply swap_len in H1. destruct H1, IHsteps; split; congruence.
Qed.

Lemma steps_fits lo hi n s s' : steps lo hi s s' -> fits n s -> fits n s'.
Proof. intros H. apply steps_len in H as [H1 H2]. unfold fits. rewrite H1, H2; auto. Qed.

Lemma steps_out lo hi s s' k :
  steps lo hi s s' -> k < lo \/ hi <= k -> nth_error (snd s') k = nth_error (snd s) k.
Proof.
  induction 1; auto. intros Hk. rewrite IHsteps by auto.
  rewrite (swap_nth _ _ _ _ k H1).
  destruct (Nat.eqb_spec k i); [lia|]. destruct (Nat.eqb_spec k j); [lia|]. auto.
Qed.

Definition all_in (lo hi : nat) (P : f64 -> Prop) (s : st) : Prop :=
  forall k x, lo <= k < hi -> nth_error (snd s) k = Some x -> P x.

Lemma steps_all lo hi P s s' : steps lo hi s s' -> all_in lo hi P s -> all_in lo hi P s'.
Proof.
  induction 1; auto. intros HP. apply IHsteps. intros k x Hk Hx.
  rewrite (swap_nth _ _ _ _ k H1) in Hx.
  destruct (Nat.eqb_spec k i); [apply (HP j); auto|].
  destruct (Nat.eqb_spec k j); [apply (HP i); auto|]. apply (HP k); auto.
Qed.

(** Elements in a range that contains the touched range. *)
Lemma steps_all_wide lo hi lo' hi' P s s' :
  lo' <= lo -> hi <= hi' -> steps lo hi s s' -> all_in lo' hi' P s -> all_in lo' hi' P s'.
Proof. intros H1 H2 H. apply steps_all. eapply steps_widen; eauto. Qed.

Lemma steps_all_disj lo hi lo' hi' P s s' :
  hi' <= lo \/ hi <= lo' -> steps lo hi s s' -> all_in lo' hi' P s -> all_in lo' hi' P s'.
Proof.
  intros D H HP k x Hk Hx. rewrite (steps_out _ _ _ _ k H) in Hx by lia. eapply HP; eauto.
Qed.

Lemma nth_error_combine {A B} (l : list A) (l' : list B) k :
  nth_error (combine l l') k =
  match nth_error l k, nth_error l' k with
  | Some a, Some b => Some (a, b)
  | _, _ => None
  end.
Proof.
  revert l' k; induction l as [|a l IH]; intros [|b l'] [|k]; cbn; auto.
  - destruct (nth_error l k); auto.
Qed.

Lemma swap_combine s i j s' :
  swap s i j = Ok s' ->
  swapl (combine (fst s) (snd s)) i j = Ok (combine (fst s') (snd s')).
Proof.
  intros E. apply swap_inv in E as [E1 E2].
  pose proof (swapl_lt _ _ _ E1) as [? ?]. pose proof (swapl_lt _ _ _ E2) as [? ?].
  destruct (@swapl_ok _ (combine (fst s) (snd s)) i j) as [l E];
    try (rewrite combine_length; lia).
  rewrite E. f_equal. apply nth_error_ext'. intros k.
  rewrite (swapl_nth _ _ _ k E), !nth_error_combine.
  rewrite (swapl_nth _ _ _ k E1), (swapl_nth _ _ _ k E2).
  destruct (k =? i), (k =? j); auto.
Qed.

Lemma steps_perm lo hi s s' :
  steps lo hi s s' ->
  Permutation (combine (fst s) (snd s)) (combine (fst s') (snd s')).
Proof.
  induction 1; auto. apply swap_combine in H1. apply swapl_perm in H1.
  etransitivity; eauto.
Qed.

Lemma steps_perm_cases lo hi s s' : steps lo hi s s' -> Permutation (fst s) (fst s').
Proof.
  induction 1; auto. apply swap_inv in H1 as [H1 _]. apply swapl_perm in H1.
  etransitivity; eauto.
Qed.

(** ** medianOfThree *)

Lemma get_fits hi s k : fits hi s -> k < hi -> exists x, get (snd s) k = Ok x /\ nth_error (snd s) k = Some x.
Proof. intros [_ H] Hk. apply get_ok. lia. Qed.

Ltac getx H k x :=
  let E := fresh "E" x in let N := fresh "N" x in
  destruct (get_fits _ _ k H) as (x & E & N); [lia|]; rewrite E; cbn [bind].

Lemma maybe_swap lo hi s i j (b : bool) :
  fits hi s -> lo <= i < hi -> lo <= j < hi ->
  yields (if b then swap s i j else Ok s) (steps lo hi s).
Proof.
  intros H Hi Hj. destruct b; [|exists s; split; auto; constructor].
  destruct (swap_ok hi s i j) as [s' E]; auto; try lia.
  exists s'; split; auto. eapply steps_one; [| |eauto]; lia.
Qed.

Lemma medianOfThree_ok lo hi s a b c :
  fits hi s -> lo <= a < hi -> lo <= b < hi -> lo <= c < hi ->
  yields (medianOfThree s a b c) (steps lo hi s).
Proof.
  intros H Ha Hb Hc. unfold medianOfThree.
  getx H a x1. getx H b x0.
  eapply yields_bind; [apply (maybe_swap lo hi); auto|]. intros s1 S1.
  assert (H1 : fits hi s1) by (eapply steps_fits; eauto).
  getx H1 c x2. getx H1 a x3.
  eapply yields_bind; [apply (maybe_swap lo hi); auto|]. intros s2 S2.
  assert (H2 : fits hi s2) by (eapply steps_fits; eauto).
  getx H2 a x4. getx H2 b x5.
  eapply yields_weaken; [apply (maybe_swap lo hi); auto|]. intros s3 S3.
  eapply steps_trans; eauto. eapply steps_trans; eauto.
Qed.

(** ** doPivot *)

Definition ranges (pv : f64) (lo a b c d hi : nat) (s : st) : Prop :=
  all_in lo a (fun x => feqb x pv = true) s /\
  all_in a b (fun x => fltb x pv = true) s /\
  all_in c d (fun x => fltb pv x = true) s /\
  all_in d hi (fun x => feqb x pv = true) s.

Definition NN (lo hi : nat) (s : st) : Prop := all_in lo hi nn s.

Record PI (s0 : st) (pv : f64) (lo hi : nat) (s : st) (a b c d : nat) : Prop := {
  pi_steps : steps lo hi s0 s;
  pi_a : lo < a <= b;
  pi_b : b <= c + 1;
  pi_b' : b <= hi;
  pi_c : lo < c <= d;
  pi_d : d <= hi;
  pi_nn : NN lo hi s0 -> nn pv -> b <= c /\ ranges pv lo a b c d hi s
}.

Lemma pivot_up_ok s0 pv lo hi c d fuel s a b b0 :
  fits hi s0 -> PI s0 pv lo hi s a b c d -> b0 <= b -> hi < fuel ->
  yields (pivot_up fuel pv c (s, a, b))
    (fun '(s', a', b') => PI s0 pv lo hi s' a' b' c d /\ b0 <= b' /\
       (c <= b' \/ exists x, b' < c /\ nth_error (snd s') b' = Some x /\
                             fltb x pv = false /\ feqb pv x = false)).
Proof.
  intros Hf HI Hb00 Hfuel. unfold pivot_up.
  apply (@loop_total _ _
    (fun '(s, a, b) => PI s0 pv lo hi s a b c d /\ b0 <= b)
    (fun '(_, _, b) => hi - b)); [|split; auto|destruct HI; lia].
  clear s a b HI Hb00. intros [[s a] b] [HI Hb0].
  destruct (Nat.ltb_spec b c) as [Hbc|Hbc].
  2:{ apply yields_ok. auto. }
  pose proof HI as [HS Ha Hb Hb' Hc Hd HN].
  assert (Hfs : fits hi s) by (eapply steps_fits; eauto).
  getx Hfs b x.
  destruct (fltb x pv) eqn:Elt.
  - apply yields_ok. split; [|lia]. split; [|lia]. constructor; auto; try lia.
    intros Hn Hp. destruct (HN Hn Hp) as (_ & R1 & R2 & R3 & R4).
    split; [lia|]. repeat split; auto.
    intros k y Hk Hy. destruct (Nat.eq_dec k b); [subst; congruence|].
    apply (R2 k); auto; lia.
  - destruct (feqb pv x) eqn:Eeq.
    + destruct (swap_ok hi s b a) as [s' E]; auto; try lia.
      rewrite E; cbn [bind]. apply yields_ok. split; [|lia]. split; [|lia].
      constructor; auto; try lia.
      { eapply steps_snoc; [eauto| | |eauto]; lia. }
      intros Hn Hp. destruct (HN Hn Hp) as (_ & R1 & R2 & R3 & R4).
      split; [lia|].
      repeat split; intros k y Hk Hy; rewrite (swap_nth _ _ _ _ k E) in Hy;
        destruct (Nat.eqb_spec k b); destruct (Nat.eqb_spec k a); subst; try lia.
      * rewrite Nx in Hy. inversion Hy; subst. ford.
      * rewrite Nx in Hy. inversion Hy; subst. ford.
      * apply (R1 k); auto; lia.
      * apply (R2 a); auto; lia.
      * apply (R2 k); auto; lia.
      * apply (R3 k); auto; lia.
      * apply (R4 k); auto; lia.
    + apply yields_ok. split; [auto|]. split; auto. right. exists x; auto.
Qed.

Lemma pivot_down_ok s0 pv lo hi a b fuel s c d (sb : st) c0 :
  fits hi s0 -> PI s0 pv lo hi s a b c d -> c <= c0 ->
  (forall k, a <= k < c -> nth_error (snd s) k = nth_error (snd sb) k) -> hi < fuel ->
  yields (pivot_down fuel pv b (s, c, d))
    (fun '(s', c', d') => PI s0 pv lo hi s' a b c' d' /\ c' <= c0 /\
       (forall k, a <= k < c' -> nth_error (snd s') k = nth_error (snd sb) k) /\
       (c' <= b \/ exists x, b < c' /\ nth_error (snd s') (c'-1) = Some x /\
                             fltb pv x = false /\ feqb x pv = false)).
Proof.
  intros Hf HI Hc00 Hsb Hfuel. unfold pivot_down.
  apply (@loop_total _ _
    (fun '(s, c, d) => PI s0 pv lo hi s a b c d /\ c <= c0 /\
       (forall k, a <= k < c -> nth_error (snd s) k = nth_error (snd sb) k))
    (fun '(_, c, _) => c)); [|split; auto|destruct HI; lia].
  clear s c d HI Hc00 Hsb. intros [[s c] d] (HI & Hc0 & Hsame).
  destruct (Nat.ltb_spec b c) as [Hbc|Hbc].
  2:{ apply yields_ok. auto. }
  pose proof HI as [HS Ha Hb Hb' Hc Hd HN].
  assert (Hfs : fits hi s) by (eapply steps_fits; eauto).
  getx Hfs (c - 1) x.
  destruct (fltb pv x) eqn:Elt.
  - apply yields_ok. split; [|lia]. split; [|split; [lia|intros; apply Hsame; lia]].
    constructor; auto; try lia.
    intros Hn Hp. destruct (HN Hn Hp) as (_ & R1 & R2 & R3 & R4).
    split; [lia|]. repeat split; auto.
    intros k y Hk Hy. destruct (Nat.eq_dec k (c-1)); [subst; congruence|].
    apply (R3 k); auto; lia.
  - destruct (feqb x pv) eqn:Eeq.
    + destruct (swap_ok hi s (c-1) (d-1)) as [s' E]; auto; try lia.
      rewrite E; cbn [bind]. apply yields_ok. split; [|lia].
      split; [|split; [lia|]].
      2:{ intros k Hk. rewrite (swap_nth _ _ _ _ k E).
          destruct (Nat.eqb_spec k (c-1)); [lia|].
          destruct (Nat.eqb_spec k (d-1)); [lia|]. apply Hsame; lia. }
      constructor; auto; try lia.
      { eapply steps_snoc; [eauto| | |eauto]; lia. }
      intros Hn Hp. destruct (HN Hn Hp) as (_ & R1 & R2 & R3 & R4).
      split; [lia|].
      repeat split; intros k y Hk Hy; rewrite (swap_nth _ _ _ _ k E) in Hy;
        destruct (Nat.eqb_spec k (c-1)); destruct (Nat.eqb_spec k (d-1)); try lia.
      * apply (R1 k); auto; lia.
      * apply (R2 k); auto; lia.
      * apply (R3 (d-1)); auto; lia.
      * apply (R3 k); auto; lia.
      * replace (d - 1) with (c - 1) in * by lia. congruence.
      * congruence.
      * apply (R4 k); auto; lia.
    + apply yields_ok. split; [auto|]. split; auto. split; auto.
      right. exists x; auto.
Qed.

Lemma pivot_loop_ok s0 pv lo hi fuel s a b c d :
  fits hi s0 -> PI s0 pv lo hi s a b c d -> hi < fuel ->
  yields (pivot_loop fuel pv (s, a, b, c, d))
    (fun '(s', a', b', c', d') => PI s0 pv lo hi s' a' b' c' d' /\ c' <= b').
Proof.
  intros Hf HI Hfuel. unfold pivot_loop.
  apply (@loop_total _ _
    (fun '(s, a, b, c, d) => PI s0 pv lo hi s a b c d)
    (fun '(_, _, _, c, _) => c)); [|auto|destruct HI; lia].
  clear s a b c d HI. intros [[[[s a] b] c] d] HI.
  eapply yields_bind; [apply (pivot_up_ok s0 pv lo hi c d fuel s a b b); auto|].
  intros [[s1 a1] b1] (HI1 & Hbb & Hup).
  eapply yields_bind; [apply (pivot_down_ok s0 pv lo hi a1 b1 fuel s1 c d s1 c); auto|].
  intros [[s2 c2] d2] (HI2 & Hcc & Hsame & Hdown).
  destruct (Nat.leb_spec c2 b1) as [Hle|Hlt].
  { apply yields_ok. auto. }
  destruct HI2 as [HS Ha Hb Hb' Hc Hd HN].
  assert (Hfs : fits hi s2) by (eapply steps_fits; eauto).
  destruct (swap_ok hi s2 (c2-1) b1) as [s' E]; auto; try lia.
  rewrite E; cbn [bind]. apply yields_ok. split; [|lia].
  constructor; auto; try lia.
  { eapply steps_snoc; [eauto| | |eauto]; lia. }
  intros Hn Hp. destruct (HN Hn Hp) as (_ & R1 & R2 & R3 & R4).
  destruct Hup as [Hup|(x & Hx1 & Hx2 & Hx3 & Hx4)]; [lia|].
  destruct Hdown as [Hd1|(y & Hy1 & Hy2 & Hy3 & Hy4)]; [lia|].
  assert (Hx2' : nth_error (snd s2) b1 = Some x) by (rewrite Hsame; auto; lia).
  assert (nn x).
  { eapply steps_all in Hn; [|exact HS]. eapply Hn; [|exact Hx2']. lia. }
  assert (nn y).
  { eapply steps_all in Hn; [|exact HS]. eapply Hn; [|exact Hy2]. lia. }
  assert (b1 <> c2 - 1).
  { intros Heq. rewrite Heq in Hx2'. rewrite Hx2' in Hy2. inversion Hy2; subst.
    clear - Hx3 Hx4 Hy3 H Hp. ford. }
  split; [lia|].
  repeat split; intros k z Hk Hz; rewrite (swap_nth _ _ _ _ k E) in Hz;
    destruct (Nat.eqb_spec k (c2-1)); destruct (Nat.eqb_spec k b1); try lia.
  * apply (R1 k); auto; lia.
  * assert (z = y) by congruence. subst z. clear - Hy3 Hy4 H0 Hp. ford.
  * apply (R2 k); auto; lia.
  * assert (z = x) by congruence. subst z. clear - Hx3 Hx4 H Hp. ford.
  * apply (R3 k); auto; lia.
  * apply (R4 k); auto; lia.
Qed.

Lemma swapRange_ok lo hi s a2 b2 n :
  fits hi s -> lo <= a2 -> a2 + n <= b2 -> b2 + n <= hi ->
  yields (swapRange s a2 b2 n)
    (fun s' => steps lo hi s s' /\
       forall k, nth_error (snd s') k =
         if (a2 <=? k) && (k <? a2 + n) then nth_error (snd s) (k + (b2 - a2))
         else if (b2 <=? k) && (k <? b2 + n) then nth_error (snd s) (k - (b2 - a2))
         else nth_error (snd s) k).
Proof.
  intros Hf H1 H2 H3. unfold swapRange.
  eapply yields_weaken.
  - apply (@for_up_total _ (fun i s' => steps lo hi s s' /\
       forall k, nth_error (snd s') k =
         if (a2 <=? k) && (k <? a2 + i) then nth_error (snd s) (k + (b2 - a2))
         else if (b2 <=? k) && (k <? b2 + i) then nth_error (snd s) (k - (b2 - a2))
         else nth_error (snd s) k)).
    + intros i s1 Hi [HS Hn].
      assert (Hf1 : fits hi s1) by (eapply steps_fits; eauto).
      destruct (swap_ok hi s1 (a2+i) (b2+i)) as [s' E]; auto; try lia.
      exists s'. split; auto. split.
      { eapply steps_snoc; [eauto| | |eauto]; lia. }
      intros k. rewrite (swap_nth _ _ _ _ k E), !Hn.
      destruct (Nat.eqb_spec k (a2+i)); destruct (Nat.eqb_spec k (b2+i)); try lia;
      destruct (Nat.leb_spec a2 k); destruct (Nat.ltb_spec k (a2 + i));
      destruct (Nat.ltb_spec k (a2 + S i)); try lia;
      destruct (Nat.leb_spec b2 k); destruct (Nat.ltb_spec k (b2 + i));
      destruct (Nat.ltb_spec k (b2 + S i)); try lia; cbn [andb]; auto;
      destruct (Nat.leb_spec a2 (b2 + i)); destruct (Nat.ltb_spec (b2 + i) (a2 + i)); try lia;
      destruct (Nat.leb_spec b2 (b2 + i)); destruct (Nat.ltb_spec (b2 + i) (b2 + i)); try lia;
      destruct (Nat.leb_spec a2 (a2 + i)); destruct (Nat.ltb_spec (a2 + i) (a2 + i)); try lia;
      destruct (Nat.leb_spec b2 (a2 + i)); destruct (Nat.ltb_spec (a2 + i) (b2 + i)); try lia; cbn [andb];
      try (f_equal; lia).
    + split; [constructor|]. intros k.
      destruct (Nat.leb_spec a2 k); destruct (Nat.ltb_spec k (a2 + 0)); try lia;
      destruct (Nat.leb_spec b2 k); destruct (Nat.ltb_spec k (b2 + 0)); try lia; auto.
  - cbn. intros s' H. exact H.
Qed.

(** Exchanging two adjacent blocks by swapping their outer parts. *)
Lemma swapRange_blocks s lo a b (P Q : f64 -> Prop) n :
  fits b s -> lo <= a <= b -> n = Nat.min (b - a) (a - lo) ->
  yields (swapRange s lo (b - n) n)
    (fun s' => steps lo b s s' /\
       (all_in lo a P s -> all_in a b Q s ->
        all_in lo (lo + b - a) Q s' /\ all_in (lo + b - a) b P s')).
Proof.
  intros Hf Hab Hn.
  eapply yields_weaken; [apply (swapRange_ok lo b); auto; lia|].
  intros s' [HS HN]. split; auto. intros HP HQ.
  split; intros k x Hk Hx; rewrite HN in Hx;
  destruct (Nat.leb_spec lo k); try lia;
  destruct (Nat.ltb_spec k (lo + n)); cbn [andb] in Hx;
  try (eapply HP; [|exact Hx]; lia); try (eapply HQ; [|exact Hx]; lia);
  destruct (Nat.leb_spec (b - n) k); cbn [andb] in Hx;
  try (eapply HP; [|exact Hx]; lia); try (eapply HQ; [|exact Hx]; lia);
  destruct (Nat.ltb_spec k (b - n + n)); cbn [andb] in Hx;
  try (eapply HP; [|exact Hx]; lia); try (eapply HQ; [|exact Hx]; lia); lia.
Qed.

Lemma doPivot_ok lo hi s :
  fits hi s -> 7 < hi - lo ->
  yields (doPivot s lo hi)
    (fun '(s', mlo, mhi) =>
       steps lo hi s s' /\ lo <= mlo < hi /\ lo < mhi <= hi /\
       (NN lo hi s -> mlo <= mhi /\ exists pv, nn pv /\
          all_in lo mlo (fun x => fltb x pv = true) s' /\
          all_in mlo mhi (fun x => feqb x pv = true) s' /\
          all_in mhi hi (fun x => fltb pv x = true) s')).
Proof.
  intros Hf Hlen. unfold doPivot.
  assert (Hm : lo + (hi - lo) / 2 < hi).
  { assert ((hi - lo) / 2 < hi - lo) by (apply Nat.div_lt; lia). lia. }
  remember (lo + (hi - lo) / 2) as m eqn:Em.
  assert (Hm4 : (hi - lo) / 8 <= (hi - lo) / 2).
  { apply Nat.div_le_compat_l. lia. }
  assert (H8 : 8 * ((hi - lo) / 8) <= hi - lo) by (apply Nat.mul_div_le; lia).
  assert (H2 : hi - lo < 2 * ((hi-lo)/2) + 2).
  { pose proof (Nat.div_mod (hi - lo) 2). pose proof (Nat.mod_upper_bound (hi-lo) 2). lia. }
  assert (H2' : 2 * ((hi - lo) / 2) <= hi - lo) by (apply Nat.mul_div_le; lia).
  eapply yields_bind with (P := steps lo hi s).
  { destruct (40 <? hi - lo) eqn:E40; [|exists s; split; auto; constructor].
    apply Nat.ltb_lt in E40.
    remember ((hi - lo) / 8) as s8.
    eapply yields_bind; [apply (medianOfThree_ok lo hi); auto; lia|]. intros s1 S1.
    assert (H1 : fits hi s1) by (eapply steps_fits; eauto).
    eapply yields_bind; [apply (medianOfThree_ok lo hi); auto; lia|]. intros s2 S2.
    assert (H3 : fits hi s2) by (eapply steps_fits; eauto).
    eapply yields_weaken; [apply (medianOfThree_ok lo hi); auto; lia|]. intros s3 S3.
    eapply steps_trans; eauto. eapply steps_trans; eauto. }
  intros s1 S1.
  assert (Hf1 : fits hi s1) by (eapply steps_fits; eauto).
  eapply yields_bind; [apply (medianOfThree_ok lo hi); auto; lia|]. intros s2 S2.
  assert (Hf2 : fits hi s2) by (eapply steps_fits; eauto).
  getx Hf2 lo pv.
  eapply yields_bind.
  { apply (pivot_loop_ok s2 pv lo hi); auto. constructor; try lia; [constructor|].
    intros Hn Hp. split; [lia|].
    repeat split; intros k x Hk Hx; try lia.
    replace k with lo in Hx by lia. assert (x = pv) by congruence. subst. ford. }
  intros [[[[s3 a] b] c] d] [HI Hcb].
  destruct HI as [HS Ha Hb Hb' Hc Hd HN].
  assert (Hf3 : fits hi s3) by (eapply steps_fits; eauto).
  eapply yields_bind.
  { apply (swapRange_blocks s3 lo a b (fun x => feqb x pv = true) (fun x => fltb x pv = true));
      auto; try lia. destruct Hf3; split; lia. }
  intros s4 [S4 F4].
  assert (Hf4 : fits hi s4) by (eapply steps_fits; eauto).
  eapply yields_bind.
  { apply (swapRange_blocks s4 c d hi (fun x => fltb pv x = true) (fun x => feqb x pv = true));
      auto; lia. }
  intros s5 [S5 F5].
  apply yields_ok. split.
  { eapply steps_trans; [exact S1|]. eapply steps_trans; [exact S2|].
    eapply steps_trans; [exact HS|].
    eapply steps_trans; [eapply steps_widen; [| |exact S4]; lia|].
    eapply steps_widen; [| |exact S5]; lia. }
  split; [lia|]. split; [lia|].
  intros Hnn.
  assert (Hnn1 : NN lo hi s1) by (eapply steps_all; eauto).
  assert (Hnn2 : NN lo hi s2) by (eapply steps_all; eauto).
  assert (Hpv : nn pv). { eapply Hnn2; [|exact Npv]. lia. }
  destruct (HN Hnn2 Hpv) as (Hbc & R1 & R2 & R3 & R4).
  assert (b = c) by lia. subst c.
  split; [lia|]. exists pv. split; [auto|].
  destruct (F4 R1 R2) as [G1 G2].
  assert (R3' : all_in b d (fun x => fltb pv x = true) s4)
    by (eapply steps_all_disj; [|exact S4|exact R3]; lia).
  assert (R4' : all_in d hi (fun x => feqb x pv = true) s4)
    by (eapply steps_all_disj; [|exact S4|exact R4]; lia).
  destruct (F5 R3' R4') as [G3 G4].
  assert (G1' : all_in lo (lo + b - a) (fun x => fltb x pv = true) s5)
    by (eapply steps_all_disj; [|exact S5|exact G1]; lia).
  assert (G2' : all_in (lo + b - a) b (fun x => feqb x pv = true) s5)
    by (eapply steps_all_disj; [|exact S5|exact G2]; lia).
  split; [exact G1'|]. split.
  - intros k x Hk Hx. destruct (le_lt_dec b k).
    + eapply G3; [|exact Hx]; lia.
    + eapply G2'; [|exact Hx]; lia.
  - intros k x Hk Hx. eapply G4; [|exact Hx]; lia.
Qed.

(** ** insertionSort *)

Definition sorted_range (lo hi : nat) (s : st) : Prop :=
  forall p q x y, lo <= p -> p < q -> q < hi ->
    nth_error (snd s) p = Some x -> nth_error (snd s) q = Some y -> fleb x y = true.

Lemma sink_ok s a i :
  fits (S i) s -> a <= i ->
  yields (sink s a i)
    (fun s' => steps a (S i) s s' /\
       (NN a (S i) s -> sorted_range a i s -> sorted_range a (S i) s')).
Proof.
  intros Hf Hai. unfold sink.
  apply (@loop_total _ _
    (fun '(s', j) => a <= j <= i /\ steps a (S i) s s' /\
       (NN a (S i) s -> sorted_range a i s ->
        forall p q x y, a <= p -> p < q -> q < S i -> q <> j ->
          nth_error (snd s') p = Some x -> nth_error (snd s') q = Some y -> fleb x y = true))
    (fun '(_, j) => j)); [| |lia].
  2:{ split; [lia|]. split; [constructor|].
      intros _ Hs p q x y; intros. eapply (Hs p q); eauto; lia. }
  intros [s' j] (Hj & HS & HW).
  assert (Hf' : fits (S i) s') by (eapply steps_fits; eauto).
  destruct (Nat.ltb_spec a j) as [Haj|Haj].
  2:{ apply yields_ok. split; auto. intros Hn Hs p q x y Hp Hpq Hq Ex Ey.
      eapply HW; eauto; lia. }
  getx Hf' j x. getx Hf' (j - 1) y.
  destruct (fltb x y) eqn:Elt.
  - destruct (swap_ok (S i) s' j (j-1)) as [s2 E]; auto; try lia.
    rewrite E; cbn [bind]. apply yields_ok. split; [|lia]. split; [lia|]. split.
    { eapply steps_snoc; [eauto| | |eauto]; lia. }
    intros Hn Hs p q u w Hp Hpq Hq Hqj Eu Ew.
    rewrite (swap_nth _ _ _ _ _ E) in Eu. rewrite (swap_nth _ _ _ _ _ E) in Ew.
    specialize (HW Hn Hs).
    destruct (Nat.eqb_spec q j) as [->|Hqj'].
    + assert (w = y) by congruence. subst w.
      destruct (Nat.eqb_spec p j); [lia|].
      destruct (Nat.eqb_spec p (j-1)).
      * assert (u = x) by congruence. subst u. apply flt_le; auto.
      * eapply (HW p (j-1)); eauto; lia.
    + destruct (Nat.eqb_spec q (j-1)); [lia|].
      destruct (Nat.eqb_spec p j).
      * eapply (HW (j-1) q); eauto; lia.
      * destruct (Nat.eqb_spec p (j-1)).
        -- eapply (HW j q); eauto; lia.
        -- eapply (HW p q); eauto; lia.
  - apply yields_ok. split; auto. intros Hn Hs p q u w Hp Hpq Hq Eu Ew.
    specialize (HW Hn Hs).
    assert (Hn' : NN a (S i) s') by (eapply steps_all; eauto).
    assert (nn x) by (eapply Hn'; [|exact Nx]; lia).
    assert (nn y) by (eapply Hn'; [|exact Ny]; lia).
    destruct (Nat.eq_dec q j) as [->|Hqj]; [|eapply (HW p q); eauto; lia].
    assert (w = x) by congruence. subst w.
    destruct (Nat.eq_dec p (j-1)) as [->|Hpj].
    + assert (u = y) by congruence. subst u. apply flt_not_le; auto.
    + apply fle_trans with y; [eapply (HW p (j-1)); eauto; lia|apply flt_not_le; auto].
Qed.

Lemma insertionSort_ok s a b :
  fits b s -> a < b ->
  yields (insertionSort s a b)
    (fun s' => steps a b s s' /\ (NN a b s -> sorted_range a b s')).
Proof.
  intros Hf Hab. unfold insertionSort.
  eapply yields_weaken with (P := fun s' => steps a b s s' /\
     (NN a b s -> sorted_range a (a + 1 + (b - (a + 1))) s')).
  2:{ replace (a + 1 + (b - (a + 1))) with b by lia. auto. }
  apply (@for_up_total _ (fun i s' => steps a b s s' /\ (NN a b s -> sorted_range a i s'))).
  2:{ split; [constructor|]. intros _ p q; intros; lia. }
  intros i s1 Hi [HS HO].
  assert (Hf1 : fits b s1) by (eapply steps_fits; eauto).
  eapply yields_weaken; [apply sink_ok; [destruct Hf1; split; lia|lia]|].
  cbn. intros s2 [HS2 HO2]. split.
  - eapply steps_trans; eauto. eapply steps_widen; [| |exact HS2]; lia.
  - intros Hn. apply HO2; auto.
    intros k x Hk. eapply steps_all in Hn; [|exact HS]. apply Hn. lia.
Qed.

(** ** heapSort *)

Definition child (p c : nat) : Prop := c = 2 * p + 1 \/ c = 2 * p + 2.

Definition heap_from (lo hi first : nat) (s : st) : Prop :=
  forall p c x y, lo <= p -> child p c -> c < hi ->
    nth_error (snd s) (first + p) = Some x -> nth_error (snd s) (first + c) = Some y ->
    fleb y x = true.

Lemma add_eqb k i first : (first + k =? first + i) = (k =? i).
Proof. destruct (Nat.eqb_spec k i); destruct (Nat.eqb_spec (first + k) (first + i)); auto; lia. Qed.

Lemma siftDown_ok s lo hi first :
  fits (first + hi) s ->
  yields (siftDown s lo hi first)
    (fun s' => steps first (first + hi) s s' /\
       (NN first (first + hi) s -> heap_from (S lo) hi first s -> heap_from lo hi first s')).
Proof.
  intros Hf. unfold siftDown.
  apply (@loop_total _ _
    (fun '(s', root) => lo <= root /\ steps first (first + hi) s s' /\
       (NN first (first + hi) s -> heap_from (S lo) hi first s ->
        (forall p c x y, lo <= p -> p <> root -> child p c -> c < hi ->
           nth_error (snd s') (first + p) = Some x -> nth_error (snd s') (first + c) = Some y ->
           fleb y x = true) /\
        (forall p c x y, lo <= p -> child p root -> child root c -> c < hi ->
           nth_error (snd s') (first + p) = Some x -> nth_error (snd s') (first + c) = Some y ->
           fleb y x = true)))
    (fun '(_, root) => hi - root)); [| |lia].
  2:{ split; [lia|]. split; [constructor|]. intros _ Hh. split.
      - intros p c x y; intros. eapply (Hh p c); eauto; lia.
      - unfold child. intros; lia. }
  intros [s' root] (Hr & HS & HW).
  assert (Hf' : fits (first + hi) s') by (eapply steps_fits; eauto).
  destruct (Nat.leb_spec hi (2 * root + 1)) as [Hc|Hc].
  { apply yields_ok. split; auto. intros Hn Hh. destruct (HW Hn Hh) as [HA HB].
    intros p c x y Hp Hch Hchi Ex Ey. eapply HA; eauto.
    intros ->. unfold child in Hch. lia. }
  set (ch0 := 2 * root + 1) in *.
  eapply yields_bind with (P := fun ch => child root ch /\ ch < hi /\
    (NN first (first + hi) s' -> forall c x y, child root c -> c < hi ->
       nth_error (snd s') (first + ch) = Some x -> nth_error (snd s') (first + c) = Some y ->
       fleb y x = true)).
  { destruct (Nat.ltb_spec (ch0 + 1) hi) as [H1|H1].
    - getx Hf' (first + ch0) x.
      replace (first + ch0 + 1) with (first + (ch0 + 1)) by lia.
      getx Hf' (first + (ch0 + 1)) y.
      destruct (fltb x y) eqn:Elt; apply yields_ok; (split; [unfold child, ch0; lia|]; split; [lia|]);
        intros Hn c u w Hch Hchi Eu Ew;
        assert (nn x) by (eapply Hn; [|exact Nx]; lia);
        assert (nn y) by (eapply Hn; [|exact Ny]; lia);
        (assert (Hc2 : c = ch0 \/ c = ch0 + 1) by (unfold child, ch0 in *; lia);
         destruct Hc2 as [->| ->]).
      + assert (u = y) by congruence. assert (w = x) by congruence. subst. apply flt_le; auto.
      + assert (u = y) by congruence. assert (w = y) by congruence. subst. apply fle_refl; auto.
      + assert (u = x) by congruence. assert (w = x) by congruence. subst. apply fle_refl; auto.
      + assert (u = x) by congruence. assert (w = y) by congruence. subst. apply flt_not_le; auto.
    - apply yields_ok. split; [unfold child, ch0; lia|]. split; [lia|].
      intros Hn c u w Hch Hchi Eu Ew.
      assert (c = ch0) by (unfold child, ch0 in *; lia). subst c. assert (w = u) by congruence. subst.
      apply fle_refl. eapply Hn; [|exact Eu]. lia. }
  clear ch0 Hc. intros ch (Hch & Hchi & Hmax).
  assert (Hrc : root < ch) by (unfold child in Hch; lia).
  getx Hf' (first + root) xr. getx Hf' (first + ch) xc.
  destruct (fleb xc xr) eqn:Ele.
  - apply yields_ok. split; auto. intros Hn Hh. destruct (HW Hn Hh) as [HA HB].
    assert (Hn' : NN first (first + hi) s') by (eapply steps_all; eauto).
    intros p c x y Hp Hpc Hci Ex Ey.
    destruct (Nat.eq_dec p root) as [->|Hpr]; [|eapply HA; eauto].
    assert (x = xr) by congruence. subst x.
    apply fle_trans with xc; auto. eapply Hmax; eauto.
  - destruct (swap_ok (first + hi) s' (first + root) (first + ch)) as [s2 E]; auto; try lia.
    rewrite E; cbn [bind]. apply yields_ok. split; [|lia]. split; [lia|]. split.
    { eapply steps_snoc; [eauto| | |eauto]; lia. }
    intros Hn Hh. destruct (HW Hn Hh) as [HA HB].
    assert (Hn' : NN first (first + hi) s') by (eapply steps_all; eauto).
    specialize (Hmax Hn').
    assert (nn xr) by (eapply Hn'; [|exact Nxr]; lia).
    assert (nn xc) by (eapply Hn'; [|exact Nxc]; lia).
    assert (Hle : fleb xr xc = true).
    { destruct (fle_total xr xc); auto. congruence. }
    split.
    + intros p c x y Hp Hpc Hcp Hci Ex Ey.
      rewrite (swap_nth _ _ _ _ _ E), !add_eqb in Ex. rewrite (swap_nth _ _ _ _ _ E), !add_eqb in Ey.
      destruct (Nat.eqb_spec p root) as [->|Hpr].
      * assert (x = xc) by congruence. subst x.
        destruct (Nat.eqb_spec c root); [unfold child in *; lia|].
        destruct (Nat.eqb_spec c ch); [|eapply Hmax; eauto].
        assert (y = xr) by congruence. subst y. auto.
      * destruct (Nat.eqb_spec p ch); [lia|].
        destruct (Nat.eqb_spec c root) as [->|Hcr].
        { eapply (HB p ch); eauto. }
        destruct (Nat.eqb_spec c ch) as [->|Hcc].
        { unfold child in *; lia. }
        eapply (HA p c); eauto.
    + intros p c x y Hp Hpc Hcp Hci Ex Ey.
      rewrite (swap_nth _ _ _ _ _ E), !add_eqb in Ex. rewrite (swap_nth _ _ _ _ _ E), !add_eqb in Ey.
      assert (p = root) by (unfold child in *; lia). subst p.
      rewrite Nat.eqb_refl in Ex. assert (x = xc) by congruence. subst x.
      destruct (Nat.eqb_spec c root); [unfold child in *; lia|].
      destruct (Nat.eqb_spec c ch); [unfold child in *; lia|].
      eapply (HA ch c); eauto; lia.
Qed.

Lemma heap_max n first s :
  NN first (first + n) s -> heap_from 0 n first s ->
  (forall k, k < n -> exists x, nth_error (snd s) (first + k) = Some x) ->
  forall k x y, k < n -> nth_error (snd s) first = Some x ->
    nth_error (snd s) (first + k) = Some y -> fleb y x = true.
Proof.
  intros Hn Hh Hd k. induction k as [k IH] using lt_wf_ind. intros x y Hk Ex Ey.
  destruct (Nat.eq_dec k 0) as [->|Hk0].
  - rewrite Nat.add_0_r in Ey. assert (x = y) by congruence. subst. apply fle_refl.
    eapply Hn; [|exact Ex]. lia.
  - assert (Hp : exists p, child p k).
    { exists ((k - 1) / 2). unfold child.
      pose proof (Nat.div_mod (k-1) 2). pose proof (Nat.mod_upper_bound (k-1) 2). lia. }
    destruct Hp as [p Hp]. assert (p < k) by (unfold child in Hp; lia).
    destruct (Hd p) as [z Ez]; [lia|].
    apply fle_trans with z.
    + eapply (Hh p k); eauto; lia.
    + eapply (IH p); eauto; lia.
Qed.

Lemma heapSort_ok s a b :
  fits b s -> a < b ->
  yields (heapSort s a b)
    (fun s' => steps a b s s' /\ (NN a b s -> sorted_range a b s')).
Proof.
  intros Hf Hab. unfold heapSort.
  remember (b - a) as hi eqn:Ehi.
  assert (Eb : b = a + hi) by lia. clear Ehi. subst b.
  eapply yields_bind.
  { apply (@for_down_total _ (fun i s' => steps a (a + hi) s s' /\
      (NN a (a + hi) s -> heap_from i hi a s'))).
    - intros i s1 Hi [HS HO].
      assert (Hf1 : fits (a + hi) s1) by (eapply steps_fits; eauto).
      eapply yields_weaken; [apply siftDown_ok; auto|]. cbv beta.
      intros s2 [HS2 HO2]. split; [eapply steps_trans; eauto|].
      intros Hn. apply HO2; auto. eapply steps_all; eauto.
    - split; [constructor|]. intros _ p c x y Hp Hch Hc. exfalso.
      pose proof (Nat.div_mod (hi-1) 2). pose proof (Nat.mod_upper_bound (hi-1) 2).
      unfold child in Hch. lia. }
  cbv beta. intros s1 [HS1 HO1].
  eapply yields_weaken.
  { apply (@for_down_total _ (fun i s' => i <= hi /\ steps a (a + hi) s s' /\
      (NN a (a + hi) s -> heap_from 0 i a s' /\ sorted_range (a + i) (a + hi) s' /\
         forall k q x y, k < i -> i <= q < hi ->
           nth_error (snd s') (a + k) = Some x -> nth_error (snd s') (a + q) = Some y ->
           fleb x y = true))).
    - intros i s2 Hi (_ & HS2 & HO2).
      assert (Hf2 : fits (a + hi) s2) by (eapply steps_fits; eauto).
      destruct (swap_ok (a + hi) s2 a (a + i)) as [s3 E3]; auto; try lia.
      rewrite E3; cbn [bind].
      assert (HS3 : steps a (a + hi) s s3).
      { eapply steps_snoc; [exact HS2| | |exact E3]; lia. }
      assert (Hf3 : fits (a + hi) s3) by (eapply steps_fits; eauto).
      eapply yields_weaken; [apply siftDown_ok; destruct Hf3; split; lia|]. cbv beta.
      intros s4 [HS4 HO4]. split; [lia|]. split.
      { eapply steps_trans; eauto. eapply steps_widen; [| |exact HS4]; lia. }
      intros Hn. destruct (HO2 Hn) as (Hh & Hs & Hlow).
      assert (Hn2 : NN a (a + hi) s2) by (eapply steps_all; eauto).
      assert (Hn3 : NN a (a + hi) s3) by (eapply steps_all; eauto).
      assert (Hdef : forall k, k < S i -> exists x, nth_error (snd s2) (a + k) = Some x).
      { intros k Hk. destruct (get_fits _ _ (a + k) Hf2) as (x & _ & Ex); [lia|]. eauto. }
      assert (Hmax : forall k x y, k < S i -> nth_error (snd s2) a = Some x ->
                nth_error (snd s2) (a + k) = Some y -> fleb y x = true).
      { intros. eapply (heap_max (S i) a s2); eauto.
        intros j z Hj. apply Hn2. lia. }
      (* facts about s3 *)
      assert (N3 : forall k, nth_error (snd s3) (a + k) =
                 if k =? 0 then nth_error (snd s2) (a + i)
                 else if k =? i then nth_error (snd s2) a else nth_error (snd s2) (a + k)).
      { intros k. rewrite (swap_nth _ _ _ _ _ E3).
        rewrite add_eqb. destruct (Nat.eqb_spec k 0); destruct (Nat.eqb_spec (a + k) a); auto; lia. }
      assert (Top : forall k x y, k < i -> nth_error (snd s3) (a + k) = Some x ->
                nth_error (snd s3) (a + i) = Some y -> fleb x y = true).
      { intros k x y Hk Ex Ey. rewrite N3 in Ex, Ey.
        destruct (Nat.eqb_spec i 0); [lia|]. rewrite Nat.eqb_refl in Ey.
        destruct (Nat.eqb_spec k 0) as [->|].
        - eapply Hmax; [|exact Ey|exact Ex]; lia.
        - destruct (Nat.eqb_spec k i); [lia|].
          eapply (Hmax k); [|exact Ey|exact Ex]; lia. }
      assert (Low3 : forall k q x y, k <= i -> S i <= q < hi ->
           nth_error (snd s3) (a + k) = Some x -> nth_error (snd s3) (a + q) = Some y ->
           fleb x y = true).
      { intros k q x y Hk Hq Ex Ey. rewrite N3 in Ex, Ey.
        destruct (Nat.eqb_spec q 0); [lia|]. destruct (Nat.eqb_spec q i); [lia|].
        destruct (Nat.eqb_spec k 0).
        - eapply (Hlow i q); eauto.
        - destruct (Nat.eqb_spec k i).
          + eapply (Hlow 0 q); eauto; try lia. rewrite Nat.add_0_r; auto.
          + eapply (Hlow k q); eauto; lia. }
      split; [|split].
      + apply HO4.
        * intros k x Hk. apply Hn3. lia.
        * intros p c x y Hp Hch Hc Ex Ey. rewrite N3 in Ex, Ey.
          unfold child in Hch.
          destruct (Nat.eqb_spec p 0); [lia|]. destruct (Nat.eqb_spec p i); [lia|].
          destruct (Nat.eqb_spec c 0); [lia|]. destruct (Nat.eqb_spec c i); [lia|].
          eapply (Hh p c); eauto; lia.
      + intros p q x y Hp Hpq Hq Ex Ey.
        rewrite (steps_out _ _ _ _ _ HS4) in Ex by lia.
        rewrite (steps_out _ _ _ _ _ HS4) in Ey by lia.
        replace p with (a + (p - a)) in Ex by lia. replace q with (a + (q - a)) in Ey by lia.
        destruct (Nat.eq_dec p (a + i)).
        * eapply (Low3 (p - a) (q - a)); eauto; lia.
        * rewrite N3 in Ex, Ey.
          destruct (Nat.eqb_spec (p - a) 0); [lia|]. destruct (Nat.eqb_spec (p - a) i); [lia|].
          destruct (Nat.eqb_spec (q - a) 0); [lia|]. destruct (Nat.eqb_spec (q - a) i); [lia|].
          eapply (Hs (a + (p - a)) (a + (q - a))); eauto; lia.
      + intros k q x y Hk Hq Ex Ey.
        rewrite (steps_out _ _ _ _ (a + q) HS4) in Ey by lia.
        revert Hk Ex.
        assert (HP : all_in a (a + i) (fun x => fleb x y = true) s3).
        { intros j z Hj Ez. replace j with (a + (j - a)) in Ez by lia.
          destruct (Nat.eq_dec q i) as [->|].
          - eapply (Top (j - a)); eauto; lia.
          - eapply (Low3 (j - a) q); eauto; lia. }
        intros Hk Ex. eapply (steps_all _ _ _ _ _ HS4) in HP. eapply HP; [|exact Ex]. lia.
    - split; [lia|]. split; [exact HS1|]. intros Hn. split; [auto|]. split.
      + intros p q; intros; lia.
      + intros; lia. }
  cbn. intros s2 (_ & HS2 & HO2). split; auto.
  intros Hn. destruct (HO2 Hn) as (_ & Hs & _). rewrite Nat.add_0_r in Hs. auto.
Qed.

(** ** quickSort and SortBy *)

Lemma quickSort_ok md : forall s a b,
  fits b s -> a <= b ->
  yields (quickSort md s a b)
    (fun s' => steps a b s s' /\ (NN a b s -> sorted_range a b s')).
Proof.
  assert (Hsmall : forall s a b, fits b s -> a <= b ->
    yields (if 1 <? b - a then insertionSort s a b else Ok s)
      (fun s' => steps a b s s' /\ (NN a b s -> sorted_range a b s'))).
  { intros s a b Hf Hab. destruct (Nat.ltb_spec 1 (b - a)).
    - apply insertionSort_ok; auto; lia.
    - apply yields_ok. split; [constructor|]. intros _ p q; intros; lia. }
  induction md as [|md IH]; intros s a b Hf Hab; cbn [quickSort];
    (destruct (Nat.ltb_spec 7 (b - a)) as [H7|H7]; [|auto]).
  { apply heapSort_ok; auto; lia. }
  eapply yields_bind; [apply doPivot_ok; auto|].
  intros [[s1 mlo] mhi] (HS1 & Hmlo & Hmhi & HP).
  assert (Hf1 : fits b s1) by (eapply steps_fits; eauto).
  assert (Final : forall s3,
     steps a b s s3 ->
     (NN a b s1 -> mlo <= mhi -> sorted_range a mlo s3 /\ sorted_range mhi b s3 /\
        forall P, (all_in a mlo P s1 -> all_in a mlo P s3) /\
                  (all_in mlo mhi P s1 -> all_in mlo mhi P s3) /\
                  (all_in mhi b P s1 -> all_in mhi b P s3)) ->
     steps a b s s3 /\ (NN a b s -> sorted_range a b s3)).
  { intros s3 HS HO. split; auto. intros Hn.
    destruct (HP Hn) as (Hle & pv & Hpv & A1 & A2 & A3).
    assert (Hn1 : NN a b s1) by (eapply steps_all; eauto).
    destruct (HO Hn1 Hle) as (O1 & O2 & OP).
    pose proof (proj1 (OP _) A1) as B1.
    pose proof (proj1 (proj2 (OP _)) A2) as B2.
    pose proof (proj2 (proj2 (OP _)) A3) as B3.
    intros p q x y Hp Hpq Hq Ex Ey.
    destruct (le_lt_dec mlo p) as [Hp1|Hp1].
    - destruct (le_lt_dec mhi p) as [Hp2|Hp2].
      + eapply (O2 p q); eauto.
      + assert (Fx : feqb x pv = true) by (eapply B2; [|exact Ex]; lia).
        destruct (le_lt_dec mhi q).
        * assert (Fy : fltb pv y = true) by (eapply B3; [|exact Ey]; lia).
          clear - Fx Fy. ford.
        * assert (Fy : feqb y pv = true) by (eapply B2; [|exact Ey]; lia).
          clear - Fx Fy. ford.
    - assert (Fx : fltb x pv = true) by (eapply B1; [|exact Ex]; lia).
      destruct (le_lt_dec mlo q).
      + destruct (le_lt_dec mhi q).
        * assert (Fy : fltb pv y = true) by (eapply B3; [|exact Ey]; lia).
          clear - Fx Fy. ford.
        * assert (Fy : feqb y pv = true) by (eapply B2; [|exact Ey]; lia).
          clear - Fx Fy. ford.
      + eapply (O1 p q); eauto. }
  assert (Sub : forall lo hi, a <= lo -> hi <= b -> forall s', NN a b s' -> NN lo hi s').
  { intros lo hi Hl Hh s' Hn k x Hk. apply Hn. lia. }
  destruct (Nat.ltb_spec (mlo - a) (b - mhi)) as [Hc|Hc].
  - eapply yields_bind; [apply IH; [destruct Hf1; split; lia|lia]|].
    intros s2 [HS2 HO2].
    assert (Hf2 : fits b s2) by (eapply steps_fits; eauto).
    eapply yields_weaken; [apply IH; auto; lia|].
    intros s3 [HS3 HO3]. apply Final.
    + eapply steps_trans; [exact HS1|]. eapply steps_trans.
      * eapply steps_widen; [| |exact HS2]; lia.
      * eapply steps_widen; [| |exact HS3]; lia.
    + intros Hn1 Hle. split; [|split].
      * assert (O : sorted_range a mlo s2) by (apply HO2; apply (Sub a mlo); auto; lia).
        intros p q x y Hp Hpq Hq Ex Ey.
        rewrite (steps_out _ _ _ _ _ HS3) in Ex by lia.
        rewrite (steps_out _ _ _ _ _ HS3) in Ey by lia.
        eapply (O p q); eauto.
      * apply HO3. apply (Sub mhi b); try lia.
        eapply steps_all_wide; [| |exact HS2|exact Hn1]; lia.
      * intros P. split; [|split]; intros HA.
        -- eapply steps_all_disj; [|exact HS3|]; [lia|].
           eapply steps_all; eauto.
        -- eapply steps_all_disj; [|exact HS3|]; [lia|].
           eapply steps_all_disj; [|exact HS2|]; [lia|]. auto.
        -- eapply steps_all; [exact HS3|].
           eapply steps_all_disj; [|exact HS2|]; [lia|]. auto.
  - eapply yields_bind; [apply IH; [auto|lia]|].
    intros s2 [HS2 HO2].
    assert (Hf2 : fits b s2) by (eapply steps_fits; eauto).
    eapply yields_weaken; [apply IH; [destruct Hf2; split; lia|lia]|].
    intros s3 [HS3 HO3]. apply Final.
    + eapply steps_trans; [exact HS1|]. eapply steps_trans.
      * eapply steps_widen; [| |exact HS2]; lia.
      * eapply steps_widen; [| |exact HS3]; lia.
    + intros Hn1 Hle. split; [|split].
      * apply HO3. apply (Sub a mlo); try lia.
        eapply steps_all_wide; [| |exact HS2|exact Hn1]; lia.
      * assert (O : sorted_range mhi b s2) by (apply HO2; apply (Sub mhi b); auto; lia).
        intros p q x y Hp Hpq Hq Ex Ey.
        rewrite (steps_out _ _ _ _ _ HS3) in Ex by lia.
        rewrite (steps_out _ _ _ _ _ HS3) in Ey by lia.
        eapply (O p q); eauto.
      * intros P. split; [|split]; intros HA.
        -- eapply steps_all; [exact HS3|].
           eapply steps_all_disj; [|exact HS2|]; [lia|]. auto.
        -- eapply steps_all_disj; [|exact HS3|]; [lia|].
           eapply steps_all_disj; [|exact HS2|]; [lia|]. auto.
        -- eapply steps_all_disj; [|exact HS3|]; [lia|].
           eapply steps_all; eauto.
Qed.

Lemma maxDepth_loop_ok n : yields (maxDepth_loop n) (fun _ => True).
Proof.
  unfold maxDepth_loop.
  apply (@loop_total _ _ (fun _ => True) (fun '(i, _) => i)); [|auto|lia].
  intros [i md] _. destruct (Nat.ltb_spec 0 i); apply yields_ok; auto.
  split; auto. apply Nat.div_lt; lia.
Qed.

Lemma SortBy_ok cases vals :
  length cases <= length vals ->
  yields (SortBy cases vals)
    (fun s' => steps 0 (length cases) (cases, vals) s' /\
       (NN 0 (length cases) (cases, vals) -> sorted_range 0 (length cases) s')).
Proof.
  intros Hl. unfold SortBy.
  eapply yields_bind; [apply maxDepth_loop_ok|]. intros md _.
  apply quickSort_ok; [split; cbn; lia|lia].
Qed.

(** ** SortBy never loops forever, whatever the lengths *)

Lemma nospin_bind {A B} (m : res A) (k : A -> res B) :
  m <> Spin -> (forall a, m = Ok a -> k a <> Spin) -> bind m k <> Spin.
Proof. destruct m; cbn; auto; congruence. Qed.

Lemma nospin_loop {St R} (Inv : St -> Prop) (mu : St -> nat) (body : St -> res (flow St R)) :
  (forall s, Inv s -> body s <> Spin /\ forall s', body s = Ok (Next s') -> Inv s' /\ mu s' < mu s) ->
  forall fuel s, Inv s -> mu s < fuel -> loop fuel body s <> Spin.
Proof.
  intros Hb; induction fuel as [|f IH]; intros s Hs Hmu; [lia|].
  cbn. apply nospin_bind; [apply Hb; auto|].
  intros [s'|r] E; [|congruence].
  destruct (Hb s Hs) as [_ Hn]. destruct (Hn s' E). apply IH; auto. lia.
Qed.

Lemma nospin_get {A} (l : list A) i : get l i <> Spin.
Proof. unfold get; destruct (nth_error l i); congruence. Qed.
Lemma nospin_set {A} (l : list A) i x : set l i x <> Spin.
Proof. unfold set; destruct (i <? length l); congruence. Qed.
Lemma nospin_swapl {A} (l : list A) i j : swapl l i j <> Spin.
Proof.
  unfold swapl. repeat (apply nospin_bind; intros; try apply nospin_get; try apply nospin_set).
Qed.
Lemma nospin_swap s i j : swap s i j <> Spin.
Proof.
  destruct s as [c v]; cbn. repeat (apply nospin_bind; intros; try apply nospin_swapl). congruence.
Qed.
Lemma nospin_for_up {St} (body : nat -> St -> res St) :
  (forall i s, body i s <> Spin) -> forall n lo s, for_up n lo body s <> Spin.
Proof. intros H; induction n; cbn; intros; [congruence|]. apply nospin_bind; auto. Qed.
Lemma nospin_for_down {St} (body : nat -> St -> res St) :
  (forall i s, body i s <> Spin) -> forall n s, for_down n body s <> Spin.
Proof. intros H; induction n; cbn; intros; [congruence|]. apply nospin_bind; auto. Qed.

Ltac ns := repeat first
  [ apply nospin_get | apply nospin_swap | congruence
  | apply nospin_bind; intros | match goal with |- (if ?b then _ else _) <> Spin => destruct b eqn:? end ].

Lemma nospin_median s a b c : medianOfThree s a b c <> Spin.
Proof. unfold medianOfThree. ns. Qed.

Lemma nospin_pivot_up fuel pv c s : c < fuel -> pivot_up fuel pv c s <> Spin.
Proof.
  intros Hc. unfold pivot_up.
  apply (nospin_loop (fun _ => True) (fun '(_, _, b) => c - b)); auto.
  2:{ destruct s as [[? ?] ?]. lia. }
  intros [[s1 a] b] _. split; [ns|].
  intros s' E. inv_ok E; try discriminate; apply Nat.ltb_lt in Heqb0; split; auto; lia.
Qed.

Lemma pivot_down_mono fuel pv b : forall s c d s' c' d',
  pivot_down fuel pv b (s, c, d) = Ok (s', c', d') -> c' <= c.
Proof.
  intros s c d s' c' d' E. unfold pivot_down in E.
  pose proof (@loop_partial (st * nat * nat) (st * nat * nat) (fun '(_, c1, _) => c1 <= c) (fun '(_, c1, _) => c1 <= c)) as L.
  eapply L in E; [exact E| |cbn; auto].
  intros [[s1 c1] d1] H r Er. inv_ok Er; auto; lia.
Qed.

Lemma nospin_pivot_down fuel pv b s : snd (fst s) < fuel -> pivot_down fuel pv b s <> Spin.
Proof.
  intros Hc. unfold pivot_down.
  apply (nospin_loop (fun _ => True) (fun '(_, c, _) => c)); auto.
  2:{ destruct s as [[? ?] ?]. auto. }
  intros [[s1 c] d] _. split; [ns|].
  intros s' E. inv_ok E; try discriminate; apply Nat.ltb_lt in Heqb0; split; auto; lia.
Qed.

Lemma nospin_pivot_loop fuel pv s a b c d : c < fuel -> pivot_loop fuel pv (s, a, b, c, d) <> Spin.
Proof.
  intros Hc. unfold pivot_loop.
  apply (nospin_loop (fun '(_, _, _, c, _) => c < fuel) (fun '(_, _, _, c, _) => c)); auto.
  clear s a b c d Hc. intros [[[[s a] b] c] d] Hc. split.
  - apply nospin_bind; [apply nospin_pivot_up; auto|]. intros [[s1 a1] b1] _.
    apply nospin_bind; [apply nospin_pivot_down; auto|]. intros [[s2 c2] d2] _. ns.
  - intros s' E. apply bind_ok in E as ([[s1 a1] b1] & E1 & E).
    apply bind_ok in E as ([[s2 c2] d2] & E2 & E).
    apply pivot_down_mono in E2. inv_ok E; try discriminate.
    apply Nat.leb_gt in Heqb0. split; lia.
Qed.

Lemma nospin_doPivot s lo hi : doPivot s lo hi <> Spin.
Proof.
  unfold doPivot. apply nospin_bind.
  { ns; try apply nospin_median. }
  intros s1 _. apply nospin_bind; [apply nospin_median|]. intros s2 _.
  apply nospin_bind; [apply nospin_get|]. intros pv _.
  apply nospin_bind; [apply nospin_pivot_loop; lia|].
  intros [[[[s3 a] b] c] d] _.
  apply nospin_bind; [apply nospin_for_up; intros; apply nospin_swap|]. intros s4 _.
  apply nospin_bind; [apply nospin_for_up; intros; apply nospin_swap|]. intros s5 _.
  congruence.
Qed.

Lemma nospin_sink s a i : sink s a i <> Spin.
Proof.
  unfold sink. apply (nospin_loop (fun _ => True) (fun '(_, j) => j)); auto.
  intros [s1 j] _. split; [ns|].
  intros s' E. inv_ok E; try discriminate. apply Nat.ltb_lt in Heqb. split; auto; lia.
Qed.

Lemma nospin_siftDown s lo hi first : siftDown s lo hi first <> Spin.
Proof.
  unfold siftDown. apply (nospin_loop (fun _ => True) (fun '(_, root) => hi - root)); auto; [|lia].
  intros [s1 root] _. split; [ns|].
  intros s' E. inv_ok E; try discriminate; apply Nat.leb_gt in Heqb;
    split; auto; inv_ok E0; lia.
Qed.

Lemma nospin_heapSort s a b : heapSort s a b <> Spin.
Proof.
  unfold heapSort. apply nospin_bind.
  - apply nospin_for_down. intros; apply nospin_siftDown.
  - intros s1 _. apply nospin_for_down. intros.
    apply nospin_bind; [apply nospin_swap|]. intros; apply nospin_siftDown.
Qed.

Lemma nospin_quickSort md : forall s a b, quickSort md s a b <> Spin.
Proof.
  induction md as [|md IH]; intros s a b; cbn [quickSort];
    destruct (7 <? b - a); try (destruct (1 <? b - a); [|congruence];
      apply nospin_for_up; intros; apply nospin_sink).
  - apply nospin_heapSort.
  - apply nospin_bind; [apply nospin_doPivot|]. intros [[s1 mlo] mhi] _.
    destruct (mlo - a <? b - mhi); apply nospin_bind; auto.
Qed.

Lemma nospin_SortBy cases vals : SortBy cases vals <> Spin.
Proof.
  unfold SortBy. apply nospin_bind.
  - destruct (maxDepth_loop_ok (length cases)) as (x & E & _). congruence.
  - intros. apply nospin_quickSort.
Qed.

(** ** Link to the list level specification *)
From Verif Require Import SortSpec.

Lemma strongly_of_nth (l : list f64) :
  (forall p q x y, p < q -> nth_error l p = Some x -> nth_error l q = Some y -> fleb x y = true) ->
  ascending l.
Proof.
  induction l as [|a l IH]; intros H; constructor.
  - apply IH. intros p q x y Hpq Ex Ey. apply (H (S p) (S q)); cbn; auto; lia.
  - apply Forall_forall. intros x Hx. apply In_nth_error in Hx as [q Hq].
    apply (H 0 (S q)); cbn; auto; lia.
Qed.

Lemma nth_error_firstn {A} (l : list A) n k :
  nth_error (firstn n l) k = if k <? n then nth_error l k else None.
Proof.
  revert n k; induction l as [|a l IH]; intros [|n] [|k]; cbn [firstn nth_error]; auto.
  - destruct (S k <? S n); auto.
  - rewrite IH. reflexivity.
Qed.

Lemma SortBy_sorts cases vals :
  length cases <= length vals -> Forall nn (firstn (length cases) vals) ->
  exists cases' vals', SortBy cases vals = Ok (cases', vals') /\
    Permutation (combine cases vals) (combine cases' vals') /\
    ascending (firstn (length cases) vals').
Proof.
  intros Hl Hn. destruct (SortBy_ok cases vals Hl) as ([c v] & E & HS & HO).
  exists c, v. split; auto. split; [apply (steps_perm _ _ _ _ HS)|].
  apply strongly_of_nth. intros p q x y Hpq Ex Ey.
  rewrite nth_error_firstn in Ex. rewrite nth_error_firstn in Ey.
  destruct (Nat.ltb_spec p (length cases)); [|discriminate].
  destruct (Nat.ltb_spec q (length cases)); [|discriminate].
  refine (HO _ p q x y _ Hpq _ Ex Ey); try lia.
  intros k z Hk Ez. rewrite Forall_forall in Hn. apply Hn.
  apply nth_error_In with k. rewrite nth_error_firstn.
  destruct (Nat.ltb_spec k (length cases)); [auto|lia].
Qed.

Lemma nth_error_skipn {A} (l : list A) n k : nth_error (skipn n l) k = nth_error l (n + k).
Proof.
  revert n; induction l as [|a l IH]; intros [|n]; cbn; auto; try (destruct k; auto).
Qed.

Lemma SortBy_total cases vals :
  length cases <= length vals ->
  exists cases' vals', SortBy cases vals = Ok (cases', vals') /\
    length cases' = length cases /\ length vals' = length vals /\
    Permutation (combine cases vals) (combine cases' vals') /\
    skipn (length cases) vals' = skipn (length cases) vals.
Proof.
  intros Hl. destruct (SortBy_ok cases vals Hl) as ([c v] & E & HS & _).
  exists c, v. split; auto.
  pose proof (steps_len _ _ _ _ HS) as [L1 L2]; cbn in L1, L2.
  split; auto. split; auto. split; [apply (steps_perm _ _ _ _ HS)|].
  apply nth_error_ext'. intros k. rewrite !nth_error_skipn.
  apply (steps_out _ _ _ _ (length cases + k) HS). lia.
Qed.
