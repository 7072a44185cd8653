(** Proofs about the searches over categories. *)
From Verif Require Import Go GoLemmas F64 F64Order ModelFeature ModelSplit SplitSpec SplitProofs
  ModelSearch SearchSpec SearchProofs.
Local Open Scope nat_scope.
Local Open Scope list_scope.

Lemma nth_error_nth' {B} (l : list B) i d : i < length l -> nth_error l i = Some (nth i l d).
Proof. intros. apply nth_error_nth'; auto. Qed.

(** The category of a case *)
Definition catv (f : catF) (c : nat) : nat := nth c (cData f) 0.

(** ** Bits *)

Lemma land_shl1 b k : (0 <= b < 2 ^ 63)%Z -> negb (Z.land b (shl1 k) =? 0)%Z = intbit b k.
Proof.
  intros Hb. unfold shl1, intbit.
  assert (Hhi : forall j, (63 <= j)%Z -> Z.testbit b j = false).
  { intros j Hj. apply Z.bits_above_log2; [lia|].
    destruct (Z.eq_dec b 0) as [->|]; [cbn; lia|]. assert (Z.log2 b < 63)%Z by (apply Z.log2_lt_pow2; lia). lia. }
  destruct (Nat.ltb_spec k 63).
  - replace (k <? 64) with true by (symmetry; apply Nat.ltb_lt; lia). cbn [andb].
    rewrite <- (Z.mul_1_l (2 ^ Z.of_nat k)), <- Z.shiftl_mul_pow2 by lia.
    destruct (Z.testbit b (Z.of_nat k)) eqn:E.
    + apply negb_true_iff. apply Z.eqb_neq. intros Hz.
      apply (f_equal (fun z => Z.testbit z (Z.of_nat k))) in Hz.
      rewrite Z.land_spec, E, Z.shiftl_spec, Z.sub_diag, Z.bits_0 in Hz by lia. discriminate.
    + apply negb_false_iff. apply Z.eqb_eq. apply Z.bits_inj'. intros n Hn.
      rewrite Z.land_spec, Z.shiftl_spec, Z.bits_0 by lia.
      destruct (Z.eq_dec n (Z.of_nat k)) as [->|N]; [rewrite E; auto|].
      replace (Z.testbit 1 (n - Z.of_nat k)) with false; [apply andb_false_r|].
      symmetry. destruct (Z.lt_ge_cases n (Z.of_nat k)).
      * apply Z.testbit_neg_r. lia.
      * apply Z.bits_above_log2; cbn; lia.
  - destruct (Nat.eqb_spec k 63) as [->|].
    + change (63 <? 64) with true. cbn [andb]. rewrite Hhi by lia.
      apply negb_false_iff. apply Z.eqb_eq. apply Z.bits_inj'. intros n Hn.
      rewrite Z.land_spec, Z.bits_0. destruct (Z.lt_ge_cases n 63).
      * replace (Z.testbit (- 2 ^ 63) n) with false; [apply andb_false_r|].
        symmetry. rewrite <- (Z.mul_1_l (2 ^ 63)), Z.mul_comm, Z.mul_comm, <- Z.mul_opp_l.
        apply Z.mul_pow2_bits_low. lia.
      * rewrite Hhi by lia. reflexivity.
    + replace (k <? 64) with false by (symmetry; apply Nat.ltb_ge; lia). rewrite Z.land_0_r. reflexivity.
Qed.

(** The code of a set of the first n categories. *)
Fixpoint enc (s : nat -> bool) (n : nat) : Z :=
  match n with
  | 0 => 0%Z
  | S n => ((if s n then 2 ^ Z.of_nat n else 0) + enc s n)%Z
  end.

Lemma enc_bound s n : (0 <= enc s n < 2 ^ Z.of_nat n)%Z.
Proof.
  induction n as [|n IH]; [cbn; lia|]. cbn [enc]. rewrite Nat2Z.inj_succ, Z.pow_succ_r by lia.
  destruct (s n); lia.
Qed.

Lemma enc_bit s n i : i < n -> Z.testbit (enc s n) (Z.of_nat i) = s i.
Proof.
  induction n as [|n IH]; intros Hi; [lia|]. cbn [enc]. pose proof (enc_bound s n) as B.
  destruct (Nat.eq_dec i n) as [->|N].
  - destruct (s n) eqn:E.
    + rewrite Z.add_comm. replace (enc s n + 2 ^ Z.of_nat n)%Z with (enc s n + 1 * 2 ^ Z.of_nat n)%Z by lia.
      rewrite Z.add_comm.
      assert (Hd : ((1 * 2 ^ Z.of_nat n + enc s n) / 2 ^ Z.of_nat n = 1)%Z).
      { rewrite Z.div_add_l by lia. rewrite Z.div_small by lia. lia. }
      rewrite <- (Z.add_0_l (Z.of_nat n)) at 2.
      rewrite <- Z.div_pow2_bits by lia. rewrite Hd. reflexivity.
    + rewrite Z.add_0_l. destruct (Z.eq_dec (enc s n) 0) as [->|]; [apply Z.bits_0|].
      apply Z.bits_above_log2; [lia|]. apply Z.log2_lt_pow2; lia.
  - destruct (s n).
    + rewrite <- (Z.mod_pow2_bits_low _ (Z.of_nat n)) by lia.
      replace (2 ^ Z.of_nat n + enc s n)%Z with (enc s n + 1 * 2 ^ Z.of_nat n)%Z by lia.
      rewrite Z.mod_add by lia. rewrite Z.mod_small by lia. apply IH. lia.
    + rewrite Z.add_0_l. apply IH. lia.
Qed.

(** ** Partitions *)

(** A list whose first l elements satisfy P and whose others do not. *)
Lemma split_at (P : nat -> bool) cases cs l :
  Permutation cases cs -> l <= length cs ->
  (forall i, i < l -> P (nth i cs 0) = true) ->
  (forall i, l <= i < length cs -> P (nth i cs 0) = false) ->
  Permutation (side P cases) (firstn l cs) /\ Permutation (other P cases) (skipn l cs) /\
  length (side P cases) = l /\ length (other P cases) = length cs - l.
Proof.
  intros HP Hl H1 H2. destruct (filter_at P cs l Hl H1 H2) as [F1 F2].
  assert (Q1 : Permutation (side P cases) (firstn l cs)).
  { rewrite <- F1. apply Permutation_filter; auto. }
  assert (Q2 : Permutation (other P cases) (skipn l cs)).
  { rewrite <- F2. apply Permutation_filter; auto. }
  split; auto. split; auto.
  rewrite (Permutation_length Q1), (Permutation_length Q2), firstn_length, skipn_length. lia.
Qed.

Section Feature.
  Variable f : catF.
  Variable cases : list nat.
  Hypothesis Hdata : Forall (fun c => c < length (cData f)) cases.

  Variable N : nat.
  Definition synced (cs : list nat) (cached : list Z) : Prop :=
    (length cached = N /\ length cs <= length cached) /\
    forall i, i < length cs -> nth_error cached i = Some (shl1 (catv f (nth i cs 0))).

  Lemma synced_swap cs cached i j cs' cached' :
    synced cs cached -> i < length cs -> j < length cs ->
    swapl cs i j = Ok cs' -> swapl cached i j = Ok cached' -> synced cs' cached'.
  Proof.
    intros [[LN L] Sy] Hi Hj E1 E2. pose proof (swapl_length _ _ _ E1) as L1. pose proof (swapl_length _ _ _ E2) as L2.
    split; [lia|]. intros k Hk. rewrite (swapl_nth _ _ _ k E2).
    assert (Nt : forall m, m < length cs -> nth_error cs m = Some (nth m cs 0)) by (intros; apply nth_error_nth'; auto).
    pose proof (swapl_nth _ _ _ k E1) as Ek. rewrite (nth_error_nth' cs' k 0 Hk) in Ek.
    destruct (k =? i); [|destruct (k =? j)].
    - rewrite Nt in Ek by lia. rewrite Sy by lia. congruence.
    - rewrite Nt in Ek by lia. rewrite Sy by lia. congruence.
    - rewrite Nt in Ek by lia. rewrite Sy by lia. congruence.
  Qed.

  Lemma swap_nth (cs cs' : list nat) i j : swapl cs i j = Ok cs' -> forall k, k < length cs ->
    nth k cs' 0 = if k =? i then nth j cs 0 else if k =? j then nth i cs 0 else nth k cs 0.
  Proof.
    intros E k Hk. pose proof (swapl_nth _ _ _ k E) as Ek. pose proof (swapl_length _ _ _ E).
    pose proof (swapl_lt _ _ _ E) as [].
    rewrite (nth_error_nth' cs' k 0) in Ek by lia.
    destruct (k =? i); [|destruct (k =? j)]; rewrite (nth_error_nth' cs _ 0) in Ek by lia; congruence.
  Qed.

  Lemma load_cats_ok cached : length cases <= length cached -> length cached = N ->
    exists cached', load_cats (cData f) cases cached = Ok cached' /\ synced cases cached'.
  Proof.
    intros Hl HN. unfold load_cats.
    destruct (@foreach_total nat (nat * list Z)
      (fun c '((i, cached) : nat * list Z) =>
         let* cat := get (cData f) c in let* cached := set cached i (shl1 cat) in Ok (S i, cached))
      (fun pre post '((i, v) : nat * list Z) => pre ++ post = cases /\ i = length pre /\ length v = length cached /\
          forall j, j < i -> nth_error v j = Some (shl1 (catv f (nth j cases 0))))
      cases [] (0, cached)) as ([i v] & E & E1 & E2 & E3 & E4).
    - intros pre a post [i v] (E1 & E2 & E3 & E4).
      assert (Ha : a < length (cData f)).
      { rewrite Forall_forall in Hdata. apply Hdata. rewrite <- E1, in_app_iff. cbn. auto. }
      rewrite (get_lt (cData f) a 0 Ha). cbn [bind].
      assert (Hlen : length pre < length cached).
      { rewrite <- E1, app_length in Hl. cbn in Hl. lia. }
      rewrite set_ok by lia. cbn [bind]. apply yields_ok. rewrite <- app_assoc. cbn.
      split; auto. split; [rewrite app_length; cbn; lia|]. split; [rewrite upd_length; auto|].
      intros j Hj. rewrite nth_error_upd. destruct (Nat.eqb_spec j i) as [->|Nij].
      + replace (i <? length v) with true by (symmetry; apply Nat.ltb_lt; lia). cbn [andb].
        do 3 f_equal. rewrite <- E1, E2. rewrite app_nth2, Nat.sub_diag by lia. reflexivity.
      + cbn [andb]. apply E4. lia.
    - cbn. repeat split; auto. lia.
    - rewrite E. cbn [bind]. exists v. split; auto. rewrite app_nil_r in E1. cbn in E2.
      split; [lia|]. subst i. auto.
  Qed.

  (** The two way partition of BestCatSplit *)
  Lemma cat_part_ok b cs cached : (0 <= b < 2 ^ 63)%Z -> Permutation cases cs -> synced cs cached ->
    exists cs' cached' l, cat_part b cs cached = Ok (cs', cached', l, l) /\
      Permutation cases cs' /\ synced cs' cached' /\ l <= length cs' /\
      (forall i, i < l -> intbit b (catv f (nth i cs' 0)) = true) /\
      (forall i, l <= i < length cs' -> intbit b (catv f (nth i cs' 0)) = false).
  Proof.
    intros Hb HP HS. set (n := length cs).
    assert (Y : yields (cat_part b cs cached)
      (fun '((cs, cached, l, r) : list nat * list Z * nat * nat) =>
         Permutation cases cs /\ synced cs cached /\ l = r /\ l <= length cs /\
         (forall i, i < l -> intbit b (catv f (nth i cs 0)) = true) /\
         (forall i, l <= i < length cs -> intbit b (catv f (nth i cs 0)) = false))).
    { unfold cat_part. apply (@loop_total (list nat * list Z * nat * nat * nat) (list nat * list Z * nat * nat)
      (fun '((cs, cached, l, j, r) : list nat * list Z * nat * nat * nat) =>
         Permutation cases cs /\ synced cs cached /\ length cs = n /\ l = j /\ j <= r <= n /\
         (forall i, i < j -> intbit b (catv f (nth i cs 0)) = true) /\
         (forall i, r <= i < n -> intbit b (catv f (nth i cs 0)) = false))
      (fun '((cs, cached, l, j, r) : list nat * list Z * nat * nat * nat) => r - j)).
    - intros [[[[c k] l] j] r] (P & Sy & Ln & -> & Hjr & A1 & A2).
      destruct (Nat.ltb_spec j r) as [Hlt|Hge].
      + rewrite (get_nth k j (proj2 Sy j ltac:(lia))). cbn [bind]. rewrite land_shl1 by auto.
        destruct (intbit b (catv f (nth j c 0))) eqn:Eb.
        * apply yields_ok. split; [|lia]. repeat split; auto; try apply Sy; try lia.
          intros i Hi. destruct (Nat.eq_dec i j) as [->|]; auto. apply A1. lia.
        * destruct (@swapl_ok _ c j (r - 1)) as (c' & Ec); try lia.
          destruct (@swapl_ok _ k j (r - 1)) as (k' & Ek); try (destruct Sy; lia).
          rewrite Ec. cbn [bind]. rewrite Ek. cbn [bind]. apply yields_ok.
          pose proof (swapl_length _ _ _ Ec) as Lc.
          split; [|lia]. split; [etransitivity; [exact P|eapply swapl_perm; eauto]|].
          split; [eapply synced_swap; eauto; lia|]. split; [lia|]. split; [auto|]. split; [lia|]. split.
          -- intros i Hi. rewrite (swap_nth _ _ _ _ Ec) by lia.
             destruct (Nat.eqb_spec i j); [lia|]. destruct (Nat.eqb_spec i (r - 1)); [lia|]. auto.
          -- intros i Hi. rewrite (swap_nth _ _ _ _ Ec) by lia.
             destruct (Nat.eqb_spec i j) as [->|].
             { assert (r = S j) by lia. subst r. replace (S j - 1) with j by lia. auto. }
             destruct (Nat.eqb_spec i (r - 1)) as [->|]; [auto|]. apply A2. lia.
      + apply yields_ok. assert (j = r) by lia. subst r. rewrite Ln.
        repeat split; auto; try apply Sy; lia.
    - cbn. split; auto. split; auto. repeat split; auto; try lia; intros; lia.
    - cbn. lia. }
    destruct Y as ([[[cs' cached'] l] r] & E & Q). rewrite E. destruct Q as (Q1 & Q2 & <- & Q3 & Q4 & Q5). exists cs', cached', l. auto 10.
  Qed.

  (** The two way partition of BestBinSplit *)
  Lemma bin_part_ok : exists cs' l, bin_part (cData f) cases = Ok (cs', l, l) /\
      Permutation cases cs' /\ l <= length cs' /\
      (forall i, i < l -> (catv f (nth i cs' 0) =? 1) = true) /\
      (forall i, l <= i < length cs' -> (catv f (nth i cs' 0) =? 1) = false).
  Proof.
    set (n := length cases).
    assert (Y : yields (bin_part (cData f) cases)
      (fun '((cs, l, r) : list nat * nat * nat) =>
         Permutation cases cs /\ l = r /\ l <= length cs /\
         (forall i, i < l -> (catv f (nth i cs 0) =? 1) = true) /\
         (forall i, l <= i < length cs -> (catv f (nth i cs 0) =? 1) = false))).
    { unfold bin_part. apply (@loop_total (list nat * nat * nat * nat) (list nat * nat * nat)
      (fun '((cs, l, j, r) : list nat * nat * nat * nat) =>
         Permutation cases cs /\ length cs = n /\ l = j /\ j <= r <= n /\
         (forall i, i < j -> (catv f (nth i cs 0) =? 1) = true) /\
         (forall i, r <= i < n -> (catv f (nth i cs 0) =? 1) = false))
      (fun '((cs, l, j, r) : list nat * nat * nat * nat) => r - j)).
    - intros [[[c l] j] r] (P & Ln & -> & Hjr & A1 & A2).
      destruct (Nat.ltb_spec j r) as [Hlt|Hge].
      + rewrite (get_lt c j 0) by lia. cbn [bind].
        assert (Hc : nth j c 0 < length (cData f)).
        { rewrite Forall_forall in Hdata. apply Hdata. eapply Permutation_in; [symmetry; exact P|].
          apply nth_In. lia. }
        rewrite (get_lt (cData f) _ 0 Hc). cbn [bind]. fold (catv f (nth j c 0)).
        destruct (catv f (nth j c 0) =? 1) eqn:Eb.
        * apply yields_ok. split; [|lia]. repeat split; auto; try lia.
          intros i Hi. destruct (Nat.eq_dec i j) as [->|]; auto. apply A1. lia.
        * destruct (@swapl_ok _ c j (r - 1)) as (c' & Ec); try lia.
          rewrite Ec. cbn [bind]. apply yields_ok.
          pose proof (swapl_length _ _ _ Ec) as Lc.
          split; [|lia]. split; [etransitivity; [exact P|eapply swapl_perm; eauto]|].
          split; [lia|]. split; [auto|]. split; [lia|]. split.
          -- intros i Hi. rewrite (swap_nth _ _ _ _ Ec) by lia.
             destruct (Nat.eqb_spec i j); [lia|]. destruct (Nat.eqb_spec i (r - 1)); [lia|]. auto.
          -- intros i Hi. rewrite (swap_nth _ _ _ _ Ec) by lia.
             destruct (Nat.eqb_spec i j) as [->|].
             { assert (r = S j) by lia. subst r. replace (S j - 1) with j by lia. auto. }
             destruct (Nat.eqb_spec i (r - 1)) as [->|]; [auto|]. apply A2. lia.
      + apply yields_ok. assert (j = r) by lia. subst r. rewrite Ln.
        repeat split; auto; lia.
    - cbn. split; auto. repeat split; auto; try lia; intros; lia.
    - cbn. lia. }
    destruct Y as ([[cs' l] r] & E & Q). rewrite E. destruct Q as (Q1 & <- & Q3 & Q4 & Q5). exists cs', l. auto 10.
  Qed.

  (** The lists built by the iterative and the big searches *)
  Lemma by_bit_ok bit : by_bit bit (cData f) cases =
    Ok (side (among f bit) cases, other (among f bit) cases).
  Proof.
    unfold by_bit.
    destruct (@foreach_total nat (list nat * list nat)
      (fun c '((l, r) : list nat * list nat) =>
         let* cat := get (cData f) c in Ok (if bit cat then (l ++ [c], r) else (l, r ++ [c])))
      (fun pre post '((l, r) : list nat * list nat) => pre ++ post = cases /\
         l = side (among f bit) pre /\ r = other (among f bit) pre)
      cases [] ([], [])) as ([l r] & E & E1 & -> & ->).
    - intros pre a post [l r] (E1 & -> & ->).
      assert (Ha : a < length (cData f)).
      { rewrite Forall_forall in Hdata. apply Hdata. rewrite <- E1, in_app_iff. cbn. auto. }
      rewrite (get_lt (cData f) a 0 Ha). cbn [bind]. apply yields_ok.
      unfold side, other. rewrite !filter_app. cbn [filter]. unfold among at 3 6.
      destruct (bit (nth a (cData f) 0)) eqn:Eb; cbn [negb]; rewrite <- app_assoc; cbn;
        unfold among; rewrite ?Eb, ?app_nil_r; auto.
    - cbn. auto.
    - rewrite app_nil_r in E1. rewrite E. subst. reflexivity.
  Qed.
End Feature.

(** ** Running maxima *)

Section Best.
  Variables (A : arith) (St : Type) (T : target A St) (ok : nat -> Prop) (imp : list nat -> A)
    (cost : list nat -> list nat -> A) (ready : St -> Prop) (holds : list nat -> list nat -> St -> Prop).
  Hypothesis Hon : honest T ok imp cost ready holds.
  Hypothesis Hord : ordered A.
  Variable rnd : nat -> nat.
  Variable f : catF.
  Variable cases : list nat.
  Hypothesis Hdata : Forall (fun c => c < length (cData f)) cases.
  Hypothesis Hok : Forall ok cases.
  Variable parent : A.
  Variable leaf : nat.

  Lemma ordered_trans x y z : nltb A x y = true -> nltb A y z = true -> nltb A x z = true.
  Proof.
    intros H1 H2. destruct (nltb A x z) eqn:E; auto.
    destruct Hord as [_ N]. rewrite (N z x y E H1) in H2. discriminate.
  Qed.
  Lemma ordered_asym x y : nltb A x y = true -> nltb A y x = false.
  Proof.
    intros H. destruct (nltb A y x) eqn:E; auto.
    pose proof (ordered_trans _ _ _ H E). rewrite (proj1 Hord) in H0. discriminate.
  Qed.

  (** The rule of a code, as int or big.Int *)
  Variable rule : Z -> nat -> bool.
  Let adm (b : Z) : Prop := admissible leaf (rule b) cases.
  Let val (b : Z) : A := worth A parent cost (rule b) cases.

  Definition top (b0 : Z) (d0 : A) (seen : list Z) (best : Z) (dec : A) : Prop :=
    ((best = b0 /\ dec = d0) \/ (In best seen /\ adm best /\ dec = val best /\ nltb A d0 dec = true)) /\
    nltb A dec d0 = false /\
    forall b, In b seen -> adm b -> nltb A dec (val b) = false.

  Lemma top_init b0 d0 : top b0 d0 [] b0 d0.
  Proof. split; [left; auto|]. split; [apply (proj1 Hord)|]. intros b []. Qed.

  Lemma top_skip b0 d0 seen best dec b : top b0 d0 seen best dec -> ~ adm b -> top b0 d0 (seen ++ [b]) best dec.
  Proof.
    intros (H1 & H2 & H3) Hb. split; [|split; auto].
    - destruct H1 as [|(H1 & ?)]; [auto|right]. split; auto. apply in_app_iff; auto.
    - intros c Hc Ac. apply in_app_iff in Hc as [Hc|[<-|[]]]; auto. tauto.
  Qed.

  Lemma top_take b0 d0 seen best dec b : top b0 d0 seen best dec -> adm b ->
    top b0 d0 (seen ++ [b]) (if nltb A dec (val b) then b else best) (if nltb A dec (val b) then val b else dec).
  Proof.
    intros (H1 & H2 & H3) Hb. destruct (nltb A dec (val b)) eqn:E.
    - split; [|split].
      + right. split; [apply in_app_iff; cbn; auto|]. split; auto. split; auto.
        destruct H1 as [(_ & ->)|(_ & _ & _ & L)]; auto. eapply ordered_trans; eauto.
      + destruct H1 as [(_ & ->)|(_ & _ & _ & L)]; apply ordered_asym; auto. eapply ordered_trans; eauto.
      + intros c Hc Ac. apply in_app_iff in Hc as [Hc|[<-|[]]].
        * apply (proj2 Hord (val c) dec (val b)); auto.
        * apply (proj1 Hord).
    - split; [|split; auto].
      + destruct H1 as [|(H1 & ?)]; [auto|right]. split; auto. apply in_app_iff; auto.
      + intros c Hc Ac. apply in_app_iff in Hc as [Hc|[<-|[]]]; auto.
  Qed.
End Best.

Lemma admissible_dec leaf goes cases : {admissible leaf goes cases} + {~ admissible leaf goes cases}.
Proof.
  unfold admissible. destruct (le_dec leaf (length (side goes cases))), (le_dec leaf (length (other goes cases)));
    [left|right|right|right]; tauto.
Qed.

Lemma admissible_test leaf (l r : list nat) :
  (length l <? leaf) || (length r <? leaf) = false <-> leaf <= length l /\ leaf <= length r.
Proof.
  rewrite orb_false_iff, !Nat.ltb_ge. tauto.
Qed.

Lemma Forall_filter {B} (P : B -> Prop) g l : Forall P l -> Forall P (filter g l).
Proof. rewrite !Forall_forall. intros H x Hx. apply filter_In in Hx. apply H. tauto. Qed.

Lemma among_int f z c : among f (code_set (CInt z)) c = intbit z (catv f c).
Proof. reflexivity. Qed.

(** ** BestCatSplit *)
Section CatSplit.
  Variables (A : arith) (St : Type) (T : target A St) (ok : nat -> Prop) (imp : list nat -> A)
    (cost : list nat -> list nat -> A) (ready : St -> Prop) (holds : list nat -> list nat -> St -> Prop).
  Hypothesis Hon : honest T ok imp cost ready holds.
  Hypothesis Hord : ordered A.
  Variable rnd : nat -> nat.
  Variable f : catF.
  Variable cases : list nat.
  Hypothesis Hdata : Forall (fun c => c < length (cData f)) cases.
  Hypothesis Hok : Forall ok cases.
  Variable parent : A.
  Variable leaf : nat.

  Let rule (z : Z) : nat -> bool := among f (code_set (CInt z)).
  Let top := top A cost cases parent leaf rule 0%Z (least A).

  Variable N : nat.
  Definition cat_inv (seen : list Z) (s : list nat * list Z * Z * A * bool * St * nat) : Prop :=
    let '(cs, cached, best, dec, const, tg, d) := s in
    Permutation cases cs /\ synced f N cs cached /\ ready tg /\ top seen best dec /\
    (const = true <-> forall b, In b seen -> ~ admissible leaf (rule b) cases).

  (** One candidate *)
  Lemma cat_step_ok (exh : bool) i seen cs cached best dec const tg d :
    let b := if exh then Z.of_nat i else (Z.of_nat (rnd d) mod 2 ^ 63)%Z in
    (0 <= b < 2 ^ 63)%Z ->
    cat_inv seen (cs, cached, best, dec, const, tg, d) ->
    exists s', cat_step A St T rnd exh parent leaf i (cs, cached, best, dec, const, tg, d) = Ok s' /\
      cat_inv (seen ++ [b]) s' /\ snd s' = (if exh then d else S d).
  Proof.
    intros b Hb (HP & HS & Hr & Ht & Hc). unfold cat_step.
    assert (Eb : (if exh then (Z.of_nat i, d) else ((Z.of_nat (rnd d) mod 2 ^ 63)%Z, S d)) = (b, if exh then d else S d))
      by (unfold b; destruct exh; auto).
    rewrite Eb. clear Eb. set (d' := if exh then d else S d).
    destruct (cat_part_ok f cases N b cs cached Hb HP HS) as (cs' & cached' & l & E & P' & S' & Hl & H1 & H2).
    rewrite E. cbn [bind].
    destruct (split_at (rule b) cases cs' l P' Hl H1 H2) as (Q1 & Q2 & L1 & L2).
    rewrite <- L2, <- L1.
    destruct (admissible_dec leaf (rule b) cases) as [Ad|Na].
    - replace ((length (side (rule b) cases) <? leaf) || (length (other (rule b) cases) <? leaf)) with false
        by (symmetry; apply admissible_test; exact Ad).
      rewrite L1.
      rewrite !slice_ok by lia. cbn [bind]. rewrite Nat.sub_0_r. cbn [skipn].
      replace (firstn (length cs' - l) (skipn l cs')) with (skipn l cs')
        by (symmetry; apply firstn_all2; rewrite skipn_length; lia).
      assert (O1 : Forall ok (firstn l cs')).
      { eapply Permutation_Forall; [exact Q1|]. apply Forall_filter; auto. }
      assert (O2 : Forall ok (skipn l cs')).
      { eapply Permutation_Forall; [exact Q2|]. apply Forall_filter; auto. }
      destruct (h_split _ _ _ _ _ _ Hon _ _ tg O1 O2 Hr) as (tg' & Es & Hr' & _). rewrite Es. cbn [bind].
      assert (Ev : decrease A parent (cost (firstn l cs') (skipn l cs')) = worth A parent cost (rule b) cases).
      { unfold worth. symmetry. etransitivity; [eapply gain_perm; eauto|]. reflexivity. }
      rewrite Ev.
      pose proof (top_take A cost Hord cases parent leaf rule 0%Z (least A) seen best dec b Ht Ad) as Ht'.
      destruct (nltb A dec (worth A parent cost (rule b) cases)); eexists; (split; [reflexivity|]);
        (split; [|reflexivity]); (split; [auto|]); (split; [auto|]); (split; [auto|]); (split; [exact Ht'|]);
        (split; [discriminate|]); intros Hn; exfalso; apply (Hn b); auto; apply in_app_iff; cbn; auto.
    - replace ((length (side (rule b) cases) <? leaf) || (length (other (rule b) cases) <? leaf)) with true.
      2:{ symmetry. destruct ((length (side (rule b) cases) <? leaf) || (length (other (rule b) cases) <? leaf)) eqn:Eo; auto.
          exfalso. apply Na. apply admissible_test. auto. }
      eexists. split; [reflexivity|]. split; [|reflexivity].
      split; auto. split; auto. split; auto. split; [apply top_skip; auto|].
      rewrite Hc. split.
      + intros Hn c Hi. apply in_app_iff in Hi as [Hi|[<-|[]]]; auto.
      + intros Hn c Hi. apply Hn. apply in_app_iff; auto.
  Qed.

  (** The codes looked at *)
  Definition cat_seen (exh : bool) (n d : nat) : list Z :=
    if exh then map Z.of_nat (seq 1 (n - 1))
    else map (fun k => (Z.of_nat (rnd k) mod 2 ^ 63)%Z) (seq d (n - 1)).

  Lemma cat_seen_snoc exh i d : 1 <= i ->
    cat_seen exh (S i) d =
    cat_seen exh i d ++ [if exh then Z.of_nat i else (Z.of_nat (rnd (d + (i - 1))) mod 2 ^ 63)%Z].
  Proof.
    intros Hi. unfold cat_seen. replace (S i - 1) with (S (i - 1)) by lia. rewrite !seq_S, !map_app. cbn [map].
    replace (1 + (i - 1)) with i by lia. destruct exh; reflexivity.
  Qed.

  Lemma nparts_bound k : k <= 62 -> nparts k <= 2 ^ 62.
  Proof.
    intros H. unfold nparts. destruct (k <? 2); [lia|]. apply Nat.pow_le_mono_r; lia.
  Qed.

  Definition cat_outcome (seen : list Z) (r : found A St) : Prop :=
    Permutation cases (fCases r) /\ ready (aTgt (fAl r)) /\
    exists best, fCode r = CInt best /\ top seen best (fDec r) /\
      (fConst r = true <-> forall b, In b seen -> ~ admissible leaf (rule b) cases).

  Lemma BestCatSplit_ok maxEx al : maxEx <= 62 -> ready (aTgt al) -> length cases <= length (aCat al) ->
    N = length (aCat al) ->
    let exh := NCats (cMap f) <=? maxEx in
    let n := nparts (if exh then NCats (cMap f) else maxEx) in
    exists r, BestCatSplit A St T rnd f cases parent maxEx leaf al = Ok r /\
      cat_outcome (cat_seen exh n (aDraw al)) r /\
      aVals (fAl r) = aVals al /\ length (aCat (fAl r)) = length (aCat al).
  Proof.
    intros Hm Hr Hl HN exh n. unfold BestCatSplit.
    destruct (load_cats_ok f cases Hdata N (aCat al) Hl (eq_sym HN)) as (cached & E & Sy). rewrite E. cbn [bind].
    fold exh. fold n.
    assert (Hn : exh = true -> (Z.of_nat n <= 2 ^ 62)%Z).
    { intros Eh. unfold n. rewrite Eh. unfold exh in Eh. apply Nat.leb_le in Eh.
      pose proof (nparts_bound (NCats (cMap f)) ltac:(lia)) as B.
      apply Nat2Z.inj_le in B. rewrite Nat2Z.inj_pow in B. exact B. }
    clearbody n.
    pose proof (@for_up_total _
      (fun i (s : list nat * list Z * Z * A * bool * St * nat) =>
         cat_inv (cat_seen exh i (aDraw al)) s /\ (exh = false -> snd s = aDraw al + (i - 1)))
      (cat_step A St T rnd exh parent leaf) (n - 1) 1
      (cases, cached, 0%Z, minImp A, true, aTgt al, aDraw al)) as F.
    destruct F as ([[[[[[cs ca] best] dec] const] tg] d] & Ef & ((P & S' & R' & Tp & Cn) & _)).
    - intros i [[[[[[cs ca] best] dec] const] tg] d] Hi [Inv Hd]. cbn [snd] in Hd.
      assert (Hb : (0 <= (if exh then Z.of_nat i else Z.of_nat (rnd d) mod 2 ^ 63) < 2 ^ 63)%Z).
      { destruct exh.
        - specialize (Hn eq_refl). assert (2 ^ 62 < 2 ^ 63)%Z by (apply Z.pow_lt_mono_r; lia). lia.
        - apply Z.mod_pos_bound. lia. }
      destruct (cat_step_ok exh i _ cs ca best dec const tg d Hb Inv) as (s' & Es & Inv' & Ed).
      exists s'. split; auto. rewrite cat_seen_snoc by lia. split.
      + destruct exh; [exact Inv'|]. rewrite <- Hd by auto. exact Inv'.
      + intros He. rewrite He in *. rewrite Ed, Hd by auto. lia.
    - split; [|intros _; cbn; lia].
      replace (cat_seen exh 1 (aDraw al)) with (@nil Z) by (destruct exh; reflexivity).
      split; auto. split; auto. split; auto. split; [apply top_init; auto|].
      split; auto; intros _ b [].
    - rewrite Ef. cbn [bind]. eexists. split; [reflexivity|]. cbn [fAl aVals aCat].
      assert (Ei : cat_seen exh (1 + (n - 1)) (aDraw al) = cat_seen exh n (aDraw al)).
      { unfold cat_seen. replace (1 + (n - 1) - 1) with (n - 1) by lia. reflexivity. }
      rewrite Ei in *. split.
      + split; auto. split; auto. exists best. auto.
      + destruct S' as [[S1 _] _]. split; auto. congruence.
  Qed.
End CatSplit.

Lemma filter_length_le_nat (g : nat -> bool) l : length (filter g l) <= length l.
Proof. induction l as [|a l IH]; cbn; [lia|]. destruct (g a); cbn; lia. Qed.

(** ** The iterative searches *)
Section Iter.
  Variables (A : arith) (St : Type) (T : target A St) (ok : nat -> Prop) (imp : list nat -> A)
    (cost : list nat -> list nat -> A) (ready : St -> Prop) (holds : list nat -> list nat -> St -> Prop).
  Hypothesis Hon : honest T ok imp cost ready holds.
  Hypothesis Hord : ordered A.
  Variable f : catF.
  Variable cases : list nat.
  Hypothesis Hdata : Forall (fun c => c < length (cData f)) cases.
  Hypothesis Hok : Forall ok cases.
  Variable parent : A.
  Variable leaf : nat.
  Variable n : nat.

  Variable bit : Z -> nat -> bool.
  Variable setb : Z -> nat -> Z.
  Hypothesis bit0 : forall j, bit 0 j = false.
  Hypothesis bit_setb : forall z i j, i < n -> bit (setb z i) j = (j =? i) || bit z j.

  Let rule (z : Z) : nat -> bool := among f (bit z).
  Let adm (z : Z) : Prop := admissible leaf (rule z) cases.
  Let val (z : Z) : A := worth A parent cost (rule z) cases.

  (** The sets with one more category *)
  Definition grown (best : Z) (i : nat) : list Z :=
    map (setb best) (filter (fun k => negb (bit best k)) (seq 0 i)).

  Lemma grown_S best i : grown best (S i) = grown best i ++ (if bit best i then [] else [setb best i]).
  Proof.
    unfold grown. rewrite seq_S, filter_app, map_app. cbn [filter Nat.add].
    destruct (bit best i); reflexivity.
  Qed.

  Definition iter_inv (best : Z) (dec : A) (i : nat) (s : Z * A * St) : Prop :=
    let '(inner, innerImp, tg) := s in
    ready tg /\ top A cost cases parent leaf rule 0%Z dec (grown best i) inner innerImp.

  Lemma iter_step_ok best dec i s : iter_inv best dec i s ->
    yields (iter_step A St T bit setb (cData f) cases parent leaf best i s) (iter_inv best dec (S i)).
  Proof.
    destruct s as [[inner innerImp] tg]. intros [Hr Ht]. unfold iter_step.
    destruct (bit best i) eqn:Eb.
    - apply yields_ok. split; auto. rewrite grown_S, Eb, app_nil_r. auto.
    - rewrite by_bit_ok by auto. cbn [bind]. fold (rule (setb best i)).
      destruct (admissible_dec leaf (rule (setb best i)) cases) as [Ad|Na].
      + replace ((length (side (rule (setb best i)) cases) <? leaf) || (length (other (rule (setb best i)) cases) <? leaf))
          with false by (symmetry; apply admissible_test; exact Ad).
        destruct (h_split _ _ _ _ _ _ Hon (side (rule (setb best i)) cases) (other (rule (setb best i)) cases) tg)
          as (tg' & Es & Hr' & _); [apply Forall_filter; auto|apply Forall_filter; auto|auto|].
        rewrite Es. cbn [bind]. apply yields_ok.
        change (decrease A parent (cost (side (rule (setb best i)) cases) (other (rule (setb best i)) cases)))
          with (val (setb best i)).
        pose proof (top_take A cost Hord cases parent leaf rule _ _ _ _ _ (setb best i) Ht Ad) as Ht'.
        cbv beta in Ht'. fold (val (setb best i)) in Ht'.
        destruct (nltb A innerImp (val (setb best i))); (split; [auto|]); rewrite grown_S, Eb; exact Ht'.
      + replace ((length (side (rule (setb best i)) cases) <? leaf) || (length (other (rule (setb best i)) cases) <? leaf))
          with true.
        2:{ symmetry. destruct ((length (side (rule (setb best i)) cases) <? leaf) || (length (other (rule (setb best i)) cases) <? leaf)) eqn:Eo; auto.
            exfalso. apply Na. apply admissible_test. auto. }
        apply yields_ok. split; auto. rewrite grown_S, Eb. apply top_skip; auto.
  Qed.

  Lemma iter_pass_ok best dec tg : ready tg ->
    yields (for_up n 0 (iter_step A St T bit setb (cData f) cases parent leaf best) (0%Z, dec, tg))
      (iter_inv best dec n).
  Proof.
    intros Hr. apply (@for_up_total _ (iter_inv best dec) _ n 0).
    - intros i s _ Hs. apply iter_step_ok; auto.
    - split; auto. apply top_init; auto.
  Qed.

  Definition members (z : Z) : nat := length (filter (bit z) (seq 0 n)).

  Lemma count_add (g h : nat -> bool) i : i < n -> g i = false ->
    (forall j, h j = (j =? i) || g j) ->
    length (filter h (seq 0 n)) = S (length (filter g (seq 0 n))).
  Proof.
    intros Hi Hg Hh.
    assert (K : forall m a, length (filter h (seq a m)) =
      length (filter g (seq a m)) + (if (a <=? i) && (i <? a + m) then 1 else 0)).
    { induction m as [|m IH]; intros a.
      - cbn [seq filter length]. destruct (Nat.leb_spec a i), (Nat.ltb_spec i (a + 0)); cbn; auto; lia.
      - cbn [seq filter]. rewrite (Hh a). destruct (Nat.eqb_spec a i) as [->|N]; cbn [orb].
        + rewrite Hg. cbn [length]. rewrite IH.
          replace (S i <=? i) with false by (symmetry; apply Nat.leb_gt; lia). cbn [andb].
          replace (i <=? i) with true by (symmetry; apply Nat.leb_le; lia).
          replace (i <? i + S m) with true by (symmetry; apply Nat.ltb_lt; lia). cbn. lia.
        + replace ((a <=? i) && (i <? a + S m)) with ((S a <=? i) && (i <? S a + m)).
          * destruct (g a); cbn [length]; rewrite IH; lia.
          * destruct (Nat.leb_spec (S a) i), (Nat.leb_spec a i), (Nat.ltb_spec i (S a + m)), (Nat.ltb_spec i (a + S m));
              cbn; auto; lia. }
    rewrite K. replace (0 <=? i) with true by reflexivity.
    replace (i <? 0 + n) with true by (symmetry; apply Nat.ltb_lt; lia). cbn. lia.
  Qed.

  Lemma members_setb z i : i < n -> bit z i = false -> members (setb z i) = S (members z).
  Proof. intros Hi Hz. unfold members. apply count_add with i; auto. Qed.

  Lemma members_full z : members z = n -> forall i, i < n -> bit z i = true.
  Proof.
    intros H i Hi. destruct (bit z i) eqn:E; auto.
    pose proof (members_setb z i Hi E) as Hs. rewrite H in Hs.
    pose proof (filter_length_le_nat (bit (setb z i)) (seq 0 n)) as L.
    rewrite seq_length in L. unfold members in Hs. lia.
  Qed.

  Definition iter_outcome (best : Z) (dec : A) : Prop :=
    ((best = 0%Z /\ dec = least A) \/ (adm best /\ dec = val best /\ nltb A (least A) dec = true)) /\
    nltb A dec (least A) = false /\
    (forall i, i < n -> adm (setb 0 i) -> nltb A dec (val (setb 0 i)) = false) /\
    (forall i, i < n -> bit best i = false -> adm (setb best i) -> nltb A dec (val (setb best i)) = false).

  Lemma iter_search_ok tg : ready tg ->
    yields (iter_search A St T bit setb n (cData f) cases parent leaf tg)
      (fun '((best, dec, tg') : Z * A * St) => ready tg' /\ iter_outcome best dec).
  Proof.
    intros Hr. unfold iter_search.
    apply (@loop_total (Z * A * St * nat) (Z * A * St)
      (fun '((best, dec, tg, j) : Z * A * St * nat) =>
         ready tg /\ j <= n /\ members best = j /\
         ((j = 0 /\ best = 0%Z /\ dec = least A) \/
          (0 < j /\ adm best /\ dec = val best /\ nltb A (least A) dec = true /\
           forall i, i < n -> adm (setb 0 i) -> nltb A dec (val (setb 0 i)) = false)))
      (fun '((best, dec, tg, j) : Z * A * St * nat) => n - j)).
    - intros [[[best dec] t] j] (R & Hj & Hmem & Hb).
      assert (Hl : nltb A dec (least A) = false).
      { destruct Hb as [(_ & _ & ->)|(_ & _ & _ & L & _)]; [apply (proj1 Hord)|apply ordered_asym; auto]. }
      assert (Hb' : (best = 0%Z /\ dec = least A) \/ (adm best /\ dec = val best /\ nltb A (least A) dec = true))
        by tauto.
      destruct (Nat.ltb_spec j n) as [Hlt|Hge].
      + destruct (iter_pass_ok best dec t R) as ([[inner innerImp] t'] & E & (R' & (T1 & T2 & T3))).
        rewrite E. cbn [bind].
        assert (Hg : forall i, i < n -> bit best i = false -> In (setb best i) (grown best n)).
        { intros i Hi Eb. unfold grown. apply in_map. apply filter_In. split; [apply in_seq; lia|]. rewrite Eb. auto. }
        assert (Sing : forall i, i < n -> adm (setb 0 i) -> nltb A innerImp (val (setb 0 i)) = false).
        { intros i Hi Ai. destruct Hb as [(_ & -> & _)|(_ & _ & _ & _ & Hs)].
          - apply T3; auto.
          - specialize (Hs i Hi Ai). destruct T1 as [[-> ->]|(_ & _ & _ & Li)]; auto.
            apply (proj2 Hord (val (setb 0 i)) dec innerImp); auto. }
        destruct (nltb A dec innerImp) eqn:Ei; apply yields_ok.
        * destruct T1 as [[-> ->]|(I1 & I2 & I3 & _)]; [rewrite (proj1 Hord) in Ei; discriminate|].
          unfold grown in I1. apply in_map_iff in I1 as (k & <- & Ik).
          apply filter_In in Ik as [Ik Nk]. apply in_seq in Ik. apply negb_true_iff in Nk.
          split; [|lia]. split; auto. split; [lia|]. split; [rewrite members_setb by (auto; lia); lia|].
          right. split; [lia|]. split; auto. split; auto. split; auto.
          destruct Hb' as [[_ ->]|(_ & _ & L)]; auto. eapply ordered_trans; eauto.
        * assert (Ed : innerImp = dec).
          { destruct T1 as [[_ ->]|(_ & _ & _ & L)]; auto. congruence. }
          rewrite Ed in *. split; auto. split; auto. split; auto. split; auto.
          intros i Hi Eb Ai. apply T3; auto.
      + apply yields_ok. split; auto. split; auto. split; auto. assert (Ej : j = n) by lia. split.
        * intros i Hi Ai. destruct Hb as [(-> & _)|(_ & _ & _ & _ & Hs)]; [lia|auto].
        * intros i Hi Eb. rewrite members_full in Eb; auto; [discriminate|lia].
    - split; auto. split; [lia|]. split; [|left; auto].
      unfold members. rewrite (@filter_false _ (bit 0) (seq 0 n)); auto. apply Forall_forall. auto.
    - lia.
  Qed.
End Iter.
