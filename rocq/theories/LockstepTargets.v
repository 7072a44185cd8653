(** Targets that report the same impurities. *)
From Verif Require Import Go GoLemmas F64 Exact ModelFeature ModelSample ModelImpurity ModelSearch ModelTargets ModelTargets2 ModelTree OrderProofs PropByName
  PropImpurity PropImpurity2 OrderlessTargets Lockstep.
Local Open Scope nat_scope.
Local Open Scope list_scope.

Lemma follows_foreach {B C C'} (P : C -> C' -> Prop) (body : B -> C -> res C) (body' : B -> C' -> res C') l : forall s s',
  P s s' -> (forall b s s', P s s' -> follows P (body b s) (body' b s')) -> follows P (foreach l body s) (foreach l body' s').
Proof. induction l as [|b l IH]; intros s s' Hs H; cbn [foreach]; [apply follows_ok; exact Hs|]. apply (follows_bind P); auto. Qed.
Lemma follows_weaken {B B'} (P Q : B -> B' -> Prop) m m' : (forall a a', P a a' -> Q a a') -> follows P m m' -> follows Q m m'.
Proof. intros H F a E. destruct (F a E) as (a' & E' & Pa). eauto. Qed.

(** ** Targets that count *)
Section Counting.
  Variable A : arith.
  Variables data data' : list nat.
  Variables from from' : recount A.
  Variables (imp imp' : impurity A) (upd upd' : list nat -> list nat -> option (list nat) -> counters -> list nat -> res (A * counters)).
  Hypothesis Himp : forall l k, imp l k = let* c := CountPerCat data l k in let* e := from l c in Ok (e, c).
  Hypothesis Himp' : forall l k, imp' l k = let* c := CountPerCat data' l k in let* e := from' l c in Ok (e, c).
  Hypothesis Hupd : forall l r k v, upd l r None k v = UpdateSImp A data from l r None k v.
  Hypothesis Hupd' : forall l r k v, upd' l r None k v = UpdateSImp A data' from' l r None k v.
  (** [C n k k']: the counters of n cases; [C0]: counters as large as they should be. *)
  Variable C : nat -> list Z -> list Z -> Prop.
  Variable C0 : list Z -> list Z -> Prop.
  Hypothesis HC0 : forall n k k', C n k k' -> C0 k k'.
  Hypothesis Hzero : forall k k', C0 k k' -> C 0 (map (fun _ => 0%Z) k) (map (fun _ => 0%Z) k').
  Hypothesis Hup : forall n k k' i, C n k k' ->
    follows (C (S n)) (let* c := get data i in bump (fun n => (n + 1)%Z) k c) (let* c := get data' i in bump (fun n => (n + 1)%Z) k' c).
  Hypothesis Hdown : forall n k k' i, C (S n) k k' ->
    follows (C n) (let* c := get data i in bump (fun n => (n - 1)%Z) k c) (let* c := get data' i in bump (fun n => (n - 1)%Z) k' c).
  Hypothesis Hfrom : forall l k k', C (length l) k k' -> follows eq (from l k) (from' l k').

  Lemma Count_lk l k k' : C0 k k' -> follows (C (length l)) (CountPerCat data l k) (CountPerCat data' l k').
  Proof.
    intros H. unfold CountPerCat. apply Hzero in H. revert H. generalize (map (fun _ => 0%Z) k) (map (fun _ => 0%Z) k'). clear k k'.
    change (length l) with (0 + length l). generalize 0 at 1 2. induction l as [|i l IH]; intros n k k' H; cbn [foreach length]; [rewrite Nat.add_0_r; apply follows_ok; exact H|].
    apply (follows_bind (C (S n))); [apply Hup; exact H|]. intros k1 k1' H1. rewrite <- Nat.add_succ_comm. apply IH. exact H1.
  Qed.
  Lemma Move_lk v nl nr lc lc' rc rc' : C nl lc lc' -> C (length v + nr) rc rc' ->
    follows (fun x y => C (nl + length v) (fst x) (fst y) /\ C nr (snd x) (snd y)) (MoveCountsRtoL data v lc rc) (MoveCountsRtoL data' v lc' rc').
  Proof.
    unfold MoveCountsRtoL. revert nl lc lc' rc rc'. induction v as [|i v IH]; intros nl lc lc' rc rc' Hl Hr; cbn [foreach length] in *.
    - rewrite Nat.add_0_r. apply follows_ok. auto.
    - intros x E. apply bind_ok in E as ([l1 r1] & E1 & E). apply bind_ok in E1 as (c & Ec & E1).
      apply bind_ok in E1 as (a & Ea & E1). apply bind_ok in E1 as (l2 & El & E1). apply bind_ok in E1 as (b & Eb & E1). apply bind_ok in E1 as (r2 & Er & E1). injection E1 as -> ->.
      destruct (Hup _ _ _ i Hl l1) as (l1' & F1 & G1). { rewrite Ec. cbn [bind]. unfold bump. rewrite Ea. exact El. }
      destruct (Hdown _ _ _ i Hr r1) as (r1' & F2 & G2). { rewrite Ec. cbn [bind]. unfold bump. rewrite Eb. exact Er. }
      apply bind_ok in F1 as (c' & Ec' & F1). rewrite Ec' in F2. cbn [bind] in F2. unfold bump in F1, F2.
      apply bind_ok in F1 as (a' & Ea' & F1). apply bind_ok in F2 as (b' & Eb' & F2). rewrite Ec'. cbn [bind]. rewrite Ea'. cbn [bind]. rewrite F1. cbn [bind].
      rewrite Eb'. cbn [bind]. rewrite F2. cbn [bind]. rewrite <- Nat.add_succ_comm. apply (IH _ _ _ _ _ G1 G2). exact E.
  Qed.
  Lemma imp_lk l k k' : C0 k k' -> follows (out (C (length l))) (imp l k) (imp' l k').
  Proof.
    intros H. rewrite Himp, Himp'. apply (follows_bind (C (length l))); [apply Count_lk; exact H|]. intros c c' Hc.
    apply (follows_bind eq); [apply Hfrom; exact Hc|]. intros e ? <-. apply follows_ok. split; auto.
  Qed.

  Definition cnear (s s' : cst) : Prop :=
    C0 (fst s) (fst s') /\ C0 (kL (snd s)) (kL (snd s')) /\ C0 (kR (snd s)) (kR (snd s')) /\ C0 (kM (snd s)) (kM (snd s')).
  Definition cholds (l r : list nat) (s s' : cst) : Prop :=
    C (length l) (kL (snd s)) (kL (snd s')) /\ C (length r) (kR (snd s)) (kR (snd s')).
  Lemma counting_lockstep : lockstep (counting_target A imp upd) (counting_target A imp' upd') cnear cholds.
  Proof.
    split; cbn [tImp tSplit tUpdate counting_target].
    - intros l [c k] [c' k'] (N1 & N2). cbn [fst snd] in *. apply (follows_bind (out (C (length l)))); [apply imp_lk; exact N1|].
      intros [e d] [e' d'] [E1 H]. cbn [fst snd] in *. subst e'. apply follows_ok. split; [reflexivity|]. split; [apply (HC0 _ _ _ H)|exact N2].
    - intros l r m [c k] [c' k'] (N1 & N2 & N3 & N4). cbn [fst snd] in *. unfold SplitImpurity.
      intros x E. apply bind_ok in E as ([e kk] & E & Ex). injection Ex as <-.
      apply bind_ok in E as ([il lc] & E1 & E). destruct (imp_lk _ _ _ N2 _ E1) as ([il' lc'] & -> & F1 & G1). cbn [bind fst snd] in *. subst il'.
      apply bind_ok in E as ([ir rc] & E2 & E). destruct (imp_lk _ _ _ N3 _ E2) as ([ir' rc'] & -> & F2 & G2). cbn [bind fst snd] in *. subst ir'.
      destruct (has_m m) as [mm|] eqn:Em.
      + apply bind_ok in E as ([im mc] & E3 & E). destruct (imp_lk _ _ _ N4 _ E3) as ([im' mc'] & -> & F3 & G3). cbn [bind fst snd] in *. subst im'.
        injection E as <- <-. eexists. split; [reflexivity|]. split; [reflexivity|]. split.
        * unfold cnear. cbn. eauto 10.
        * intros ->. discriminate.
      + injection E as <- <-. eexists. split; [reflexivity|]. split; [reflexivity|]. split.
        * unfold cnear. cbn. eauto 10.
        * intros _. split; cbn; auto.
    - intros l r v [c k] [c' k'] (N1 & N2 & N3 & N4) (H1 & H2). cbn [fst snd] in *. rewrite Hupd, Hupd'. unfold UpdateSImp. cbn [has_m]. rewrite app_length in H2.
      intros x E. apply bind_ok in E as ([e kk] & E & Ex). injection Ex as <-.
      apply bind_ok in E as ([lc rc] & E1 & E). destruct (Move_lk _ _ _ _ _ _ _ H1 H2 _ E1) as ([lc' rc'] & -> & G1 & G2). cbn [bind fst snd] in *.
      rewrite <- app_length in G1.
      apply bind_ok in E as (il & E2 & E). destruct (Hfrom _ _ _ G1 _ E2) as (? & -> & <-). cbn [bind].
      apply bind_ok in E as (ir & E3 & E). destruct (Hfrom _ _ _ G2 _ E3) as (? & -> & <-). cbn [bind].
      injection E as <- <-. eexists. split; [reflexivity|]. split; [reflexivity|]. split; [unfold cnear|unfold cholds]; cbn; eauto 10.
  Qed.
End Counting.

Lemma XR_upd data from l r m k v : UpdateSImp_gini XR data from l r m k v = UpdateSImp XR data from l r m k v.
Proof.
  unfold UpdateSImp_gini, UpdateSImp. destruct (MoveCountsRtoL data v (kL k) (kR k)) as [[lc rc]| |]; cbn [bind]; try reflexivity.
  destruct (from l lc); cbn [bind]; try reflexivity. destruct (from r rc); cbn [bind]; try reflexivity.
  destruct (has_m m) as [mm|]; [destruct (from mm (kM k)); cbn [bind]; try reflexivity|]; unfold len; cbn [nadd XR lift2 nofZ]; do 4 f_equal; lra.
Qed.

(** *** Classes numbered differently: class [c] becomes class [sg c]. *)
Definition renumbers (n : nat) (sg : nat -> nat) : Prop := Permutation (map sg (seq 0 n)) (seq 0 n).
Section Renumber.
  Variables (n : nat) (sg : nat -> nat).
  Hypothesis Hsg : renumbers n sg.
  Lemma sg_lt c : c < n -> sg c < n.
  Proof. intros H. assert (I : In (sg c) (seq 0 n)) by (eapply Permutation_in; [exact Hsg|]; apply in_map, in_seq; lia). apply in_seq in I. lia. Qed.
  Lemma sg_inj c d : c < n -> d < n -> sg c = sg d -> c = d.
  Proof.
    intros Hc Hd E. assert (ND : NoDup (map sg (seq 0 n))) by (eapply Permutation_NoDup; [symmetry; exact Hsg|apply seq_NoDup]).
    rewrite NoDup_nth with (d := sg 0) in ND. specialize (ND c d). rewrite map_length, seq_length, !map_nth, !seq_nth in ND by assumption. apply ND; assumption.
  Qed.
  Definition renumbered {V} (_ : nat) (k k' : list V) : Prop :=
    length k = n /\ length k' = n /\ forall c, c < n -> nth_error k' (sg c) = nth_error k c.
  Definition sized (k k' : list Z) : Prop := length k = n /\ length k' = n.
  Lemma renumbered_perm m (k k' : list Z) : renumbered m k k' -> Permutation k k'.
  Proof.
    intros (L1 & L2 & H).
    assert (E : forall k : list Z, length k = n -> k = map (fun c => nth c k 0%Z) (seq 0 n)).
    { clear. intros k <-. induction k as [|a k IH]; [reflexivity|]. cbn [length seq map nth]. f_equal. rewrite <- seq_shift, map_map. exact IH. }
    rewrite (E k L1), (E k' L2).
    rewrite (map_ext_in _ (fun c => nth (sg c) k' 0%Z)).
    - rewrite <- (map_map sg (fun c => nth c k' 0%Z)). apply Permutation_map. exact Hsg.
    - intros c Hc. apply in_seq in Hc. specialize (H c ltac:(lia)).
      rewrite <- !nth_default_eq. unfold nth_default. rewrite H. reflexivity.
  Qed.
  Lemma renumbered_bump {V} data (g : V -> V) m m' k k' i : renumbered m k k' ->
    follows (renumbered m') (let* c := get data i in bump g k c) (let* c := get (map sg data) i in bump g k' c).
  Proof.
    intros (L1 & L2 & H) x E. apply bind_ok in E as (c & Ec & E). apply bump_inv in E as (z & Ez & ->). apply get_inv in Ec.
    rewrite (get_nth (map sg data) i (map_nth_error sg i data Ec)). cbn [bind]. assert (Hc : c < n) by (rewrite <- L1; apply nth_error_Some; congruence).
    exists (upd k' (sg c) (g z)). split; [apply bump_ok; rewrite H by exact Hc; exact Ez|]. split; [rewrite upd_length; exact L1|]. split; [rewrite upd_length; exact L2|].
    intros d Hd. rewrite !nth_error_upd, L1, L2. destruct (Nat.eqb_spec (sg d) (sg c)) as [E|E].
    - apply sg_inj in E; auto. subst d. rewrite Nat.eqb_refl. destruct (Nat.ltb_spec (sg c) n); [|pose proof (sg_lt c Hc); lia]. destruct (Nat.ltb_spec c n); [reflexivity|lia].
    - destruct (Nat.eqb_spec d c); [congruence|]. apply H. exact Hd.
  Qed.
  Lemma renumbered_zero k k' : sized k k' -> renumbered 0 (map (fun _ => 0%Z) k) (map (fun _ => 0%Z) k').
  Proof.
    intros [L1 L2]. split; [rewrite map_length; exact L1|]. split; [rewrite map_length; exact L2|]. intros c Hc.
    pose proof (sg_lt c Hc). destruct (nth_error k' (sg c)) as [x|] eqn:E1; [|apply nth_error_None in E1; lia]. destruct (nth_error k c) as [y|] eqn:E2; [|apply nth_error_None in E2; lia].
    rewrite (map_nth_error _ _ _ E1), (map_nth_error _ _ _ E2). reflexivity.
  Qed.
  Lemma fold_left_perm {B D} (f : D -> B -> D) l l' : (forall e a b, f (f e a) b = f (f e b) a) -> Permutation l l' -> forall e, fold_left f l e = fold_left f l' e.
  Proof. intros H P. induction P; intros e; cbn; auto. - rewrite H. reflexivity. - rewrite IHP1. apply IHP2. Qed.

  Lemma gini_renumbered data : lockstep (gini_target XR data) (gini_target XR (map sg data)) (cnear sized) (cholds renumbered).
  Proof.
    apply counting_lockstep with (data := data) (data' := map sg data) (from := GiniFromCounts XR) (from' := GiniFromCounts XR).
    - reflexivity.
    - reflexivity.
    - intros. apply XR_upd.
    - intros. apply XR_upd.
    - intros m k k' (L1 & L2 & _). split; assumption.
    - apply renumbered_zero.
    - intros m k k' i. apply renumbered_bump.
    - intros m k k' i. apply renumbered_bump.
    - intros l k k' H x E. exists x. split; [|reflexivity]. rewrite <- E. unfold GiniFromCounts. f_equal. symmetry. apply fold_left_perm; [|apply (renumbered_perm _ _ _ H)].
      intros e a b. set (u := ndiv XR (num XR (a * a)) _). set (v := ndiv XR (num XR (b * b)) _). destruct e as [e|], u as [u|], v as [v|]; cbn; try reflexivity. f_equal. lra.
  Qed.
  Lemma entropy_renumbered nlog data : lockstep (entropy_target XR nlog data) (entropy_target XR nlog (map sg data)) (cnear sized) (cholds renumbered).
  Proof.
    apply counting_lockstep with (data := data) (data' := map sg data) (from := EntropyFromCounts XR nlog) (from' := EntropyFromCounts XR nlog).
    - reflexivity.
    - reflexivity.
    - reflexivity.
    - reflexivity.
    - intros m k k' (L1 & L2 & _). split; assumption.
    - apply renumbered_zero.
    - intros m k k' i. apply renumbered_bump.
    - intros m k k' i. apply renumbered_bump.
    - intros l k k' H x E. exists x. split; [|reflexivity]. rewrite <- E. unfold EntropyFromCounts. f_equal. symmetry. apply fold_left_perm; [|apply (renumbered_perm _ _ _ H)].
      intros e a b. destruct (0 <? a)%Z, (0 <? b)%Z; try reflexivity. set (u := nmul XR _ _). set (v := nmul XR _ _). destruct e as [e|], u as [u|], v as [v|]; cbn; try reflexivity. f_equal. lra.
  Qed.
End Renumber.

(** *** Equal weights: the weighted Gini impurity is the Gini impurity. *)
Section Weights.
  Variables (n : nat) (w : R).
  Hypothesis Hn : 0 < n.
  Hypothesis Hw : w <> 0%R.
  Fixpoint zsum (l : list Z) : Z := match l with [] => 0%Z | x :: l => (x + zsum l)%Z end.
  Definition counted (m : nat) (k k' : list Z) : Prop := k = k' /\ length k = n /\ zsum k = Z.of_nat m.
  Definition alike (k k' : list Z) : Prop := k = k' /\ length k = n.
  Lemma zsum_upd k c z x : nth_error k c = Some z -> zsum (upd k c x) = (zsum k - z + x)%Z.
  Proof. revert c. induction k as [|a k IH]; intros [|c] E; cbn in *; try discriminate; [injection E as ->; lia|]. rewrite (IH c E). lia. Qed.
  Lemma wrf_fold : forall k j t e, j + length k <= n ->
    foreach (indexed j k) (fun '((i, v) : nat * Z) '((total, e) : XR * XR) =>
      let* x := get (repeat (Some w : XR) n) i in
      Ok (nadd XR total (nmul XR (num XR v) x), nsub XR e (nmul XR (nmul XR (num XR (v * v)) x) x))) (Some t, Some e)
    = Ok (Some (t + w * IZR (zsum k))%R, Some (e - w * w * Rsum (map (fun v => IZR (v * v)) k))%R).
  Proof.
    induction k as [|v k IH]; intros j t e H; cbn [indexed foreach map Rsum zsum length] in *; [repeat f_equal; lra|].
    rewrite (get_nth (repeat (Some w : XR) n) j (nth_error_repeat (Some w : XR) (ltac:(lia) : j < n))). cbn [bind nadd nsub nmul XR lift2 num nofZ].
    rewrite IH by lia. do 2 f_equal; f_equal; rewrite ?plus_IZR, ?mult_IZR; ring.
  Qed.
  Lemma gini_fold t : t <> 0%R -> forall k e,
    fold_left (fun e i => nsub XR e (ndiv XR (num XR (i * i)) (Some t))) k (Some e) = Some (e - Rsum (map (fun v => IZR (v * v)) k) / t)%R.
  Proof.
    intros Ht. induction k as [|v k IH]; intros e; cbn [fold_left map Rsum]; [f_equal; field; exact Ht|].
    cbn [ndiv nsub XR num nofZ]. rewrite xdiv_some by exact Ht. cbn [lift2]. rewrite IH. f_equal. field. exact Ht.
  Qed.
  Lemma gini_fold_none k : forall c, fold_left (fun e i => nsub XR e (ndiv XR (num XR (i * i)) (Some 0%R))) (c :: k) (Some 1%R) = None.
  Proof.
    intros c. cbn [fold_left]. cbn [ndiv nsub XR num nofZ xdiv]. destruct (Req_EM_T 0 0); [|congruence]. cbn [lift2]. clear.
    induction k as [|v k IH]; [reflexivity|]. cbn [fold_left]. exact IH.
  Qed.
  Lemma wrf_is_gini l k : length k = n -> zsum k = Z.of_nat (length l) -> WRFFromCounts XR (repeat (Some w : XR) n) l k = GiniFromCounts XR l k.
  Proof.
    intros L Hs. unfold WRFFromCounts, GiniFromCounts.
    match goal with |- bind ?m _ = _ => replace m with (Ok (Some (0 + w * IZR (zsum k))%R : XR, Some (0 - w * w * Rsum (map (fun v => IZR (v * v)) k))%R : XR))
      by (symmetry; apply (wrf_fold k 0 0%R 0%R); lia) end. cbn [bind]. f_equal. rewrite Hs. cbn [nofZ XR num nadd lift2 nmul].
    destruct (Nat.eq_dec (length l) 0) as [E|E].
    - rewrite E. cbn [Z.of_nat Z.mul]. replace (0 + 1)%R with 1%R by ring.
      destruct k as [|c k]; [cbn in L; lia|]. rewrite gini_fold_none. cbn [ndiv XR xdiv]. destruct (Req_EM_T _ 0) as [_|N]; [reflexivity|]. exfalso. apply N. ring.
    - assert (Hz : IZR (Z.of_nat (length l)) <> 0%R) by (apply not_0_IZR; lia). rewrite gini_fold by (rewrite mult_IZR; apply Rmult_integral_contrapositive_currified; exact Hz).
      cbn [ndiv XR]. rewrite xdiv_some.
      + cbn [lift2]. f_equal. rewrite mult_IZR. field. split; assumption.
      + replace (0 + w * IZR (Z.of_nat (length l)))%R with (w * IZR (Z.of_nat (length l)))%R by ring. repeat apply Rmult_integral_contrapositive_currified; assumption.
  Qed.
  Definition wrf_target (A : arith) (weights : list A) (data : list nat) : target A cst :=
    counting_target A (WRFImpurity A weights data) (UpdateSImp A data (WRFFromCounts A weights)).
  Lemma wrf_gini data : lockstep (gini_target XR data) (wrf_target XR (repeat (Some w) n) data) (cnear alike) (cholds counted).
  Proof.
    apply counting_lockstep with (data := data) (data' := data) (from := GiniFromCounts XR) (from' := WRFFromCounts XR (repeat (Some w) n)).
    - reflexivity.
    - reflexivity.
    - intros. apply XR_upd.
    - reflexivity.
    - intros m k k' (L1 & L2 & _). split; assumption.
    - intros k k' [<- L]. repeat split; [rewrite map_length; exact L|]. clear. induction k as [|a k IH]; [reflexivity|exact IH].
    - intros m k k' i (<- & L & Z) x E. exists x. split; [exact E|]. apply bind_ok in E as (c & _ & E). apply bump_inv in E as (z & Ez & ->).
      repeat split; [rewrite upd_length; exact L|]. rewrite (zsum_upd _ _ _ _ Ez). lia.
    - intros m k k' i (<- & L & Z) x E. exists x. split; [exact E|]. apply bind_ok in E as (c & _ & E). apply bump_inv in E as (z & Ez & ->).
      repeat split; [rewrite upd_length; exact L|]. rewrite (zsum_upd _ _ _ _ Ez). lia.
    - intros l k k' (<- & L & Z) x E. exists x. split; [|reflexivity]. rewrite <- E. apply wrf_is_gini; assumption.
  Qed.
End Weights.

(** ** Numbers shifted by a constant *)
Section Shift.
  Variable c : R.
  Variable xs : list R.
  Definition shift : list R := map (fun x => x + c)%R xs.
  Definition moved_by (n : nat) (x y : XR * XR) : Prop :=
    exists s q : R, x = (Some s, Some q) /\ y = (Some (s + IZR (Z.of_nat n) * c)%R, Some (q + 2 * c * s + IZR (Z.of_nat n) * c * c)%R).
  Lemma get_shift i : follows (fun x y => exists r : R, x = Some r /\ y = Some (r + c)%R) (get (numeric xs) i) (get (numeric shift) i).
  Proof.
    intros x E. apply get_inv in E. unfold numeric in *. rewrite nth_error_map in E. destruct (nth_error xs i) as [r|] eqn:Er; [|discriminate]. injection E as <-.
    exists (Some (r + c)%R). split; [|eauto]. apply get_nth. unfold shift. rewrite !nth_error_map, Er. reflexivity.
  Qed.
  Lemma SumSq_shift l : follows (moved_by (length l)) (SumAndSumSquares XR (numeric xs) l) (SumAndSumSquares XR (numeric shift) l).
  Proof.
    unfold SumAndSumSquares. assert (H : moved_by 0 (nofZ XR 0, nofZ XR 0) (nofZ XR 0, nofZ XR 0)) by (exists 0%R, 0%R; cbn; split; [reflexivity|repeat f_equal; ring]).
    revert H. generalize (nofZ XR 0, nofZ XR 0) at 1 3. generalize (nofZ XR 0, nofZ XR 0).
    change (length l) with (0 + length l). generalize 0 at 1 2. induction l as [|i l IH]; intros n y x H; cbn [foreach length]; [rewrite Nat.add_0_r; apply follows_ok; exact H|].
    apply (follows_bind (moved_by (S n))); [|intros a a' Ha; rewrite <- Nat.add_succ_comm; apply IH; exact Ha].
    destruct H as (s & q & -> & ->). apply (follows_bind (fun x y => exists r : R, x = Some r /\ y = Some (r + c)%R)); [apply get_shift|].
    intros a a' (r & -> & ->). apply follows_ok. exists (s + r)%R, (q + r * r)%R. split; [reflexivity|]. cbn [nadd nmul XR lift2]. rewrite Nat2Z.inj_succ, succ_IZR. do 2 f_equal; ring.
  Qed.
  Lemma sse_shift n s q s' q' : moved_by n (s, q) (s', q') ->
    nsub XR q (ndiv XR (nmul XR s s) (nofZ XR (Z.of_nat n))) = nsub XR q' (ndiv XR (nmul XR s' s') (nofZ XR (Z.of_nat n))).
  Proof.
    intros (a & b & E1 & E2). injection E1 as -> ->. injection E2 as -> ->. cbn [nsub nmul ndiv nofZ XR lift2]. destruct (Nat.eq_dec n 0) as [->|Hn].
    - cbn [Z.of_nat xdiv]. destruct (Req_EM_T 0 0); [reflexivity|congruence].
    - assert (IZR (Z.of_nat n) <> 0%R) by (apply not_0_IZR; lia). rewrite !xdiv_some by assumption. cbn [lift2]. f_equal. field. assumption.
  Qed.
  Lemma NumImpurity_shift l : follows eq (NumImpurity XR (numeric xs) l) (NumImpurity XR (numeric shift) l).
  Proof.
    unfold NumImpurity. apply (follows_bind (moved_by (length l))); [apply SumSq_shift|]. intros [s q] [s' q'] H. apply follows_ok. apply sse_shift. exact H.
  Qed.
  Definition nholds (l r : list nat) (a a' : sums XR) : Prop :=
    moved_by (length l) (sLs XR a, sLq XR a) (sLs XR a', sLq XR a') /\ moved_by (length r) (sRs XR a, sRq XR a) (sRs XR a', sRq XR a').
  Lemma moved_add n m s q s' q' u v u' v' : moved_by n (s, q) (s', q') -> moved_by m (u, v) (u', v') ->
    moved_by (n + m) (nadd XR s u, nadd XR q v) (nadd XR s' u', nadd XR q' v').
  Proof.
    intros (a & b & E1 & E2) (d & e & E3 & E4). injection E1 as -> ->. injection E2 as -> ->. injection E3 as -> ->. injection E4 as -> ->.
    exists (a + d)%R, (b + e)%R. split; [reflexivity|]. cbn [nadd XR lift2]. rewrite Nat2Z.inj_add, plus_IZR. do 2 f_equal; ring.
  Qed.
  Lemma moved_sub n m s q s' q' u v u' v' : moved_by (m + n) (s, q) (s', q') -> moved_by m (u, v) (u', v') ->
    moved_by n (nsub XR s u, nsub XR q v) (nsub XR s' u', nsub XR q' v').
  Proof.
    intros (a & b & E1 & E2) (d & e & E3 & E4). injection E1 as -> ->. injection E2 as -> ->. injection E3 as -> ->. injection E4 as -> ->.
    exists (a - d)%R, (b - e)%R. split; [reflexivity|]. cbn [nsub XR lift2]. rewrite Nat2Z.inj_add, plus_IZR. do 2 f_equal; ring.
  Qed.
  Lemma num_shifted : lockstep (num_target XR (numeric xs)) (num_target XR (numeric shift)) (fun _ _ => True) nholds.
  Proof.
    split; cbn [tImp tSplit tUpdate num_target].
    - intros l s s' _. apply (follows_bind eq); [apply NumImpurity_shift|]. intros e ? <-. apply follows_ok. split; [reflexivity|exact I].
    - intros l r m s s' _. unfold NumSplitImpurity, len. apply (follows_bind (moved_by (length l))); [apply SumSq_shift|]. intros [ls lq] [ls' lq'] Hl.
      rewrite (sse_shift _ _ _ _ _ Hl).
      apply (follows_bind (moved_by (length r))); [apply SumSq_shift|]. intros [rs rq] [rs' rq'] Hr. rewrite (sse_shift _ _ _ _ _ Hr).
      destruct (has_m m) as [mm|] eqn:Em.
      + apply (follows_bind (moved_by (length mm))); [apply SumSq_shift|]. intros [ms mq] [ms' mq'] Hm. rewrite (sse_shift _ _ _ _ _ Hm).
        apply follows_ok. split; [reflexivity|]. split; [exact I|]. intros ->. discriminate.
      + apply follows_ok. split; [reflexivity|]. split; [exact I|]. intros _. split; assumption.
    - intros l r v s s' _ [Hl Hr]. unfold NumUpdate, len. cbn [has_m]. apply (follows_bind (moved_by (length v))); [apply SumSq_shift|]. intros [vs vq] [vs' vq'] Hv.
      rewrite app_length in Hr. pose proof (moved_add _ _ _ _ _ _ _ _ _ _ Hl Hv) as H1. pose proof (moved_sub _ _ _ _ _ _ _ _ _ _ Hr Hv) as H2. rewrite <- app_length in H1.
      cbn [sLs sLq sRs sRq]. rewrite (sse_shift _ _ _ _ _ H1), (sse_shift _ _ _ _ _ H2). apply follows_ok. split; [reflexivity|]. split; [exact I|]. split; assumption.
  Qed.

  (** Gradient boosting *)
  Definition sum_moved (n : nat) (x y : XR) : Prop := exists s : R, x = Some s /\ y = Some (s + IZR (Z.of_nat n) * c)%R.
  Lemma GBSum_shift l : follows (sum_moved (length l)) (GBSum XR (numeric xs) l) (GBSum XR (numeric shift) l).
  Proof.
    unfold GBSum. assert (H : sum_moved 0 (nofZ XR 0) (nofZ XR 0)) by (exists 0%R; cbn; split; [reflexivity|f_equal; ring]).
    revert H. generalize (nofZ XR 0) at 1 3. generalize (nofZ XR 0).
    change (length l) with (0 + length l). generalize 0 at 1 2. induction l as [|i l IH]; intros n y x H; cbn [foreach length]; [rewrite Nat.add_0_r; apply follows_ok; exact H|].
    apply (follows_bind (sum_moved (S n))); [|intros a a' Ha; rewrite <- Nat.add_succ_comm; apply IH; exact Ha].
    destruct H as (s & -> & ->). apply (follows_bind (fun x y => exists r : R, x = Some r /\ y = Some (r + c)%R)); [apply get_shift|].
    intros a a' (r & -> & ->). apply follows_ok. exists (s + r)%R. split; [reflexivity|]. cbn [nadd nmul XR lift2]. rewrite Nat2Z.inj_succ, succ_IZR. f_equal. ring.
  Qed.
  Lemma Friedman_shift ls ls' rs rs' l r : sum_moved (length l) ls ls' -> sum_moved (length r) rs rs' -> FriedmanScore XR ls rs l r = FriedmanScore XR ls' rs' l r.
  Proof.
    intros (a & -> & ->) (b & -> & ->). unfold FriedmanScore, len.
    assert (E : nsub XR (ndiv XR (Some a) (nofZ XR (Z.of_nat (length l)))) (ndiv XR (Some b) (nofZ XR (Z.of_nat (length r)))) =
      nsub XR (ndiv XR (Some (a + IZR (Z.of_nat (length l)) * c)%R) (nofZ XR (Z.of_nat (length l)))) (ndiv XR (Some (b + IZR (Z.of_nat (length r)) * c)%R) (nofZ XR (Z.of_nat (length r))))).
    { cbn [nsub ndiv nofZ XR]. destruct (Nat.eq_dec (length l) 0) as [->|Hl].
      - cbn [Z.of_nat xdiv]. destruct (Req_EM_T 0 0); [reflexivity|congruence].
      - assert (IZR (Z.of_nat (length l)) <> 0%R) by (apply not_0_IZR; lia). rewrite !(xdiv_some _ (IZR (Z.of_nat (length l)))) by assumption.
        destruct (Nat.eq_dec (length r) 0) as [->|Hr].
        + cbn [Z.of_nat xdiv]. destruct (Req_EM_T 0 0); [reflexivity|congruence].
        + assert (IZR (Z.of_nat (length r)) <> 0%R) by (apply not_0_IZR; lia). rewrite !xdiv_some by assumption. cbn [lift2]. f_equal. field. split; assumption. }
    rewrite E. reflexivity.
  Qed.
  Lemma grad_shifted : lockstep (grad_target XR (numeric xs)) (grad_target XR (numeric shift)) (fun _ _ => True)
    (fun l r a a' => sum_moved (length l) (fst a) (fst a') /\ sum_moved (length r) (snd a) (snd a')).
  Proof.
    split; cbn [tImp tSplit tUpdate grad_target].
    - intros l s s' _. apply (follows_bind eq); [apply NumImpurity_shift|]. intros e ? <-. apply follows_ok. split; [reflexivity|exact I].
    - intros l r m s s' _. unfold GBSplit. apply (follows_bind (sum_moved (length l))); [apply GBSum_shift|]. intros ls ls' Hl.
      apply (follows_bind (sum_moved (length r))); [apply GBSum_shift|]. intros rs rs' Hr. apply follows_ok. split; [apply Friedman_shift; assumption|]. split; [exact I|]. intros _. split; assumption.
    - intros l r v s s' _ [Hl Hr]. unfold GBUpdate. apply (follows_bind (sum_moved (length v))); [apply GBSum_shift|]. intros vs vs' Hv.
      assert (H1 : sum_moved (length (l ++ v)) (nadd XR (fst s) vs) (nadd XR (fst s') vs')).
      { destruct Hl as (a & -> & ->), Hv as (b & -> & ->). exists (a + b)%R. split; [reflexivity|]. cbn [nadd XR lift2]. rewrite app_length, Nat2Z.inj_add, plus_IZR. f_equal. ring. }
      assert (H2 : sum_moved (length r) (nsub XR (snd s) vs) (nsub XR (snd s') vs')).
      { destruct Hr as (a & -> & ->), Hv as (b & -> & ->). exists (a - b)%R. split; [reflexivity|]. cbn [nsub XR lift2]. rewrite app_length, Nat2Z.inj_add, plus_IZR. f_equal. ring. }
      apply follows_ok. split; [apply Friedman_shift; assumption|]. split; [exact I|]. split; assumption.
  Qed.

  (** The mean moves along. *)
  Lemma NumMean_shift missing l : follows (fun x y => y = nadd XR x (Some c)) (NumMean XR (numeric xs) missing l) (NumMean XR (numeric shift) missing l).
  Proof.
    unfold NumMean.
    apply (follows_bind (fun (x y : XR * nat) => snd x = snd y /\ sum_moved (snd x) (fst x) (fst y))).
    - apply follows_foreach; [split; [reflexivity|]; exists 0%R; cbn; split; [reflexivity|f_equal; ring]|].
      intros i [m n] [m' n'] [En H]. cbn [fst snd] in *. subst n'. apply (follows_bind eq); [apply follows_refl|]. intros b ? <-. destruct b; [apply follows_ok; split; auto|].
      apply (follows_bind (fun x y => exists r : R, x = Some r /\ y = Some (r + c)%R)); [apply get_shift|]. intros a a' (r & -> & ->). apply follows_ok. split; [reflexivity|]. cbn [fst snd].
      destruct H as (s & -> & ->). exists (s + r)%R. split; [reflexivity|]. cbn [nadd XR lift2]. rewrite Nat2Z.inj_add, plus_IZR. cbn [Z.of_nat]. f_equal. cbn. ring.
    - intros [m n] [m' n'] [En (s & Es & Es')]. cbn [fst snd] in *. subst n' m m'. apply follows_ok. cbn [ndiv nadd num nofZ XR]. destruct (Nat.eq_dec n 0) as [->|Hn].
      + cbn [Z.of_nat xdiv]. destruct (Req_EM_T 0 0); [reflexivity|congruence].
      + assert (IZR (Z.of_nat n) <> 0%R) by (apply not_0_IZR; lia). rewrite !xdiv_some by assumption. cbn [lift2]. f_equal. field. assumption.
  Qed.
End Shift.
