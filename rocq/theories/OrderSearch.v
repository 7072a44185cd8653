(** Searching two columns that order the cases alike. *)
From Verif Require Import Go GoLemmas F64 F64Order F64Round ModelFeature ModelSplit SplitSpec SplitProofs ModelSort SortProofs ModelSearch ModelTree SearchSpec SearchProofs
  CatSearchProofs PropByName RowsProofs BlindProofs OrderProofs.
From Coq Require Import SpecFloat.
Local Open Scope nat_scope.
Local Open Scope list_scope.

(** The cases are in the same order in both columns; comparisons of float64 are [SFcompare]. *)
Definition same_order (f f' : numF) (cs : list nat) : Prop :=
  forall c d, In c cs -> In d cs -> SFcompare (nvalue f c) (nvalue f d) = SFcompare (nvalue f' c) (nvalue f' d).
(** A column whose values are numbers that the code tells apart. *)
Definition telling (f : numF) (cs : list nat) : Prop :=
  Forall (fun c => c < length (nData f) /\ nn (nvalue f c)) cs /\ apart f cs /\ midpoints f cs /\ tolerance_up f cs.

Lemma order_lt f f' cs c d : same_order f f' cs -> In c cs -> In d cs -> fltb (nvalue f c) (nvalue f d) = fltb (nvalue f' c) (nvalue f' d).
Proof. intros H Hc Hd. unfold fltb, SFltb. rewrite (H c d Hc Hd). reflexivity. Qed.
Lemma order_le f f' cs c d : same_order f f' cs -> In c cs -> In d cs -> fleb (nvalue f c) (nvalue f d) = fleb (nvalue f' c) (nvalue f' d).
Proof. intros H Hc Hd. unfold fleb, SFleb. rewrite (H c d Hc Hd). reflexivity. Qed.
Lemma order_eq f f' cs c d : same_order f f' cs -> In c cs -> In d cs -> feqb (nvalue f c) (nvalue f d) = feqb (nvalue f' c) (nvalue f' d).
Proof. intros H Hc Hd. unfold feqb, SFeqb. rewrite (H c d Hc Hd). reflexivity. Qed.
Lemma same_order_incl f f' l cs : incl l cs -> same_order f f' cs -> same_order f f' l.
Proof. intros H Ho c d Hc Hd. apply Ho; apply H; assumption. Qed.
Lemma telling_incl f l cs : incl l cs -> telling f cs -> telling f l.
Proof.
  intros H (H1 & H2 & H3 & H4). refine (conj _ (conj _ (conj _ _))).
  - rewrite Forall_forall in *. intros c Hc. apply H1. apply H. exact Hc.
  - intros c d Hc Hd. apply H2; apply H; assumption.
  - intros c d Hc Hd. apply H3; apply H; assumption.
  - intros c Hc. apply H4. apply H. exact Hc.
Qed.
Lemma near_iff f cs c d : telling f cs -> In c cs -> In d cs ->
  fleb (nvalue f d) (fadd (nvalue f c) f1e_7) = negb (fltb (nvalue f c) (nvalue f d)).
Proof.
  intros (H1 & H2 & _ & H4) Hc Hd. rewrite Forall_forall in H1. destruct (H1 c Hc) as [_ N1]. destruct (H1 d Hd) as [_ N2].
  destruct (fltb (nvalue f c) (nvalue f d)) eqn:E; cbn [negb].
  - apply H2 in E; auto. clear - E. ford.
  - pose proof (H4 c Hc) as H. clear - H E N1 N2. ford.
Qed.

(** ** Sorting *)
Lemma pairs_of (R : f64 -> f64 -> Prop) (k q : nat -> f64) cs : (forall c, In c cs -> R (k c) (q c)) -> Forall2 R (map k cs) (map q cs).
Proof. induction cs as [|c cs IH]; intros H; cbn [map]; constructor; [apply H; left; reflexivity|apply IH; intros d Hd; apply H; right; exact Hd]. Qed.
Lemma SortBy_alike cs (k k' : nat -> f64) rest rest' :
  (forall c d, In c cs -> In d cs -> SFcompare (k c) (k d) = SFcompare (k' c) (k' d)) ->
  exists cs1 v1 v1', SortBy cs (map k cs ++ rest) = Ok (cs1, v1) /\ SortBy cs (map k' cs ++ rest') = Ok (cs1, v1').
Proof.
  intros H. destruct (SortBy_total cs (map k cs)) as (cs1 & v & E & _); [rewrite map_length; lia|].
  assert (G : forall (q : nat -> f64) tail, (forall c d, In c cs -> In d cs -> SFcompare (k c) (k d) = SFcompare (q c) (q d)) ->
    exists v', SortBy cs (map q cs ++ tail) = Ok (cs1, v')).
  { intros q tail Hq. pose (R := fun x x' => exists c, In c cs /\ x = k c /\ x' = q c).
    destruct (follows_SortBy R) with (tail := tail) (cs := cs) (vs := map k cs) (vs' := map q cs ++ tail) (a := (cs1, v)) as ([cs2 v2] & E2 & [E3 _]).
    - intros x x' y y' (c & Hc & -> & ->) (d & Hd & -> & ->). unfold fltb, SFltb. rewrite (Hq c d Hc Hd). reflexivity.
    - intros x x' y y' (c & Hc & -> & ->) (d & Hd & -> & ->). unfold feqb, SFeqb. rewrite (Hq c d Hc Hd). reflexivity.
    - intros x x' y y' (c & Hc & -> & ->) (d & Hd & -> & ->). unfold fleb, SFleb. rewrite (Hq c d Hc Hd). reflexivity.
    - exists (map q cs). split; [reflexivity|]. apply pairs_of. intros c Hc. exists c. auto.
    - exact E.
    - cbn [fst] in E3. subst cs2. eauto. }
  destruct (G k rest) as (v1 & E1); [auto|]. destruct (G k' rest' H) as (v2 & E2). exists cs1, v1, v2. auto.
Qed.

Section Search.
  Variable A : arith.
  Variable St : Type.
  Variable T : target A St.
  Variable rnd : nat -> nat.
  Hypothesis Hord : ordered A.

  (** The allocations differ in the values left behind by the sorting. *)
  Definition alrel (N : nat) (al al' : allocs St) : Prop :=
    N <= length (aVals al) /\ N <= length (aVals al') /\ aCat al = aCat al' /\ aTgt al = aTgt al' /\ aDraw al = aDraw al'.

  (** Two codes that send the cases the same way. *)
  Definition same_cut (f f' : numF) (cs : list nat) (x x' : f64) : Prop :=
    forall c, In c cs -> fleb (nvalue f c) x = fleb (nvalue f' c) x'.

  Section Scan.
    Variables f f' : numF.
    Variable cs : list nat.
    Variables vs vs' : list f64.
    Variable parent : A.
    Hypothesis Ho : same_order f f' cs.
    Hypothesis Ht : telling f cs.
    Hypothesis Ht' : telling f' cs.
    Hypothesis Hget : forall i, i < length cs -> get vs i = Ok (nvalue f (nth i cs 0)).
    Hypothesis Hget' : forall i, i < length cs -> get vs' i = Ok (nvalue f' (nth i cs 0)).
    Hypothesis Hs : forall i j, i <= j -> j < length cs -> fleb (nvalue f (nth i cs 0)) (nvalue f (nth j cs 0)) = true.

    Lemma nth_cs i : i < length cs -> In (nth i cs 0) cs.
    Proof. apply nth_In. Qed.
    Lemma nn_cs i : i < length cs -> nn (nvalue f (nth i cs 0)).
    Proof. intros H. destruct Ht as (H1 & _). rewrite Forall_forall in H1. apply H1. apply nth_cs. exact H. Qed.

    Lemma gap_cut q i : q < i -> i < length cs ->
      (forall j, q <= j < i -> fltb (nvalue f (nth q cs 0)) (nvalue f (nth j cs 0)) = false) ->
      fltb (nvalue f (nth q cs 0)) (nvalue f (nth i cs 0)) = true ->
      same_cut f f' cs (fdiv (fadd (nvalue f (nth q cs 0)) (nvalue f (nth i cs 0))) f2)
                       (fdiv (fadd (nvalue f' (nth q cs 0)) (nvalue f' (nth i cs 0))) f2).
    Proof.
      intros Hq Hi Hn Hg c Hc. apply (In_nth _ _ 0) in Hc as (j & Hj & <-).
      assert (Iq : In (nth q cs 0) cs) by (apply nth_cs; lia). assert (Ii : In (nth i cs 0) cs) by (apply nth_cs; lia).
      assert (Ij : In (nth j cs 0) cs) by (apply nth_cs; lia).
      destruct Ht as (_ & _ & M & _). destruct (M _ _ Iq Ii Hg) as [M1 M2].
      pose proof Hg as Hg'. rewrite (order_lt _ _ _ _ _ Ho Iq Ii) in Hg'.
      destruct Ht' as (_ & _ & M' & _). destruct (M' _ _ Iq Ii Hg') as [M1' M2'].
      destruct (Nat.lt_ge_cases j i) as [L|L].
      - assert (Le : fleb (nvalue f (nth j cs 0)) (nvalue f (nth q cs 0)) = true).
        { destruct (Nat.lt_ge_cases j q) as [L2|L2]; [apply Hs; lia|]. pose proof (Hn j ltac:(lia)) as Hn1.
          pose proof (nn_cs j Hj). pose proof (nn_cs q ltac:(lia)). clear - Hn1 H H0. ford. }
        pose proof Le as Le'. rewrite (order_le _ _ _ _ _ Ho Ij Iq) in Le'.
        rewrite (fle_trans _ _ _ Le M1), (fle_trans _ _ _ Le' M1'). reflexivity.
      - pose proof (Hs i j L Hj) as Le. pose proof Le as Le'. rewrite (order_le _ _ _ _ _ Ho Ii Ij) in Le'.
        transitivity false; [|symmetry].
        + clear - M2 Le. ford.
        + clear - M2' Le'. ford.
    Qed.

    Definition srel (lo i : nat) (s s' : nat * Z * A * f64 * St) : Prop :=
      let '(ls, li, dec, x, tg) := s in let '(ls', li', dec', x', tg') := s' in
      ls = ls' /\ li = li' /\ dec = dec' /\ tg = tg' /\
      (exists q, li = Z.of_nat q /\ q < i /\ (forall j, q <= j < i -> fltb (nvalue f (nth q cs 0)) (nvalue f (nth j cs 0)) = false)) /\
      (dec = minImp A \/ nltb A (minImp A) dec = true) /\
      (nltb A (minImp A) dec = true -> same_cut f f' cs x x').

    Lemma num_step_follows lo i s s' : i < length cs -> srel lo i s s' ->
      follows (srel lo (S i)) (num_step A St T cs vs parent i s) (num_step A St T cs vs' parent i s').
    Proof.
      destruct s as [[[[ls li] dec] x] tg], s' as [[[[ls' li'] dec'] x'] tg']. intros Hi (<- & <- & <- & <- & (q & -> & Hq & Hn) & Hd & Hc).
      unfold num_step. rewrite (Hget i Hi), (Hget' i Hi). cbn [bind]. rewrite !getZ_of_nat, (Hget q ltac:(lia)), (Hget' q ltac:(lia)). cbn [bind].
      assert (Iq : In (nth q cs 0) cs) by (apply nth_cs; lia). assert (Ii : In (nth i cs 0) cs) by (apply nth_cs; lia).
      rewrite (near_iff f cs _ _ Ht Iq Ii), (near_iff f' cs _ _ Ht' Iq Ii), <- (order_lt _ _ _ _ _ Ho Iq Ii).
      destruct (fltb (nvalue f (nth q cs 0)) (nvalue f (nth i cs 0))) eqn:Eg; cbn [negb].
      - apply (follows_bind eq); [apply follows_refl|]. intros lm ? <-. apply (follows_bind eq); [apply follows_refl|]. intros rm ? <-.
        apply (follows_bind eq); [apply follows_refl|]. intros [imp tg1] ? <-. cbn zeta.
        assert (Hq2 : exists q0, Z.of_nat i = Z.of_nat q0 /\ q0 < S i /\ (forall j, q0 <= j < S i -> fltb (nvalue f (nth q0 cs 0)) (nvalue f (nth j cs 0)) = false)).
        { exists i. refine (conj eq_refl (conj _ _)); [lia|]. intros j Hj. replace j with i by lia. pose proof (nn_cs i Hi). clear - H. ford. }
        destruct (nltb A dec (decrease A parent imp)) eqn:Eb; apply follows_ok; refine (conj eq_refl (conj eq_refl (conj eq_refl (conj eq_refl (conj Hq2 (conj _ _)))))).
        + right. destruct Hd as [->|Hd]; [exact Eb|]. eapply ordered_trans; eauto.
        + intros _. apply gap_cut; auto.
        + exact Hd.
        + exact Hc.
      - apply follows_ok. refine (conj eq_refl (conj eq_refl (conj eq_refl (conj eq_refl (conj _ (conj Hd Hc)))))).
        exists q. refine (conj eq_refl (conj _ _)); [lia|]. intros j Hj. destruct (Nat.eq_dec j i) as [->|]; [exact Eg|apply Hn; lia].
    Qed.
    Lemma num_scan_follows lo n : forall k s s', lo + k + n <= length cs -> srel lo (lo + k) s s' ->
      follows (srel lo (lo + k + n)) (for_up n (lo + k) (num_step A St T cs vs parent) s) (for_up n (lo + k) (num_step A St T cs vs' parent) s').
    Proof.
      induction n as [|n IH]; intros k s s' Hl Hr; cbn [for_up].
      - rewrite Nat.add_0_r. apply follows_ok. exact Hr.
      - apply (follows_bind (srel lo (S (lo + k)))); [apply num_step_follows; [lia|exact Hr]|]. intros s1 s1' H1.
        replace (S (lo + k)) with (lo + S k) in * by lia. replace (lo + k + S n) with (lo + S k + n) by lia. apply IH; [lia|exact H1].
    Qed.
  End Scan.

  Definition frel (N : nat) (cut : coded -> coded -> Prop) (r r' : found A St) : Prop :=
    fDec r = fDec r' /\ fConst r = fConst r' /\ fCases r = fCases r' /\ alrel N (fAl r) (fAl r') /\
    (nltb A (minImp A) (fDec r) = true -> cut (fCode r) (fCode r')).
  Definition num_cut (f f' : numF) (cs : list nat) (c c' : coded) : Prop :=
    match c, c' with CNum x, CNum x' => same_cut f f' cs x x' | _, _ => False end.

  Lemma num_follows N f f' cs parent leaf rs al al' : 1 <= leaf -> length cs <= N -> same_order f f' cs -> telling f cs -> telling f' cs -> alrel N al al' ->
    follows (frel N (num_cut f f' cs)) (BestNumSplit A St T rnd f cs parent leaf rs al) (BestNumSplit A St T rnd f' cs parent leaf rs al').
  Proof.
    intros Hl HN Ho Ht Ht' (L1 & L2 & Ec & Et & Ed). unfold BestNumSplit.
    assert (Irr : nltb A (minImp A) (minImp A) = false) by apply (proj1 Hord).
    destruct (2 * leaf <=? length cs) eqn:El.
    2:{ apply follows_ok. refine (conj eq_refl (conj eq_refl (conj eq_refl (conj (conj L1 (conj L2 (conj Ec (conj Et Ed)))) _)))). cbn. congruence. }
    apply Nat.leb_le in El.
    destruct Ht as (F1 & T2). destruct Ht' as (F1' & T2').
    pose proof (conj F1 T2) as Ht. pose proof (conj F1' T2') as Ht'.
    destruct (load_sort f cs (aVals al) F1 ltac:(lia)) as (c1 & vs & E & P & L & Hget & Hs).
    destruct (load_sort f' cs (aVals al') F1' ltac:(lia)) as (c1' & vs' & E' & P' & L' & Hget' & Hs').
    assert (Ecs : c1 = c1').
    { assert (G1 : Forall (fun c => c < length (nData f)) cs) by (eapply Forall_impl; [|exact F1]; cbn; tauto).
      assert (G2 : Forall (fun c => c < length (nData f')) cs) by (eapply Forall_impl; [|exact F1']; cbn; tauto).
      rewrite load_ok in E, E' by (assumption || lia). cbn [bind] in E, E'.
      destruct (SortBy_alike cs (nvalue f) (nvalue f') (skipn (length cs) (aVals al)) (skipn (length cs) (aVals al')) Ho) as (c2 & v1 & v2 & X1 & X2).
      rewrite X1 in E. rewrite X2 in E'. congruence. }
    subst c1'. apply bind_ok in E as (w & -> & E). apply bind_ok in E' as (w' & -> & E'). cbn [bind]. rewrite E, E'. cbn [bind aTgt aDraw aCat aVals].
    pose proof (Permutation_length P) as PL.
    assert (Hi : incl c1 cs) by (intros c Hc; eapply Permutation_in; [symmetry; exact P|exact Hc]).
    assert (Ho1 : same_order f f' c1) by (eapply same_order_incl; eauto).
    assert (Ht1 : telling f c1) by (eapply telling_incl; eauto). assert (Ht1' : telling f' c1) by (eapply telling_incl; eauto).
    rewrite (Hget 0), (Hget' 0) by lia. cbn [bind].
    replace (Z.of_nat (length cs) - 1)%Z with (Z.of_nat (length cs - 1)) by lia.
    rewrite !getZ_of_nat, Hget, Hget' by lia. cbn [bind].
    assert (I0 : In (nth 0 c1 0) c1) by (apply nth_In; lia). assert (In1 : In (nth (length cs - 1) c1 0) c1) by (apply nth_In; lia).
    rewrite (near_iff f c1 _ _ Ht1 I0 In1), (near_iff f' c1 _ _ Ht1' I0 In1), <- (order_lt _ _ _ _ _ Ho1 I0 In1).
    destruct (negb (fltb (nvalue f (nth 0 c1 0)) (nvalue f (nth (length cs - 1) c1 0)))).
    { apply follows_ok. unfold frel, alrel. cbn. repeat split; auto; try lia. congruence. }
    rewrite <- Ed.
    destruct (if rs && (leaf <? length cs - leaf)
       then let* k := (if length cs - leaf - leaf =? 0 then Panic else Ok (rnd (aDraw al) mod (length cs - leaf - leaf))) in
            Ok (leaf + k, leaf + k + 1, S (aDraw al))
       else Ok (leaf, length cs - leaf, aDraw al)) as [[[lo stop] d]| |] eqn:Er; [|apply follows_panic|intros ? X; discriminate X].
    assert (B : 1 <= lo /\ stop <= length cs).
    { destruct (rs && (leaf <? length cs - leaf)).
      - destruct (Nat.eqb_spec (length cs - leaf - leaf) 0); [discriminate|]. cbn [bind] in Er. injection Er as <- <- <-.
        pose proof (Nat.mod_upper_bound (rnd (aDraw al)) (length cs - leaf - leaf) ltac:(lia)). lia.
      - injection Er as <- <- <-. lia. }
    cbn [bind]. rewrite <- Et.
    destruct (Nat.le_gt_cases stop lo) as [Hz|Hz].
    { replace (stop - lo) with 0 by lia. cbn [for_up bind]. apply follows_ok. unfold frel, alrel. cbn. repeat split; auto; try lia. congruence. }
    pose proof (num_scan_follows f f' c1 vs vs' parent Ho1 Ht1 Ht1' ltac:(intros; apply Hget; lia) ltac:(intros; apply Hget'; lia)
      ltac:(intros; apply Hs; lia) lo (stop - lo) 0
      (0, (Z.of_nat lo - 1)%Z, minImp A, f0, aTgt al) (0, (Z.of_nat lo - 1)%Z, minImp A, f0, aTgt al)) as Sc.
    rewrite Nat.add_0_r in Sc.
    apply (follows_bind (srel f f' c1 lo (lo + (stop - lo)))).
    { apply Sc; [lia|]. refine (conj eq_refl (conj eq_refl (conj eq_refl (conj eq_refl (conj _ (conj (or_introl eq_refl) _)))))); [|congruence].
      exists (lo - 1). refine (conj _ (conj _ _)); [lia|lia|]. intros j Hj. replace j with (lo - 1) by lia.
      destruct Ht1 as (N1 & _). rewrite Forall_forall in N1. destruct (N1 (nth (lo - 1) c1 0) ltac:(apply nth_In; lia)) as [_ N2]. clear - N2. ford. }
    intros [[[[ls li] dec] x] tg] [[[[ls' li'] dec'] x'] tg'] (<- & <- & <- & <- & _ & _ & Hcut).
    apply follows_ok. unfold frel, alrel. cbn. repeat split; auto; try lia.
    intros Hlt c Hc. apply Hcut; [exact Hlt|]. eapply Permutation_in; [exact P|exact Hc].
  Qed.

  (** ** Categorical columns: the values left behind do not matter *)
  Lemma alrel_tgt N al al' tg : alrel N al al' -> alrel N (set_tgt St al tg) (set_tgt St al' tg).
  Proof. intros (H1 & H2 & H3 & H4 & H5). unfold alrel, set_tgt. cbn. auto. Qed.
  Ltac same := apply (follows_bind eq); [apply follows_refl|].
  Lemma cat_follows N f cs parent leaf al al' : alrel N al al' ->
    let search cs p al :=
      if negb (cRandom f) && (maxNonBigCats <? NCats (cMap f)) then BestCatSplitIterBig A St T f cs p leaf al
      else if negb (cRandom f) && (maxExhaustiveCats <? NCats (cMap f)) then BestCatSplitIter A St T f cs p leaf al
      else if maxNonBigCats <? NCats (cMap f) then BestCatSplitBig A St T rnd f cs p maxNonRandomExahustive leaf al
      else if NCats (cMap f) =? 2 then BestBinSplit A St T f cs p leaf al
      else BestCatSplit A St T rnd f cs p maxNonRandomExahustive leaf al in
    follows (frel N (fun c c' => c = c' /\ code_fits (FCat f) c)) (search cs parent al) (search cs parent al').
  Proof.
    intros Ha. pose proof Ha as (L1 & L2 & Ec & Et & Ed). cbn zeta.
    destruct (negb (cRandom f) && (maxNonBigCats <? NCats (cMap f))).
    { unfold BestCatSplitIterBig. rewrite <- Et. same. intros [[b dec] tg] ? <-. apply follows_ok. unfold frel. cbn. repeat split; auto. }
    destruct (negb (cRandom f) && (maxExhaustiveCats <? NCats (cMap f))).
    { unfold BestCatSplitIter. rewrite <- Et. same. intros [[b dec] tg] ? <-. apply follows_ok. unfold frel. cbn. repeat split; auto. }
    destruct (maxNonBigCats <? NCats (cMap f)).
    { unfold BestCatSplitBig. rewrite <- Et, <- Ed, <- Ec. same. intros [[[b dec] tg] d] ? <-. apply follows_ok. unfold frel. cbn. repeat split; auto. }
    destruct (NCats (cMap f) =? 2).
    { unfold BestBinSplit. rewrite <- Et. same. intros [[c l] r] ? <-. destruct ((l <? leaf) || (length c - r <? leaf)).
      - apply follows_ok. unfold frel. cbn. repeat split; auto.
      - same. intros lm ? <-. same. intros rm ? <-. same. intros [imp tg] ? <-. apply follows_ok. unfold frel. cbn. repeat split; auto. }
    unfold BestCatSplit. rewrite <- Et, <- Ed, <- Ec. same. intros cached ? <-. same. intros [[[[[[c k] b] dec] cn] tg] d] ? <-.
    apply follows_ok. unfold frel. cbn. repeat split; auto.
  Qed.

  (** ** Missing values *)
  Definition aside (missing : list bool) (cases : list nat) : res (list nat * list nat) :=
    foreach cases (fun i '((ms, nms) : list nat * list nat) =>
      let* m := get missing i in Ok (if m then (ms ++ [i], nms) else (ms, nms ++ [i]))) ([], []).
  Lemma aside_spec missing cases : ifok (aside missing cases) (fun '((ms, nms) : list nat * list nat) =>
    nms = filter (fun c => negb (nth c missing false)) cases).
  Proof.
    unfold aside. assert (G : forall l a b r, foreach l (fun i '((ms, nms) : list nat * list nat) =>
      let* m := get missing i in Ok (if m then (ms ++ [i], nms) else (ms, nms ++ [i]))) (a, b) = Ok r ->
      snd r = b ++ filter (fun c => negb (nth c missing false)) l).
    { induction l as [|c l IH]; intros a b r E; cbn [foreach filter] in *.
      - injection E as <-. cbn. rewrite app_nil_r. reflexivity.
      - apply bind_ok in E as ([a1 b1] & E1 & E). apply bind_ok in E1 as (m & Em & E1). apply IH in E. rewrite E.
        apply get_inv in Em. rewrite (nth_error_nth _ _ false Em). destruct m; cbn [negb]; injection E1 as <- <-; [reflexivity|].
        rewrite <- app_assoc. reflexivity. }
    intros [ms nms] E. apply G in E. exact E.
  Qed.
  Lemma missing_follows N (has : bool) (missing : list bool) (search search' : list nat -> A -> allocs St -> res (found A St)) cases parent al al' (cut0 cut : coded -> coded -> Prop) : alrel N al al' ->
    (forall c c', cut0 c c' -> cut c c') ->
    (forall l p al al', (if has then l = filter (fun c => negb (nth c missing false)) cases else l = cases) -> alrel N al al' ->
      follows (frel N cut0) (search l p al) (search' l p al')) ->
    (has = true -> cut CNil CNil) ->
    follows (frel N cut) (with_missing A St T has missing search cases parent al) (with_missing A St T has missing search' cases parent al').
  Proof.
    intros Ha Hcut Hs Hnil. unfold with_missing. destruct has.
    2:{ intros r E. destruct (Hs cases parent al al' eq_refl Ha r E) as (r' & E' & F). exists r'. split; [exact E'|]. unfold frel in *. intuition. }
    fold (aside missing cases). intros r E. apply bind_ok in E as ([ms nms] & Ea & E). rewrite Ea. cbn [bind].
    pose proof (aside_spec missing cases _ Ea) as En. cbn beta iota in En. revert r E.
    destruct (length nms =? 0).
    { apply follows_ok. unfold frel. cbn. repeat split; auto; apply Ha. }
    pose proof Ha as (L1 & L2 & Ec & Et & Ed). rewrite <- Et, <- Ec, <- Ed.
    same. intros [pimp tg] ? <-. same. intros [mimp tg1] ? <-.
    apply (follows_bind (frel N cut0)); [apply Hs; [exact En|unfold alrel; cbn; auto]|]. intros s s' (F1 & F2 & F3 & F4 & F5). rewrite <- F1, <- F2.
    apply follows_ok. unfold frel. cbn. repeat split; auto; try apply F4. intros Hlt. apply Hcut. apply F5.
    destruct (nltb A (minImp A) (fDec s)) eqn:Eq; [reflexivity|]. rewrite andb_false_r, Eq in Hlt. discriminate Hlt.
  Qed.
End Search.

(** ** Columns *)
Definition known (f : numF) (c : nat) : bool := negb (nHas f && nth c (nMissing f) false).
(** Categorical columns are the same; numerical ones have the same name and the same missing
    values, order the known values alike, and tell them apart. *)
Definition order_alike (cases : list nat) (f f' : feature) : Prop :=
  match f, f' with
  | FCat f, FCat f' => f = f'
  | FNum f, FNum f' => (nName f = nName f' /\ nHas f = nHas f' /\ nMissing f = nMissing f') /\ same_order f f' (filter (known f) cases) /\
      telling f (filter (known f) cases) /\ telling f' (filter (known f) cases)
  | _, _ => False
  end.
Lemma order_alike_incl l cases f f' : incl l cases -> order_alike cases f f' -> order_alike l f f'.
Proof.
  intros Hi. assert (Hf : forall q, incl (filter q l) (filter q cases)) by (intros q c Hc; apply filter_In in Hc as [H1 H2]; apply filter_In; auto).
  destruct f as [f|f], f' as [f'|f']; cbn; auto. intros (H1 & H3 & H4 & H5). refine (conj H1 (conj _ (conj _ _))).
  - eapply same_order_incl; [apply Hf|exact H3].
  - eapply telling_incl; [apply Hf|exact H4].
  - eapply telling_incl; [apply Hf|exact H5].
Qed.
(** Codes that cut the lists of these cases alike. *)
Definition cuts_alike (f f' : feature) (cs : list nat) (c c' : coded) : Prop :=
  (c = CNil /\ c' = CNil) \/
  match f, f' with
  | FNum f, FNum f' => num_cut f f' (filter (known f) cs) c c'
  | FCat f, FCat f' => c = c' /\ code_fits (FCat f) c
  | _, _ => False
  end.
Lemma cuts_incl f f' l cs c c' : incl l cs -> cuts_alike f f' cs c c' -> cuts_alike f f' l c c'.
Proof.
  intros Hi [H|H]; [left; exact H|right]. destruct f as [f|f], f' as [f'|f']; auto. destruct c, c'; auto. cbn [num_cut] in *.
  intros i H1. apply H. apply filter_In in H1 as [H1 H2]. apply filter_In. auto.
Qed.
Lemma split_loop_alike miss left left' cases :
  (forall c, In c cases -> miss c = Ok false -> left' c = left c) -> split_loop miss left cases = split_loop miss left' cases.
Proof.
  intros H. destruct (split_loop_sim (fun c => c) miss left miss left' cases) as [E _]; auto. rewrite map_id in E. symmetry. etransitivity; [exact E|].
  destruct (split_loop miss left cases) as [[[c a] b]| |]; cbn; [|reflexivity..]. rewrite map_id. reflexivity.
Qed.
Lemma cuts_nil f f' cs c c' : cuts_alike f f' cs c c' -> isCNil c = isCNil c'.
Proof. intros [[-> ->]|H]; [reflexivity|]. destruct f, f'; try contradiction; [|destruct H as [-> _]; reflexivity]. destruct c, c'; try contradiction. reflexivity. Qed.
Lemma cuts_fits f f' cs c c' : cuts_alike f f' cs c c' -> isCNil c = false -> code_fits f c.
Proof. intros [[-> ->]|H] E; [discriminate|]. destruct f, f'; try contradiction; [|destruct H as [_ H]; exact H]. destruct c, c'; try contradiction. exact I. Qed.
Lemma cuts_points f f' cs c c' : order_alike cs f f' -> cuts_alike f f' cs c c' -> isCNil c = false ->
  fSplitPoints f c cs = fSplitPoints f' c' cs.
Proof.
  intros Ho [[-> ->]|H] E; [discriminate|]. destruct f as [f|f], f' as [f'|f']; try contradiction.
  2:{ cbn [order_alike] in Ho. destruct H as [-> _]. subst f'. reflexivity. }
  destruct c as [x| | |], c' as [x'| | |]; try contradiction. cbn [order_alike] in Ho. destruct Ho as ((H0 & H1 & H2) & H3 & H4 & H5). cbn [num_cut] in H.
  cbn [fSplitPoints nSplitPoints]. rewrite <- H1, <- H2. apply split_loop_alike. intros i Il Em.
  assert (K : In i (filter (known f) cs)).
  { apply filter_In. split; [exact Il|]. unfold known. unfold missq in Em. destruct (nHas f); [|reflexivity].
    apply get_inv in Em. rewrite (nth_error_nth _ _ false Em). reflexivity. }
  destruct H4 as (G & _). destruct H5 as (G' & _). rewrite Forall_forall in G, G'. destruct (G i K) as [B _]. destruct (G' i K) as [B' _].
  cbn beta. rewrite (@get_default f64 _ _ S754_nan B), (@get_default f64 _ _ S754_nan B'). cbn [bind]. f_equal. symmetry. apply (H i K).
Qed.
(** The split that is printed: the same but for the threshold. *)
Definition spl_alike (s s' : splitter) : Prop :=
  sFeature s = sFeature s' /\ sNumerical s = sNumerical s' /\ sLeft s = sLeft s' /\ (sNumerical s = false -> sValue s = sValue s').
Lemma cuts_decode f f' cs c c' : order_alike cs f f' -> cuts_alike f f' cs c c' -> follows spl_alike (fDecodeSplit f c) (fDecodeSplit f' c').
Proof.
  intros Ho Hc s E. destruct f as [f|f], f' as [f'|f']; try contradiction; cbn in *.
  2:{ subst f'. destruct Hc as [[-> ->]|[-> _]]; (eexists; split; [exact E|repeat split]). }
  destruct Hc as [[-> ->]|H]; [discriminate|]. destruct c, c'; try contradiction. destruct Ho as ((H0 & _) & _). injection E as <-.
  eexists; split; [reflexivity|]. repeat split; cbn; auto. discriminate.
Qed.

Section Feature.
  Variable A : arith.
  Variable St : Type.
  Variable T : target A St.
  Variable rnd : nat -> nat.
  Hypothesis Hord : ordered A.

  Lemma BestSplit_follows N f f' cs parent leaf rs al al' : 1 <= leaf -> length cs <= N -> order_alike cs f f' -> alrel St N al al' ->
    follows (frel A St N (cuts_alike f f' cs)) (BestSplit A St T rnd f cs parent leaf rs al) (BestSplit A St T rnd f' cs parent leaf rs al').
  Proof.
    intros Hl HN Hf Ha. destruct f as [f|f], f' as [f'|f']; cbn [order_alike] in Hf; try contradiction; cbn [BestSplit].
    - pose proof Hf as ((H0 & H1 & H2) & H3 & H4 & H5). unfold nBestSplit. rewrite <- H1, <- H2.
      apply (missing_follows A St T rnd N _ _ _ _ cs parent al al' (num_cut f f' (filter (known f) cs))); auto.
      + intros c c' Hc. right. exact Hc.
      + intros l p a a' El Haa.
        assert (El2 : l = filter (known f) cs).
        { unfold known. destruct (nHas f); cbn [andb]; [exact El|]. rewrite El. clear. induction cs as [|a l0 IH]; [reflexivity|cbn; f_equal; exact IH]. }
        rewrite El2. apply num_follows; auto.
        etransitivity; [|exact HN]. clear. induction cs as [|c l IH]; cbn; [lia|]. destruct (known f c); cbn; lia.
      + intros _. left. auto.
    - subst f'. unfold cBestSplit. apply (missing_follows A St T rnd N _ _ _ _ cs parent al al' (fun c c' => c = c' /\ code_fits (FCat f) c)); auto.
      + intros c c' Hc. right. exact Hc.
      + intros l p a a' _ Haa. apply cat_follows. exact Haa.
      + intros _. left. auto.
  Qed.

  (** ** The cases a search leaves behind are the ones it was given *)
  Lemma cat_part_perm bits cs cached : ifok (cat_part bits cs cached) (fun '((c, _, _, _) : list nat * list Z * nat * nat) => Permutation cs c).
  Proof.
    intros r E. unfold cat_part in E. revert r E.
    assert (G : forall r, cat_part bits cs cached = Ok r -> Permutation cs (fst (fst (fst r)))).
    { intros r E. eapply (loop_ifok (fun s : list nat * list Z * nat * nat * nat => Permutation cs (fst (fst (fst (fst s)))))
        (fun r : list nat * list Z * nat * nat => Permutation cs (fst (fst (fst r))))); [exact E|apply Permutation_refl|]. clear.
      intros [[[[c k] l] j] r] q P E. cbn [fst] in P. destruct (j <? r); [|injection E as <-; exact P]. apply bind_ok in E as (x & Ex & E).
      destruct (negb (Z.land bits x =? 0)%Z); [injection E as <-; exact P|]. apply bind_ok in E as (c1 & E1 & E). apply bind_ok in E as (k1 & E2 & E).
      injection E as <-. cbn [fst]. etransitivity; [exact P|]. eapply swapl_perm; exact E1. }
    intros [[[c k] l] r] E. exact (G _ E).
  Qed.
  Lemma bin_part_perm data cs r : bin_part data cs = Ok r -> Permutation cs (fst (fst r)).
  Proof.
    intros E. eapply (loop_ifok (fun s : list nat * nat * nat * nat => Permutation cs (fst (fst (fst s))))
        (fun r : list nat * nat * nat => Permutation cs (fst (fst r)))); [exact E|apply Permutation_refl|]. clear.
    intros [[[c l] j] r] q P E. cbn [fst] in P. destruct (j <? r); [|injection E as <-; exact P]. apply bind_ok in E as (x & Ex & E).
    apply bind_ok in E as (cat & Ec & E).
    destruct (cat =? 1); [injection E as <-; exact P|]. apply bind_ok in E as (c1 & E1 & E).
    injection E as <-. cbn [fst]. etransitivity; [exact P|]. eapply swapl_perm; exact E1.
  Qed.
  Ltac peel E := apply bind_ok in E as (? & ? & E).
  Lemma missing_perm (has : bool) missing (search : list nat -> A -> allocs St -> res (found A St)) cs parent al r :
    with_missing A St T has missing search cs parent al = Ok r ->
    (has = false -> search cs parent al = Ok r -> Permutation cs (fCases r)) -> Permutation cs (fCases r).
  Proof.
    intros E Hs. unfold with_missing in E. destruct has; [|auto]. 
    apply bind_ok in E as ([ms nms] & _ & E). destruct (length nms =? 0); [injection E as <-; apply Permutation_refl|].
    apply bind_ok in E as ([p tg] & _ & E). apply bind_ok in E as ([m tg1] & _ & E). apply bind_ok in E as (s & _ & E). injection E as <-. apply Permutation_refl.
  Qed.
  Lemma BestSplit_perm f cs parent leaf rs al r :
    match f with FNum f => telling f (filter (known f) cs) | FCat _ => True end -> length cs <= length (aVals al) ->
    BestSplit A St T rnd f cs parent leaf rs al = Ok r -> Permutation cs (fCases r).
  Proof.
    intros Hf HN E. destruct f as [f|f]; cbn [BestSplit] in E.
    - unfold nBestSplit in E. eapply missing_perm; [exact E|]. clear E. intros Eh E.
      assert (Hk : filter (known f) cs = cs).
      { unfold known. rewrite Eh. cbn. clear. induction cs as [|a l0 IH]; [reflexivity|cbn; f_equal; exact IH]. }
      rewrite Hk in Hf. unfold BestNumSplit in E. destruct (2 * leaf <=? length cs); [|injection E as <-; apply Permutation_refl].
      destruct Hf as (H1 & _). destruct (load_sort f cs (aVals al) H1 HN) as (c1 & v1 & El & P & _).
      apply bind_ok in E as (vals & Ev & E). rewrite Ev in El. cbn [bind] in El. rewrite El in E. cbn [bind] in E.
      peel E. peel E. destruct (fleb _ _); [injection E as <-; exact P|]. apply bind_ok in E as ([[lo stop] d] & _ & E).
      apply bind_ok in E as ([[[[a b] c] x1] tg] & _ & E). injection E as <-. exact P.
    - unfold cBestSplit in E. eapply missing_perm; [exact E|]. clear E. intros _ E.
      destruct (negb (cRandom f) && (maxNonBigCats <? NCats (cMap f))).
      { unfold BestCatSplitIterBig in E. apply bind_ok in E as ([[b dec] tg] & _ & E). injection E as <-. apply Permutation_refl. }
      destruct (negb (cRandom f) && (maxExhaustiveCats <? NCats (cMap f))).
      { unfold BestCatSplitIter in E. apply bind_ok in E as ([[b dec] tg] & _ & E). injection E as <-. apply Permutation_refl. }
      destruct (maxNonBigCats <? NCats (cMap f)).
      { unfold BestCatSplitBig in E. apply bind_ok in E as ([[[b dec] tg] d] & _ & E). injection E as <-. apply Permutation_refl. }
      destruct (NCats (cMap f) =? 2).
      { unfold BestBinSplit in E. apply bind_ok in E as ([[c l] q] & Eb & E). apply bin_part_perm in Eb. cbn [fst] in Eb.
        destruct (_ || _); [injection E as <-; exact Eb|]. peel E. peel E. apply bind_ok in E as ([imp tg] & _ & E). injection E as <-. exact Eb. }
      unfold BestCatSplit in E. peel E. apply bind_ok in E as ([[[[[[c k] b] dec] cn] tg] d] & Ef & E). injection E as <-. cbn [fCases].
      change (Permutation cs (fst (fst (fst (fst (fst (fst (c, k, b, dec, cn, tg, d)))))))).
      eapply (for_up_ifok (fun s : list nat * list Z * Z * A * bool * St * nat => Permutation cs (fst (fst (fst (fst (fst (fst s)))))))); [exact Ef|apply Permutation_refl|].
      clear. intros i [[[[[[c k] b] dec] cn] tg] d] s' P E. cbn [fst] in P. unfold cat_step in E.
      destruct (if NCats (cMap f) <=? maxNonRandomExahustive then _ else _) as [bits d1].
      apply bind_ok in E as ([[[c1 k1] l] q] & Ep & E). pose proof (cat_part_perm _ _ _ _ Ep) as P1. cbn beta iota in P1.
      assert (P2 : Permutation cs c1) by (etransitivity; eauto).
      destruct (_ || _); [injection E as <-; exact P2|]. peel E. peel E. apply bind_ok in E as ([imp tg1] & _ & E).
      destruct (nltb A dec _); injection E as <-; exact P2.
  Qed.
End Feature.
