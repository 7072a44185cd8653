(** Searching the same cases in another order. *)
From Verif Require Import Go GoLemmas F64 F64Order F64Round ModelFeature ModelSplit SplitSpec SplitProofs ModelSort SortProofs ModelSearch ModelTree SearchSpec SearchProofs
  CatSearchProofs BlindProofs OrderProofs OrderSearch OrderlessTargets.
From Coq Require Import SpecFloat.
Local Open Scope nat_scope.
Local Open Scope list_scope.

(** ** Two sorted arrangements *)
Lemma filter_all_false (q : nat -> bool) l : (forall c, In c l -> q c = false) -> filter q l = [].
Proof. induction l as [|a l IH]; intros H; cbn; [reflexivity|]. rewrite (H a) by (left; reflexivity). apply IH. intros c Hc. apply H. right. exact Hc. Qed.
Lemma filter_all_true (q : nat -> bool) l : (forall c, In c l -> q c = true) -> filter q l = l.
Proof. induction l as [|a l IH]; intros H; cbn; [reflexivity|]. rewrite (H a) by (left; reflexivity). f_equal. apply IH. intros c Hc. apply H. right. exact Hc. Qed.

Lemma nth_front i j (l : list nat) : j < i -> nth j (firstn i l) 0 = nth j l 0.
Proof. revert j l. induction i as [|i IH]; intros [|j] [|a l] H; cbn; try lia; auto. apply IH. lia. Qed.
Lemma nth_back i j (l : list nat) : nth j (skipn i l) 0 = nth (i + j) l 0.
Proof. revert l. induction i as [|i IH]; intros [|a l]; cbn; auto. destruct j; reflexivity. Qed.

Definition ascending (f : numF) (l : list nat) : Prop :=
  forall i j, i <= j -> j < length l -> fleb (nvalue f (nth i l 0)) (nvalue f (nth j l 0)) = true.

Lemma sorted_not_less f l l' i : Permutation l l' -> ascending f l -> ascending f l' -> i < length l ->
  fltb (nvalue f (nth i l 0)) (nvalue f (nth i l' 0)) = false.
Proof.
  intros P H H' Hi. pose proof (Permutation_length P) as PL.
  destruct (fltb (nvalue f (nth i l 0)) (nvalue f (nth i l' 0))) eqn:E; [exfalso|reflexivity].
  pose (q := fun c => fleb (nvalue f c) (nvalue f (nth i l 0))).
  pose proof (Permutation_length (Permutation_filter q P)) as C.
  rewrite <- (firstn_skipn (S i) l), filter_app, app_length in C.
  rewrite (filter_all_true q (firstn (S i) l)) in C.
  2:{ intros c Hc. apply (In_nth _ _ 0) in Hc as (j & Hj & <-). rewrite firstn_length in Hj. rewrite nth_front by lia. unfold q. apply H; lia. }
  rewrite <- (firstn_skipn i l'), filter_app, app_length in C.
  rewrite (filter_all_false q (skipn i l')) in C.
  2:{ intros c Hc. apply (In_nth _ _ 0) in Hc as (j & Hj & <-). rewrite skipn_length in Hj. rewrite nth_back. unfold q.
      pose proof (H' i (i + j) ltac:(lia) ltac:(lia)) as L. clear - L E. ford. }
  assert (Lf : length (filter q (firstn i l')) <= i).
  { etransitivity; [apply filter_length_le_nat|]. rewrite firstn_length. lia. }
  rewrite firstn_length in C. cbn [length] in C. lia.
Qed.

(** Equal numbers: the same float, or zeros of different sign. *)
Definition zerof (x : f64) : Prop := match x with S754_zero _ => True | _ => False end.
Definition eqz (x y : f64) : Prop := x = y \/ (zerof x /\ zerof y).
Lemma alike_eqz x y : nn x -> nn y -> fltb x y = false -> fltb y x = false -> eqz x y.
Proof.
  unfold fltb, SFltb. destruct x as [s|s| |s m e], y as [t|t| |t k d]; cbn; intros Nx Ny H1 H2; try discriminate; unfold eqz; cbn; auto;
    try (destruct s; discriminate); try (destruct t; discriminate).
  - destruct s, t; try discriminate; auto.
  - left. destruct s, t; try discriminate.
    + rewrite (Z.compare_antisym d e) in *. destruct (Z.compare_spec d e) as [->|L|L]; cbn in *; try discriminate.
      change (Pos.compare_cont Eq m k) with (Pos.compare m k) in *; change (Pos.compare_cont Eq k m) with (Pos.compare k m) in *; rewrite (Pos.compare_antisym k m) in *. destruct (Pos.compare_spec k m) as [->|L|L]; cbn in *; try discriminate. reflexivity.
    + rewrite (Z.compare_antisym d e) in *. destruct (Z.compare_spec d e) as [->|L|L]; cbn in *; try discriminate.
      change (Pos.compare_cont Eq m k) with (Pos.compare m k) in *; change (Pos.compare_cont Eq k m) with (Pos.compare k m) in *; rewrite (Pos.compare_antisym k m) in *. destruct (Pos.compare_spec k m) as [->|L|L]; cbn in *; try discriminate. reflexivity.
Qed.
Lemma near_alike x x' y y' : eqz x x' -> eqz y y' -> fleb y (fadd x f1e_7) = fleb y' (fadd x' f1e_7).
Proof.
  assert (G : forall x x', eqz x x' -> fadd x f1e_7 = fadd x' f1e_7).
  { intros u v [->|[H1 H2]]; [reflexivity|]. destruct u, v; try contradiction. reflexivity. }
  intros Hx [->|[H1 H2]]; rewrite (G _ _ Hx); [reflexivity|]. destruct y, y'; try contradiction. unfold fleb, SFleb. destruct (fadd x' f1e_7); reflexivity.
Qed.
Lemma middle_alike x x' y y' : nn y -> eqz x x' -> eqz y y' -> fltb x y = true -> fdiv (fadd x y) f2 = fdiv (fadd x' y') f2.
Proof.
  intros Ny [->|[H1 H2]] [->|[H3 H4]] L; try reflexivity; f_equal.
  - destruct x' as [s|s| |s m e], y as [t|t| |t k d], y' as [u|u| |u b c]; try contradiction; try discriminate; reflexivity.
  - destruct x as [s|s| |s m e], x' as [t|t| |t k d], y' as [u|u| |u b c]; try contradiction; try discriminate; reflexivity.
  - destruct x as [s|s| |s m e], y as [t|t| |t k d]; try contradiction; discriminate.
Qed.

Section Search.
  Variable A : arith.
  Variable St : Type.
  Variable T : target A St.
  Variable rnd : nat -> nat.
  Hypothesis Hord : ordered A.
  Hypothesis HT : orderless T.

  (** What is left behind by earlier searches may differ. *)
  Definition alsame (N : nat) (al al' : allocs St) : Prop :=
    N <= length (aVals al) /\ N <= length (aVals al') /\ N <= length (aCat al) /\ N <= length (aCat al') /\ aTgt al = aTgt al' /\ aDraw al = aDraw al'.
  (** Numbers, none of which shrinks when 1e-7 is added. *)
  Definition numbers (f : numF) (cs : list nat) : Prop :=
    Forall (fun c => c < length (nData f) /\ nn (nvalue f c)) cs /\ tolerance_up f cs.

  Section Scan.
    Variable f : numF.
    Variables cs cs' : list nat.
    Variables vs vs' : list f64.
    Variable parent : A.
    Hypothesis HP : Permutation cs cs'.
    Hypothesis Hn : numbers f cs.
    Hypothesis Hget : forall i, i < length cs -> get vs i = Ok (nvalue f (nth i cs 0)).
    Hypothesis Hget' : forall i, i < length cs -> get vs' i = Ok (nvalue f (nth i cs' 0)).
    Hypothesis Hs : ascending f cs.
    Hypothesis Hs' : ascending f cs'.

    Lemma nn_in c : In c cs -> nn (nvalue f c).
    Proof. intros H. destruct Hn as [H1 _]. rewrite Forall_forall in H1. apply H1. exact H. Qed.
    Lemma in_cs i : i < length cs -> In (nth i cs 0) cs.
    Proof. apply nth_In. Qed.
    Lemma in_cs' i : i < length cs -> In (nth i cs' 0) cs.
    Proof. intros H. eapply Permutation_in; [symmetry; exact HP|]. apply nth_In. rewrite <- (Permutation_length HP). exact H. Qed.
    Lemma vals_alike i : i < length cs -> eqz (nvalue f (nth i cs 0)) (nvalue f (nth i cs' 0)).
    Proof.
      intros H. apply alike_eqz.
      - apply nn_in, in_cs, H.
      - apply nn_in, in_cs', H.
      - apply sorted_not_less; auto.
      - apply sorted_not_less; auto; [symmetry; exact HP|rewrite <- (Permutation_length HP); exact H].
    Qed.

    (** At a gap between [q] and [i], the cases before it are the same in both. *)
    Lemma gap_same q i : q < i -> i < length cs -> (forall j, q <= j < i -> fleb (nvalue f (nth j cs 0)) (fadd (nvalue f (nth q cs 0)) f1e_7) = true) ->
      fleb (nvalue f (nth i cs 0)) (fadd (nvalue f (nth q cs 0)) f1e_7) = false ->
      Permutation (firstn i cs) (firstn i cs') /\ Permutation (skipn i cs) (skipn i cs').
    Proof.
      intros Hq Hi Hb Hg. pose proof (Permutation_length HP) as PL.
      assert (Nt : forall j, j < length cs -> nn (nvalue f (nth j cs 0))) by (intros j Hj; apply nn_in, in_cs, Hj).
      assert (L : forall j, j < i -> fltb (nvalue f (nth j cs 0)) (nvalue f (nth i cs 0)) = true).
      { intros j Hj. assert (B : fleb (nvalue f (nth j cs 0)) (fadd (nvalue f (nth q cs 0)) f1e_7) = true).
        { destruct (Nat.lt_ge_cases j q) as [Lq|Lq]; [|apply Hb; lia]. pose proof (Hs j q ltac:(lia) ltac:(lia)) as L1.
          pose proof (Hb q ltac:(lia)) as L2. clear - L1 L2. ford. }
        pose proof (Nt j ltac:(lia)) as N1. pose proof (Nt i ltac:(lia)) as N2. clear - B Hg N1 N2. ford. }
      pose (p := fun c => fltb (nvalue f c) (nvalue f (nth i cs 0))).
      destruct (split_at p cs cs i (Permutation_refl _) ltac:(lia)) as (A1 & A2 & _).
      { intros j Hj. apply L. exact Hj. }
      { intros j Hj. unfold p. pose proof (Hs i j ltac:(lia) ltac:(lia)) as L1. clear - L1. ford. }
      destruct (split_at p cs cs' i HP ltac:(lia)) as (B1 & B2 & _).
      { intros j Hj. unfold p. pose proof (L j Hj) as L1. pose proof (sorted_not_less f cs cs' j HP Hs Hs' ltac:(lia)) as X.
        pose proof (sorted_not_less f cs' cs j (Permutation_sym HP) Hs' Hs ltac:(lia)) as Y.
        pose proof (Nt j ltac:(lia)) as N1. pose proof (nn_in _ (in_cs' j ltac:(lia))) as N2. clear - L1 X Y N1 N2. ford. }
      { intros j Hj. unfold p. pose proof (Hs i j ltac:(lia) ltac:(lia)) as L1. pose proof (sorted_not_less f cs' cs j (Permutation_sym HP) Hs' Hs ltac:(lia)) as Y.
        pose proof (Nt j ltac:(lia)) as N1. pose proof (nn_in _ (in_cs' j ltac:(lia))) as N2. clear - L1 Y N1 N2. ford. }
      split; (etransitivity; [symmetry|]); eassumption.
    Qed.

    Definition ssame (i : nat) (s s' : nat * Z * A * f64 * St) : Prop :=
      s = s' /\ let '(ls, li, dec, x, tg) := s in
      ls <= i /\ Permutation (firstn ls cs) (firstn ls cs') /\
      exists q, li = Z.of_nat q /\ q < i /\ (forall j, q <= j < i -> fleb (nvalue f (nth j cs 0)) (fadd (nvalue f (nth q cs 0)) f1e_7) = true).

    Lemma num_step_same i s s' : i < length cs -> ssame i s s' ->
      follows (ssame (S i)) (num_step A St T cs vs parent i s) (num_step A St T cs' vs' parent i s').
    Proof.
      destruct s as [[[[ls li] dec] x] tg]. intros Hi (<- & Hls & Pls & q & -> & Hq & Hb). pose proof (Permutation_length HP) as PL.
      unfold num_step. rewrite (Hget i Hi), (Hget' i Hi). cbn [bind]. rewrite !getZ_of_nat, (Hget q ltac:(lia)), (Hget' q ltac:(lia)). cbn [bind].
      pose proof (vals_alike i Hi) as Vi. pose proof (vals_alike q ltac:(lia)) as Vq. rewrite <- (near_alike _ _ _ _ Vq Vi).
      destruct (fleb (nvalue f (nth i cs 0)) (fadd (nvalue f (nth q cs 0)) f1e_7)) eqn:Eg.
      { apply follows_ok. split; [reflexivity|]. split; [lia|]. split; [exact Pls|]. exists q. split; [reflexivity|]. split; [lia|].
        intros j Hj. destruct (Nat.eq_dec j i) as [->|]; [exact Eg|apply Hb; lia]. }
      destruct (gap_same q i Hq Hi Hb Eg) as [P1 P2].
      rewrite !slice_ok by lia. cbn [bind]. rewrite Nat.sub_0_r. cbn [skipn].
      rewrite !(firstn_all2 (skipn i _)) by (rewrite skipn_length; lia).
      apply (follows_bind eq).
      { destruct (ls =? 0).
        - intros r E. exists r. split; [|reflexivity]. exact (ol_split T HT _ _ _ _ None None _ _ P1 P2 I E).
        - cbn [bind]. intros r E. exists r. split; [|reflexivity].
          refine (ol_update T HT _ _ _ _ None None _ _ _ _ P1 P2 I _ E).
          assert (C : forall l : list nat, i <= length l -> firstn i l = firstn ls l ++ firstn (i - ls) (skipn ls l)).
          { intros l Hl. replace (firstn ls l) with (firstn ls (firstn i l)) by (rewrite firstn_firstn, Nat.min_l by lia; reflexivity).
            rewrite firstn_skipn_comm. replace (ls + (i - ls)) with i by lia. symmetry. apply firstn_skipn. }
          rewrite !C in P1 by lia. eapply Permutation_app_inv_l. etransitivity; [exact P1|]. apply Permutation_app_tail. symmetry. exact Pls. }
      intros [imp tg1] ? <-. cbn zeta.
      rewrite <- (middle_alike (nvalue f (nth q cs 0)) (nvalue f (nth q cs' 0)) (nvalue f (nth i cs 0)) (nvalue f (nth i cs' 0))); auto.
      2:{ apply nn_in, in_cs, Hi. }
      2:{ pose proof (Hb q ltac:(lia)) as B. pose proof (nn_in _ (in_cs i Hi)) as N1. pose proof (nn_in _ (in_cs q ltac:(lia))) as N2. clear - B Eg N1 N2. ford. }
      assert (Hq2 : exists q0, Z.of_nat i = Z.of_nat q0 /\ q0 < S i /\ (forall j, q0 <= j < S i -> fleb (nvalue f (nth j cs 0)) (fadd (nvalue f (nth q0 cs 0)) f1e_7) = true)).
      { exists i. split; [reflexivity|]. split; [lia|]. intros j Hj. replace j with i by lia. apply (proj2 Hn). apply in_cs. exact Hi. }
      destruct (nltb A dec (decrease A parent imp)); apply follows_ok; (split; [reflexivity|]); (split; [lia|]); (split; [exact P1|exact Hq2]).
    Qed.
    Lemma num_scan_same lo n : forall k s s', lo + k + n <= length cs -> ssame (lo + k) s s' ->
      follows (ssame (lo + k + n)) (for_up n (lo + k) (num_step A St T cs vs parent) s) (for_up n (lo + k) (num_step A St T cs' vs' parent) s').
    Proof.
      induction n as [|n IH]; intros k s s' Hl Hr; cbn [for_up].
      - rewrite Nat.add_0_r. apply follows_ok. exact Hr.
      - apply (follows_bind (ssame (S (lo + k)))); [apply num_step_same; [lia|exact Hr]|]. intros s1 s1' H1.
        replace (S (lo + k)) with (lo + S k) in * by lia. replace (lo + k + S n) with (lo + S k + n) by lia. apply IH; [lia|exact H1].
    Qed.
  End Scan.

  Definition fsame (N : nat) (cs : list nat) (fits : coded -> Prop) (r r' : found A St) : Prop :=
    fDec r = fDec r' /\ fConst r = fConst r' /\ fCode r = fCode r' /\ Permutation cs (fCases r) /\ Permutation cs (fCases r') /\ alsame N (fAl r) (fAl r') /\
    (nltb A (minImp A) (fDec r) = true -> fits (fCode r)).

  Lemma num_same N f cs cs' parent leaf rs al al' : 1 <= leaf -> length cs <= N -> Permutation cs cs' -> numbers f cs -> alsame N al al' ->
    follows (fsame N cs (code_fits (FNum f))) (BestNumSplit A St T rnd f cs parent leaf rs al) (BestNumSplit A St T rnd f cs' parent leaf rs al').
  Proof.
    intros Hl HN HP Hn (L1 & L2 & L3 & L4 & Et & Ed). unfold BestNumSplit. rewrite <- (Permutation_length HP).
    assert (Irr : nltb A (minImp A) (minImp A) = false) by apply (proj1 Hord).
    destruct (2 * leaf <=? length cs) eqn:El.
    2:{ apply follows_ok. unfold fsame, alsame. cbn. repeat split; auto. }
    apply Nat.leb_le in El. pose proof Hn as [F1 T1].
    assert (F1' : Forall (fun c => c < length (nData f) /\ nn (nvalue f c)) cs') by (eapply Permutation_Forall; eauto).
    pose proof (Permutation_length HP) as PL.
    destruct (load_sort f cs (aVals al) F1 ltac:(lia)) as (c1 & vs & E & P & L & Hget & Hs).
    destruct (load_sort f cs' (aVals al') F1' ltac:(lia)) as (c1' & vs' & E' & P' & L' & Hget' & Hs').
    apply bind_ok in E as (w & -> & E). apply bind_ok in E' as (w' & -> & E'). cbn [bind]. rewrite E, E'. cbn [bind aTgt aDraw aCat aVals].
    pose proof (Permutation_length P) as PL1. pose proof (Permutation_length P') as PL1'.
    assert (P1 : Permutation c1 c1') by (etransitivity; [symmetry; exact P|]; etransitivity; [exact HP|exact P']).
    assert (Hn1 : numbers f c1).
    { split; [eapply Permutation_Forall; eauto|]. intros c Hc. apply T1. eapply Permutation_in; [symmetry; exact P|exact Hc]. }
    assert (G : forall i, i < length c1 -> get vs' i = Ok (nvalue f (nth i c1' 0))) by (intros; apply Hget'; lia).
    rewrite (Hget 0), (G 0) by lia. cbn [bind].
    replace (Z.of_nat (length cs) - 1)%Z with (Z.of_nat (length cs - 1)) by lia.
    rewrite !getZ_of_nat, Hget, G by lia. cbn [bind].
    rewrite <- (near_alike (nvalue f (nth 0 c1 0)) (nvalue f (nth 0 c1' 0)) (nvalue f (nth (length cs - 1) c1 0)) (nvalue f (nth (length cs - 1) c1' 0)))
      by (eapply vals_alike; eauto; lia).
    assert (Q : Permutation cs c1') by (etransitivity; [exact HP|exact P']).
    destruct (fleb (nvalue f (nth (length cs - 1) c1 0)) _).
    { apply follows_ok. unfold fsame, alsame. cbn. repeat split; auto; try lia. congruence. }
    rewrite <- Ed.
    destruct (if rs && (leaf <? length cs - leaf)
       then let* k := (if length cs - leaf - leaf =? 0 then Panic else Ok (rnd (aDraw al) mod (length cs - leaf - leaf))) in
            Ok (leaf + k, leaf + k + 1, S (aDraw al))
       else Ok (leaf, length cs - leaf, aDraw al)) as [[[lo stop] d]| |] eqn:Er; [|apply follows_panic|intros ? X; discriminate X].
    assert (B : 1 <= lo /\ stop <= length cs).
    { destruct (rs && (leaf <? length cs - leaf)).
      - destruct (Nat.eqb_spec (length cs - leaf - leaf) 0); [discriminate|]. cbn [bind] in Er. injection Er as <- <- <-.
        pose proof (Nat.mod_upper_bound (rnd (aDraw al)) (length cs - leaf - leaf) ltac:(lia)). lia.
      - injection Er as <- <- <-. lia. }
    cbn [bind]. rewrite <- Et.
    destruct (Nat.le_gt_cases stop lo) as [Hz|Hz].
    { replace (stop - lo) with 0 by lia. cbn [for_up bind]. apply follows_ok. unfold fsame, alsame. cbn. repeat split; auto; lia. }
    pose proof (num_scan_same f c1 c1' vs vs' parent P1 Hn1 Hget G Hs Hs' lo (stop - lo) 0
      (0, (Z.of_nat lo - 1)%Z, minImp A, f0, aTgt al) (0, (Z.of_nat lo - 1)%Z, minImp A, f0, aTgt al)) as Sc.
    rewrite Nat.add_0_r in Sc.
    apply (follows_bind (ssame f c1 c1' (lo + (stop - lo)))).
    { apply Sc; [lia|]. split; [reflexivity|]. split; [lia|]. split; [apply Permutation_refl|]. exists (lo - 1). split; [lia|]. split; [lia|].
      intros j Hj. replace j with (lo - 1) by lia. apply (proj2 Hn1). apply nth_In. lia. }
    intros [[[[ls li] dec] x] tg] ? (<- & _). apply follows_ok. unfold fsame, alsame. cbn. repeat split; auto; lia.
  Qed.

  (** ** Categorical columns *)
  Lemma split_same l l' r r' tg : Permutation l l' -> Permutation r r' -> follows eq (tSplit T l r None tg) (tSplit T l' r' None tg).
  Proof. intros P1 P2 x E. exists x. split; [|reflexivity]. exact (ol_split T HT _ _ _ _ None None _ _ P1 P2 I E). Qed.
  Lemma follows_for_up_in {B B'} (P : B -> B' -> Prop) body body' n : forall lo s s',
    P s s' -> (forall i s s', lo <= i < lo + n -> P s s' -> follows P (body i s) (body' i s')) -> follows P (for_up n lo body s) (for_up n lo body' s').
  Proof.
    induction n as [|n IH]; intros lo s s' Hs H; cbn [for_up]; [apply follows_ok; exact Hs|].
    apply (follows_bind P); [apply H; [lia|exact Hs]|]. intros. apply IH; auto. intros. apply H; [lia|auto].
  Qed.

  Section Cat.
    Variable f : catF.
    Variables cs cs' : list nat.
    Hypothesis HP : Permutation cs cs'.
    Hypothesis Hd : Forall (fun c => c < length (cData f)) cs.
    Lemma Hd' : Forall (fun c => c < length (cData f)) cs'.
    Proof. eapply Permutation_Forall; eauto. Qed.
    Lemma sides_same g : Permutation (side g cs) (side g cs') /\ Permutation (other g cs) (other g cs').
    Proof. split; apply Permutation_filter; exact HP. Qed.

    Lemma iter_same bit setb nc parent leaf tg :
      follows eq (iter_search A St T bit setb nc (cData f) cs parent leaf tg) (iter_search A St T bit setb nc (cData f) cs' parent leaf tg).
    Proof.
      unfold iter_search. apply (follows_loop eq eq); [reflexivity|]. intros [[[best dec] t] j] ? <-.
      destruct (j <? nc); [|apply follows_ok; reflexivity].
      apply (follows_bind eq).
      - apply (follows_for_up eq); [reflexivity|]. intros i [[b d] t1] ? <-. unfold iter_step. destruct (bit best i); [apply follows_ok; reflexivity|]. cbn zeta.
        rewrite (by_bit_ok f cs Hd), (by_bit_ok f cs' Hd'). cbn [bind]. destruct (sides_same (among f (bit (setb best i)))) as [P1 P2].
        rewrite <- (Permutation_length P1), <- (Permutation_length P2). destruct ((_ <? leaf) || (_ <? leaf)); [apply follows_ok; reflexivity|].
        apply (follows_bind eq); [apply split_same; assumption|]. intros [imp t2] ? <-. apply follows_ok. reflexivity.
      - intros [[b d] t1] ? <-. destruct (nltb A dec d); apply follows_ok; cbn; reflexivity.
    Qed.

    Definition csame (N N' : nat) (s s' : list nat * list Z * Z * A * bool * St * nat) : Prop :=
      let '(c, k, best, dec, const, tg, d) := s in let '(c', k', best', dec', const', tg', d') := s' in
      Permutation cs c /\ synced f N c k /\ Permutation cs c' /\ synced f N' c' k' /\ best = best' /\ dec = dec' /\ const = const' /\ tg = tg' /\ d = d'.
    Lemma cat_step_same N N' (exh : bool) parent leaf i s s' : (Z.of_nat i < 2 ^ 63)%Z -> csame N N' s s' ->
      follows (csame N N') (cat_step A St T rnd exh parent leaf i s) (cat_step A St T rnd exh parent leaf i s').
    Proof.
      destruct s as [[[[[[c k] best] dec] const] tg] d], s' as [[[[[[c' k'] best'] dec'] const'] tg'] d'].
      intros Hi (P1 & S1 & P1' & S1' & <- & <- & <- & <- & <-). unfold cat_step.
      destruct (if exh then (Z.of_nat i, d) else ((Z.of_nat (rnd d) mod 2 ^ 63)%Z, S d)) as [bits d1] eqn:Eb.
      assert (Hb : (0 <= bits < 2 ^ 63)%Z).
      { destruct exh; injection Eb as <- <-; [lia|]. apply Z.mod_pos_bound. lia. }
      destruct (cat_part_ok f cs N bits c k Hb P1 S1) as (c2 & k2 & l & -> & Q1 & Q2 & Q3 & Q4 & Q5). cbn [bind].
      destruct (cat_part_ok f cs N' bits c' k' Hb P1' S1') as (c2' & k2' & l' & -> & Q1' & Q2' & Q3' & Q4' & Q5'). cbn [bind].
      destruct (split_at (fun x => intbit bits (catv f x)) cs c2 l Q1 Q3 Q4 Q5) as (R1 & R2 & R3 & R4).
      destruct (split_at (fun x => intbit bits (catv f x)) cs c2' l' Q1' Q3' Q4' Q5') as (R1' & R2' & R3' & R4').
      pose proof (Permutation_length Q1) as LL. pose proof (Permutation_length Q1') as LL'. assert (Ell : l' = l) by congruence. clear R3 R3'. subst l'. rewrite <- LL, <- LL'.
      destruct ((l <? leaf) || (length cs - l <? leaf)); [apply follows_ok; repeat (split; auto); apply Q2 || apply Q2'|].
      rewrite !slice_ok by lia. cbn [bind]. rewrite Nat.sub_0_r. cbn [skipn].
      rewrite !(firstn_all2 (skipn l _)) by (rewrite skipn_length; lia).
      apply (follows_bind eq); [apply split_same; (etransitivity; [symmetry|]; eassumption)|]. intros [imp tg1] ? <-. cbn zeta.
      destruct (nltb A dec (decrease A parent imp)); apply follows_ok; repeat (split; auto); apply Q2 || apply Q2'.
    Qed.

    Lemma BestCat_same N parent leaf al al' : length cs <= N -> alsame N al al' ->
      follows (fsame N cs (code_fits (FCat f))) (BestCatSplit A St T rnd f cs parent maxNonRandomExahustive leaf al)
        (BestCatSplit A St T rnd f cs' parent maxNonRandomExahustive leaf al').
    Proof.
      intros HN (L1 & L2 & L3 & L4 & Et & Ed). pose proof (Permutation_length HP) as PL. unfold BestCatSplit.
      destruct (load_cats_ok f cs Hd (length (aCat al)) (aCat al) ltac:(lia) eq_refl) as (k & -> & S1).
      destruct (load_cats_ok f cs' Hd' (length (aCat al')) (aCat al') ltac:(lia) eq_refl) as (k' & -> & S1'). cbn [bind]. rewrite <- Et, <- Ed.
      apply (follows_bind (csame (length (aCat al)) (length (aCat al')))).
      - apply follows_for_up_in; [unfold csame; repeat (split; auto); apply S1 || apply S1'|]. intros i s s' Hi Hs. apply cat_step_same; [|exact Hs].
        assert (B : nparts (if NCats (cMap f) <=? maxNonRandomExahustive then NCats (cMap f) else maxNonRandomExahustive) <= 512).
        { unfold nparts, maxNonRandomExahustive. destruct (Nat.leb_spec (NCats (cMap f)) 10); [|cbn; lia].
          destruct (_ <? 2); [lia|]. change 512 with (2 ^ 9). apply Nat.pow_le_mono_r; lia. }
        assert (i < 1000) by lia. change (2 ^ 63)%Z with 9223372036854775808%Z. lia.
      - intros [[[[[[c k1] best] dec] const] tg] d] [[[[[[c' k1'] best'] dec'] const'] tg'] d'] (P1 & [[N1 _] _] & P1' & [[N1' _] _] & <- & <- & <- & <- & <-).
        apply follows_ok. unfold fsame, alsame. cbn. repeat (split; auto); lia.
    Qed.

    Lemma cat_same N parent leaf al al' : length cs <= N -> alsame N al al' ->
      let search cs p al :=
        if negb (cRandom f) && (maxNonBigCats <? NCats (cMap f)) then BestCatSplitIterBig A St T f cs p leaf al
        else if negb (cRandom f) && (maxExhaustiveCats <? NCats (cMap f)) then BestCatSplitIter A St T f cs p leaf al
        else if maxNonBigCats <? NCats (cMap f) then BestCatSplitBig A St T rnd f cs p maxNonRandomExahustive leaf al
        else if NCats (cMap f) =? 2 then BestBinSplit A St T f cs p leaf al
        else BestCatSplit A St T rnd f cs p maxNonRandomExahustive leaf al in
      follows (fsame N cs (code_fits (FCat f))) (search cs parent al) (search cs' parent al').
    Proof.
      intros HN Ha. pose proof Ha as (L1 & L2 & L3 & L4 & Et & Ed). cbn zeta.
      destruct (negb (cRandom f) && (maxNonBigCats <? NCats (cMap f))).
      { unfold BestCatSplitIterBig. rewrite <- Et. apply (follows_bind eq); [apply iter_same|]. intros [[b dec] tg] ? <-. apply follows_ok. unfold fsame, alsame. cbn. repeat split; auto. }
      destruct (negb (cRandom f) && (maxExhaustiveCats <? NCats (cMap f))).
      { unfold BestCatSplitIter. rewrite <- Et. apply (follows_bind eq); [apply iter_same|]. intros [[b dec] tg] ? <-. apply follows_ok. unfold fsame, alsame. cbn. repeat split; auto. }
      destruct (maxNonBigCats <? NCats (cMap f)).
      { unfold BestCatSplitBig. rewrite <- Et, <- Ed. apply (follows_bind eq).
        - apply (follows_for_up eq); [reflexivity|]. intros i [[[b dec] tg] d] ? <-.
          destruct (if _ <=? _ then (Z.of_nat i, d) else _) as [bits d1]. rewrite (by_bit_ok f cs Hd), (by_bit_ok f cs' Hd'). cbn [bind].
          destruct (sides_same (among f (bigbit bits))) as [P1 P2]. rewrite <- (Permutation_length P1), <- (Permutation_length P2).
          destruct ((_ <? leaf) || (_ <? leaf)); [apply follows_ok; reflexivity|].
          apply (follows_bind eq); [apply split_same; assumption|]. intros [imp t2] ? <-. apply follows_ok. reflexivity.
        - intros [[[b dec] tg] d] ? <-. apply follows_ok. unfold fsame, alsame. cbn. repeat split; auto. }
      destruct (NCats (cMap f) =? 2); [|apply BestCat_same; assumption].
      unfold BestBinSplit. rewrite <- Et.
      destruct (bin_part_ok f cs Hd) as (c & l & -> & Q1 & Q3 & Q4 & Q5). destruct (bin_part_ok f cs' Hd') as (c' & l' & -> & Q1' & Q3' & Q4' & Q5'). cbn [bind].
      destruct (split_at (fun x => catv f x =? 1) cs c l Q1 Q3 Q4 Q5) as (R1 & R2 & R3 & R4).
      destruct (split_at (fun x => catv f x =? 1) cs' c' l' Q1' Q3' Q4' Q5') as (R1' & R2' & R3' & R4').
      destruct (sides_same (fun x => catv f x =? 1)) as [P1 P2]. pose proof (Permutation_length P1) as LS.
      pose proof (Permutation_length Q1) as LL. pose proof (Permutation_length Q1') as LL'. pose proof (Permutation_length HP) as PL.
      assert (Ell : l' = l) by congruence. clear R3 R3'. subst l'. rewrite <- LL, <- LL'. replace (length cs') with (length cs) by exact PL. assert (Pc' : Permutation cs c') by (exact (Permutation_trans HP Q1')).
      destruct ((l <? leaf) || (length cs - l <? leaf)); [apply follows_ok; unfold fsame, alsame; cbn; repeat (split; auto)|].
      rewrite !slice_ok by lia. cbn [bind]. rewrite Nat.sub_0_r. cbn [skipn].
      rewrite !(firstn_all2 (skipn l _)) by (rewrite skipn_length; lia).
      apply (follows_bind eq).
      { apply split_same; [exact (Permutation_trans (Permutation_sym R1) (Permutation_trans P1 R1'))|exact (Permutation_trans (Permutation_sym R2) (Permutation_trans P2 R2'))]. }
      intros [imp tg] ? <-. apply follows_ok. unfold fsame, alsame. cbn. repeat (split; auto).
    Qed.
  End Cat.

  (** ** Missing values *)
  Hypothesis Hmin : nltb A (minImp A) (nofZ A 0) = false.
  Lemma aside_ok missing cases : Forall (fun c => c < length missing) cases ->
    aside missing cases = Ok (filter (fun c => nth c missing false) cases, filter (fun c => negb (nth c missing false)) cases).
  Proof.
    unfold aside. assert (G : forall l a b, Forall (fun c => c < length missing) l -> foreach l (fun i '((ms, nms) : list nat * list nat) =>
      let* m := get missing i in Ok (if m then (ms ++ [i], nms) else (ms, nms ++ [i]))) (a, b) =
      Ok (a ++ filter (fun c => nth c missing false) l, b ++ filter (fun c => negb (nth c missing false)) l)).
    { induction l as [|c l IH]; intros a b F; cbn [foreach filter]; [rewrite !app_nil_r; reflexivity|]. inversion F as [|? ? F1 F2]; subst.
      rewrite (get_lt missing c false F1). cbn [bind]. destruct (nth c missing false); cbn [negb]; rewrite IH by assumption; rewrite <- app_assoc; reflexivity. }
    apply G.
  Qed.
  Lemma missing_same N (has : bool) (missing : list bool) (search : list nat -> A -> allocs St -> res (found A St)) cs cs' parent al al' (fits : coded -> Prop) :
    alsame N al al' -> Permutation cs cs' -> Forall (fun c => c < length missing) cs ->
    (forall l l' p al al', Permutation l l' -> (if has then l = filter (fun c => negb (nth c missing false)) cs else l = cs) -> alsame N al al' ->
      follows (fsame N l fits) (search l p al) (search l' p al')) ->
    follows (fsame N cs fits) (with_missing A St T has missing search cs parent al) (with_missing A St T has missing search cs' parent al').
  Proof.
    intros Ha HP Hm Hs. unfold with_missing. destruct has.
    2:{ apply Hs; auto. }
    fold (aside missing cs). fold (aside missing cs'). rewrite (aside_ok missing cs Hm). rewrite (aside_ok missing cs') by (eapply Permutation_Forall; eauto). cbn [bind].
    set (ms := filter (fun c => nth c missing false) cs). set (ms' := filter (fun c => nth c missing false) cs').
    set (nms := filter (fun c => negb (nth c missing false)) cs). set (nms' := filter (fun c => negb (nth c missing false)) cs').
    assert (P1 : Permutation ms ms') by (apply Permutation_filter; exact HP). assert (P2 : Permutation nms nms') by (apply Permutation_filter; exact HP).
    rewrite <- (Permutation_length P1), <- (Permutation_length P2), <- (Permutation_length HP).
    pose proof Ha as (L1 & L2 & L3 & L4 & Et & Ed).
    destruct (length nms =? 0).
    { apply follows_ok. unfold fsame. cbn. repeat (split; auto); congruence. }
    rewrite <- Et, <- Ed.
    apply (follows_bind eq). { intros x E. exists x. split; [|reflexivity]. exact (ol_imp T HT _ _ _ _ P2 E). }
    intros [pimp tg] ? <-.
    apply (follows_bind eq). { destruct (0 <? length ms); [|apply follows_refl]. intros x E. exists x. split; [|reflexivity]. exact (ol_imp T HT _ _ _ _ P1 E). }
    intros [mimp tg1] ? <-.
    eapply follows_bind; [apply (Hs nms nms'); [exact P2|reflexivity|unfold alsame; cbn; auto 10]|]. intros s s' (F1 & F2 & F3 & F4 & F5 & F6 & F7). rewrite <- F1, <- F2, <- F3.
    apply follows_ok. unfold fsame. cbn. repeat (split; auto); try apply F6. intros Hlt. apply F7.
    destruct (nltb A (minImp A) (fDec s)) eqn:Eq; [reflexivity|]. rewrite andb_false_r, Eq in Hlt. discriminate Hlt.
  Qed.

  (** ** Columns *)
  Definition column_ok (cs : list nat) (f : feature) : Prop :=
    Forall (has_case f) cs /\ match f with FNum f => numbers f (filter (known f) cs) | FCat _ => True end.
  Lemma column_incl l cs f : incl l cs -> column_ok cs f -> column_ok l f.
  Proof.
    intros Hi [H1 H2]. split; [rewrite Forall_forall in *; intros c Hc; apply H1, Hi, Hc|]. destruct f as [f|f]; [|exact I].
    assert (Hf : incl (filter (known f) l) (filter (known f) cs)) by (intros c Hc; apply filter_In in Hc as [X1 X2]; apply filter_In; auto).
    destruct H2 as [H2 H3]. split; [rewrite Forall_forall in *; intros c Hc; apply H2, Hf, Hc|]. intros c Hc. apply H3, Hf, Hc.
  Qed.
  Lemma BestSplit_same N f cs cs' parent leaf rs al al' : 1 <= leaf -> length cs <= N -> Permutation cs cs' -> column_ok cs f -> alsame N al al' ->
    follows (fsame N cs (code_fits f)) (BestSplit A St T rnd f cs parent leaf rs al) (BestSplit A St T rnd f cs' parent leaf rs al').
  Proof.
    intros Hl HN HP [Hc Hn] Ha. rewrite Forall_forall in Hc.
    assert (LF : forall q, length (filter q cs) <= N) by (intros q; etransitivity; [apply filter_length_le_nat|exact HN]).
    destruct f as [f|f]; cbn [BestSplit].
    - unfold nBestSplit. apply missing_same; auto; [rewrite Forall_forall; intros c H; apply (Hc c H)|].
      intros l l' p a a' Pl El Haa.
      assert (El2 : l = filter (known f) cs).
      { unfold known. destruct (nHas f); cbn [andb]; [exact El|]. rewrite El. symmetry. apply filter_all_true. reflexivity. }
      rewrite El2 in *. apply num_same; auto.
    - unfold cBestSplit. apply missing_same; auto; [rewrite Forall_forall; intros c H; apply (Hc c H)|].
      intros l l' p a a' Pl El Haa. apply cat_same; auto.
      + rewrite Forall_forall. intros c H. apply (Hc c). destruct (cHas f); subst l; [apply filter_In in H; apply H|exact H].
      + destruct (cHas f); subst l; auto.
  Qed.
End Search.
