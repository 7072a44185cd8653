(** C31-C33 and C77: the searches over subsets of categories. *)
From Verif Require Import Go GoLemmas F64 F64Order ModelFeature ModelSplit SplitSpec SplitProofs
  ModelSearch SearchSpec SearchProofs CatSearchProofs ModelTargets TargetProofs ModelImpurity.
Local Open Scope nat_scope.
Local Open Scope list_scope.

Lemma side_ext g h cases : (forall c, In c cases -> g c = h c) ->
  side g cases = side h cases /\ other g cases = other h cases.
Proof.
  intros H. unfold side, other. split; apply filter_ext_in; auto.
  intros c Hc. rewrite H; auto.
Qed.
Lemma side_negb g cases : side (fun c => negb (g c)) cases = other g cases /\
  other (fun c => negb (g c)) cases = side g cases.
Proof.
  unfold side, other. split; auto. apply filter_ext. intros. apply negb_involutive.
Qed.

(** Every admissible set of categories, or its complement, is among the codes
    1 .. 2^(k-1)-1 looked at. *)
Lemma exhaustive_covers f cases leaf s k rnd d : 1 <= leaf -> k <= 62 ->
  Forall (fun c => catv f c < k) cases ->
  admissible leaf (among f s) cases ->
  exists b, In b (cat_seen rnd true (nparts k) d) /\
    let P := among f (code_set (CInt b)) in
    (side P cases = side (among f s) cases /\ other P cases = other (among f s) cases) \/
    (side P cases = other (among f s) cases /\ other P cases = side (among f s) cases).
Proof.
  intros Hl Hk Hc Ad.
  assert (Hne : exists c, In c cases).
  { destruct cases as [|c l]; [|exists c; cbn; auto]. destruct Ad as [A _]. cbn in A. lia. }
  destruct Hne as (c0 & Hc0). rewrite Forall_forall in Hc. pose proof (Hc c0 Hc0) as Hk0.
  (* the version of s that does not contain the last category *)
  set (t := fun i => xorb (s (k - 1)) (s i)).
  set (b := enc t (k - 1)).
  assert (Bit : forall c, In c cases -> among f (code_set (CInt b)) c = t (catv f c)).
  { intros c Hi. specialize (Hc c Hi). unfold among. cbn [code_set]. fold (catv f c).
    replace (catv f c <? 64) with true by (symmetry; apply Nat.ltb_lt; lia). cbn [andb].
    destruct (Nat.eq_dec (catv f c) (k - 1)) as [->|N].
    - unfold t. rewrite xorb_nilpotent. unfold b. pose proof (enc_bound t (k - 1)) as B.
      destruct (Z.eq_dec (enc t (k - 1)) 0) as [->|]; [apply Z.bits_0|].
      apply Z.bits_above_log2; [lia|]. apply Z.log2_lt_pow2; lia.
    - apply enc_bit. lia. }
  assert (Case : let P := among f (code_set (CInt b)) in
    (side P cases = side (among f s) cases /\ other P cases = other (among f s) cases) \/
    (side P cases = other (among f s) cases /\ other P cases = side (among f s) cases)).
  { cbv zeta. destruct (s (k - 1)) eqn:E.
    - right. destruct (side_ext (among f (code_set (CInt b))) (fun c => negb (among f s c)) cases) as [E1 E2].
      { intros c Hi. rewrite Bit by auto. unfold t. reflexivity. }
      rewrite E1, E2. apply side_negb.
    - left. apply side_ext. intros c Hi. rewrite Bit by auto. unfold t. rewrite xorb_false_l. reflexivity. }
  exists b. split; auto.
  assert (Hb : (1 <= b < 2 ^ Z.of_nat (k - 1))%Z).
  { pose proof (enc_bound t (k - 1)) as B. fold b in B.
    destruct (Z.eq_dec b 0) as [E0|]; [|lia]. exfalso.
    assert (Es : side (among f (code_set (CInt b))) cases = []).
    { unfold side. apply filter_false. apply Forall_forall. intros c Hi.
      rewrite E0. unfold among. cbn [code_set]. rewrite Z.bits_0. apply andb_false_r. }
    destruct Ad as [A1 A2]. cbv zeta in Case. rewrite Es in Case.
    destruct Case as [[C _]|[C _]]; rewrite <- C in *; cbn in *; lia. }
  assert (Hk2 : 2 <= k).
  { destruct (le_lt_dec 2 k); auto. assert (k - 1 = 0) by lia. rewrite H in Hb. cbn in Hb. lia. }
  unfold cat_seen. apply in_map_iff. exists (Z.to_nat b). split; [lia|]. apply in_seq.
  unfold nparts. replace (k <? 2) with false by (symmetry; apply Nat.ltb_ge; lia).
  assert (Z.to_nat b < 2 ^ (k - 1)).
  { apply Nat2Z.inj_lt. rewrite Nat2Z.inj_pow, Z2Nat.id by lia. cbn. lia. }
  lia.
Qed.

Lemma worth_swap A cost parent g h cases : symmetric cost ->
  side g cases = other h cases -> other g cases = side h cases ->
  worth A parent cost g cases = worth A parent cost h cases.
Proof. intros H E1 E2. unfold worth, gain. rewrite E1, E2, (H (other h cases)). reflexivity. Qed.

(** C31: the exhaustive search is optimal among ALL sets of categories that leave
    at least [leaf] cases on both sides, the reported decrease is that of the
    returned set, and "constant" means there is no such set. *)
Theorem C31_exhaustive_categories_optimal :
  forall (A : arith) (St : Type) (T : target A St) ok imp cost ready holds,
  honest T ok imp cost ready holds -> ordered A -> symmetric cost ->
  forall rnd f cases parent maxEx leaf al,
  NCats (cMap f) <= maxEx -> maxEx <= 62 -> 1 <= leaf ->
  Forall ok cases -> ready (aTgt al) -> length cases <= length (aCat al) ->
  Forall (fun c => c < length (cData f) /\ nth c (cData f) 0 < NCats (cMap f)) cases ->
  exists r, BestCatSplit A St T rnd f cases parent maxEx leaf al = Ok r /\
    Permutation cases (fCases r) /\ keeps ready al (fAl r) /\
    (forall s, admissible leaf (among f s) cases ->
       nltb A (fDec r) (worth A parent cost (among f s) cases) = false) /\
    (nltb A (least A) (fDec r) = true ->
       admissible leaf (among f (code_set (fCode r))) cases /\
       fDec r = worth A parent cost (among f (code_set (fCode r))) cases) /\
    (nltb A (least A) (fDec r) = false -> fDec r = least A) /\
    (fConst r = true <-> forall s, ~ admissible leaf (among f s) cases).
Proof.
  intros A St T ok imp cost ready holds Hon Hord Hsym rnd f cases parent maxEx leaf al Hk Hm Hleaf Hok Hr Hl Hd.
  assert (Hd1 : Forall (fun c => c < length (cData f)) cases) by (eapply Forall_impl; [|exact Hd]; cbn; tauto).
  assert (Hd2 : Forall (fun c => catv f c < NCats (cMap f)) cases) by (eapply Forall_impl; [|exact Hd]; cbn; tauto).
  destruct (BestCatSplit_ok A St T ok imp cost ready holds Hon Hord rnd f cases Hd1 Hok parent leaf
    (length (aCat al)) maxEx al Hm Hr Hl eq_refl) as (r & E & (P & Rd & best & Ec & (Tb & Tl & Tall) & Cn) & Ev & El).
  replace (NCats (cMap f) <=? maxEx) with true in * by (symmetry; apply Nat.leb_le; auto).
  exists r. split; auto. split; auto.
  split; [split; [congruence|split; auto]|]. split; [|split; [|split]].
  - intros s Ad. destruct (exhaustive_covers f cases leaf s (NCats (cMap f)) rnd (aDraw al)) as (b & Hin & Hb); auto; [lia|].
    cbv zeta in Hb.
    assert (Ab : admissible leaf (among f (code_set (CInt b))) cases).
    { unfold admissible. destruct Hb as [[E1 E2]|[E1 E2]]; rewrite E1, E2; destruct Ad; auto. }
    specialize (Tall b Hin Ab).
    replace (worth A parent cost (among f s) cases) with (worth A parent cost (among f (code_set (CInt b))) cases); auto.
    destruct Hb as [[E1 E2]|[E1 E2]].
    + unfold worth. rewrite E1, E2. reflexivity.
    + apply worth_swap; auto.
  - rewrite Ec. destruct Tb as [[_ ->]|(_ & Ad & Ed & _)]; auto.
    intros H. rewrite (proj1 Hord) in H. discriminate.
  - intros H. destruct Tb as [[_ ->]|(_ & _ & _ & L)]; auto. congruence.
  - rewrite Cn. split.
    + intros Hn s Ad. destruct (exhaustive_covers f cases leaf s (NCats (cMap f)) rnd (aDraw al)) as (b & Hin & Hb); auto; [lia|].
      apply (Hn b Hin). unfold admissible. cbv zeta in Hb.
      destruct Hb as [[E1 E2]|[E1 E2]]; rewrite E1, E2; destruct Ad; auto.
    + intros Hn b _. apply Hn.
Qed.

(** C77: with random search the reported decrease is still that of the returned
    set, and no set that was drawn is better. *)
Theorem C77_random_categories_best_drawn :
  forall (A : arith) (St : Type) (T : target A St) ok imp cost ready holds,
  honest T ok imp cost ready holds -> ordered A ->
  forall rnd f cases parent maxEx leaf al,
  maxEx < NCats (cMap f) -> maxEx <= 62 ->
  Forall ok cases -> ready (aTgt al) -> length cases <= length (aCat al) ->
  Forall (fun c => c < length (cData f)) cases ->
  exists r, BestCatSplit A St T rnd f cases parent maxEx leaf al = Ok r /\
    Permutation cases (fCases r) /\ keeps ready al (fAl r) /\
    (forall k, k < nparts maxEx - 1 ->
       let drawn := CInt (Z.of_nat (rnd (aDraw al + k)) mod 2 ^ 63) in
       admissible leaf (among f (code_set drawn)) cases ->
       nltb A (fDec r) (worth A parent cost (among f (code_set drawn)) cases) = false) /\
    (nltb A (least A) (fDec r) = true ->
       admissible leaf (among f (code_set (fCode r))) cases /\
       fDec r = worth A parent cost (among f (code_set (fCode r))) cases) /\
    (nltb A (least A) (fDec r) = false -> fDec r = least A).
Proof.
  intros A St T ok imp cost ready holds Hon Hord rnd f cases parent maxEx leaf al Hk Hm Hok Hr Hl Hd.
  destruct (BestCatSplit_ok A St T ok imp cost ready holds Hon Hord rnd f cases Hd Hok parent leaf
    (length (aCat al)) maxEx al Hm Hr Hl eq_refl) as (r & E & (P & Rd & best & Ec & (Tb & Tl & Tall) & Cn) & Ev & El).
  replace (NCats (cMap f) <=? maxEx) with false in * by (symmetry; apply Nat.leb_gt; auto).
  exists r. split; auto. split; auto.
  split; [split; [congruence|split; auto]|]. split; [|split].
  - intros k Hi drawn Ad. apply Tall; auto. unfold cat_seen. apply in_map_iff.
    exists (aDraw al + k). split; auto. apply in_seq. lia.
  - rewrite Ec. destruct Tb as [[_ ->]|(_ & Ad & Ed & _)]; auto.
    intros H. rewrite (proj1 Hord) in H. discriminate.
  - intros H. destruct Tb as [[_ ->]|(_ & _ & _ & L)]; auto. congruence.
Qed.

(** Adding a category to a set *)
Definition plus_cat (s : nat -> bool) (i : nat) (j : nat) : bool := (j =? i) || s j.
Definition only_cat (i : nat) (j : nat) : bool := j =? i.

(** C32: what the greedy searches promise. *)
Definition local_optimum (A : arith) (cost : list nat -> list nat -> A) (parent : A) (leaf n : nat)
    (f : catF) (cases : list nat) (code : coded) (dec : A) : Prop :=
  (nltb A (least A) dec = true ->
     admissible leaf (among f (code_set code)) cases /\
     dec = worth A parent cost (among f (code_set code)) cases) /\
  (nltb A (least A) dec = false -> dec = least A) /\
  (forall i, i < n -> admissible leaf (among f (only_cat i)) cases ->
     nltb A dec (worth A parent cost (among f (only_cat i)) cases) = false) /\
  (forall i, i < n -> code_set code i = false ->
     admissible leaf (among f (plus_cat (code_set code) i)) cases ->
     nltb A dec (worth A parent cost (among f (plus_cat (code_set code) i)) cases) = false).

Lemma admissible_ext leaf g h cases : (forall c, g c = h c) ->
  admissible leaf g cases <-> admissible leaf h cases.
Proof.
  intros E. unfold admissible. destruct (side_ext g h cases (fun c _ => E c)) as [-> ->]. tauto.
Qed.
Lemma worth_ext A parent cost g h cases : (forall c, g c = h c) ->
  worth A parent cost g cases = worth A parent cost h cases.
Proof. intros E. unfold worth. destruct (side_ext g h cases (fun c _ => E c)) as [-> ->]. auto. Qed.

Lemma iter_local A cost parent leaf f cases n bit setb mk best dec :
  ordered A -> (forall j, bit 0%Z j = false) ->
  (forall z i j, i < n -> bit (setb z i) j = (j =? i) || bit z j) ->
  (forall z j, code_set (mk z) j = bit z j) ->
  iter_outcome A cost f cases parent leaf n bit setb best dec ->
  local_optimum A cost parent leaf n f cases (mk best) dec.
Proof.
  intros Hord B0 Bs Hm (H1 & H2 & H3 & H4).
  assert (E : forall z c, among f (code_set (mk z)) c = among f (bit z) c) by (intros; apply Hm).
  split; [|split; [|split]].
  - intros L. rewrite (admissible_ext leaf _ (among f (bit best))) by auto.
    rewrite (worth_ext A parent cost _ (among f (bit best))) by auto.
    destruct H1 as [[_ ->]|(Ad & Ed & _)]; auto. rewrite (proj1 Hord) in L. discriminate.
  - intros L. destruct H1 as [[_ ->]|(_ & _ & L')]; auto. congruence.
  - intros i Hi. assert (Eo : forall c, among f (only_cat i) c = among f (bit (setb 0%Z i)) c).
    { intros c. unfold among, only_cat. rewrite Bs, B0, orb_false_r by auto. reflexivity. }
    rewrite (admissible_ext leaf _ _ cases Eo), (worth_ext A parent cost _ _ cases Eo). auto.
  - intros i Hi Eb. rewrite Hm in Eb.
    assert (Eo : forall c, among f (plus_cat (code_set (mk best)) i) c = among f (bit (setb best i)) c).
    { intros c. unfold among, plus_cat. rewrite Bs by auto. rewrite Hm. reflexivity. }
    rewrite (admissible_ext leaf _ _ cases Eo), (worth_ext A parent cost _ _ cases Eo). auto.
Qed.

Theorem C32_greedy_local_optimum :
  forall (A : arith) (St : Type) (T : target A St) ok imp cost ready holds,
  honest T ok imp cost ready holds -> ordered A ->
  forall f cases parent leaf al,
  NCats (cMap f) <= 63 ->
  Forall ok cases -> ready (aTgt al) -> Forall (fun c => c < length (cData f)) cases ->
  exists r, BestCatSplitIter A St T f cases parent leaf al = Ok r /\
    fCases r = cases /\ fConst r = false /\ keeps ready al (fAl r) /\
    local_optimum A cost parent leaf (NCats (cMap f)) f cases (fCode r) (fDec r).
Proof.
  intros A St T ok imp cost ready holds Hon Hord f cases parent leaf al Hk Hok Hr Hd.
  assert (B0 : forall j, intbit 0 j = false).
  { intros j. unfold intbit. rewrite Z.bits_0. apply andb_false_r. }
  assert (Bs : forall z i j, i < NCats (cMap f) -> intbit (Z.lor z (shl1 i)) j = (j =? i) || intbit z j).
  { intros z i j Hi. unfold intbit, shl1. replace (i <? 63) with true by (symmetry; apply Nat.ltb_lt; lia).
    rewrite Z.lor_spec. destruct (Nat.eqb_spec j i) as [->|N].
    - replace (i <? 64) with true by (symmetry; apply Nat.ltb_lt; lia).
      rewrite Z.pow2_bits_true by lia. rewrite orb_true_r. reflexivity.
    - rewrite Z.pow2_bits_false by lia. rewrite orb_false_r. reflexivity. }
  destruct (iter_search_ok A St T ok imp cost ready holds Hon Hord f cases Hd Hok parent leaf (NCats (cMap f))
    intbit (fun z i => Z.lor z (shl1 i)) B0 Bs (aTgt al) Hr) as ([[best dec] tg] & E & R & O).
  unfold BestCatSplitIter. rewrite E. cbn [bind]. eexists. split; [reflexivity|]. cbn [fCases fConst fCode fDec].
  split; auto. split; auto. split; [split; [|split]; auto|].
  eapply (iter_local A cost parent leaf f cases (NCats (cMap f)) intbit (fun z i => Z.lor z (shl1 i)) CInt); eauto.
Qed.

Theorem C32_greedy_local_optimum_big :
  forall (A : arith) (St : Type) (T : target A St) ok imp cost ready holds,
  honest T ok imp cost ready holds -> ordered A ->
  forall f cases parent leaf al,
  Forall ok cases -> ready (aTgt al) -> Forall (fun c => c < length (cData f)) cases ->
  exists r, BestCatSplitIterBig A St T f cases parent leaf al = Ok r /\
    fCases r = cases /\ fConst r = false /\ keeps ready al (fAl r) /\
    local_optimum A cost parent leaf (NCats (cMap f)) f cases (fCode r) (fDec r).
Proof.
  intros A St T ok imp cost ready holds Hon Hord f cases parent leaf al Hok Hr Hd.
  assert (B0 : forall j, bigbit 0 j = false) by (intros; apply Z.bits_0).
  assert (Bs : forall z i j, i < NCats (cMap f) -> bigbit (Z.setbit z (Z.of_nat i)) j = (j =? i) || bigbit z j).
  { intros z i j Hi. unfold bigbit. rewrite Z.setbit_eqb by lia. f_equal.
    destruct (Nat.eqb_spec j i) as [->|N]; [apply Z.eqb_refl|apply Z.eqb_neq; lia]. }
  destruct (iter_search_ok A St T ok imp cost ready holds Hon Hord f cases Hd Hok parent leaf (NCats (cMap f))
    bigbit (fun z i => Z.setbit z (Z.of_nat i)) B0 Bs (aTgt al) Hr) as ([[best dec] tg] & E & R & O).
  unfold BestCatSplitIterBig. rewrite E. cbn [bind]. eexists. split; [reflexivity|]. cbn [fCases fConst fCode fDec].
  split; auto. split; auto. split; [split; [|split]; auto|].
  eapply (iter_local A cost parent leaf f cases (NCats (cMap f)) bigbit (fun z i => Z.setbit z (Z.of_nat i)) CBig); eauto.
Qed.

(** C33: the split of a feature with two categories.  The code evaluates
    (category 1, category 0) and returns a code for (category 0, category 1): hence
    the symmetry of the impurity. *)
Theorem C33_binary_split :
  forall (A : arith) (St : Type) (T : target A St) ok imp cost ready holds,
  honest T ok imp cost ready holds -> symmetric cost ->
  forall f cases parent leaf al,
  Forall ok cases -> ready (aTgt al) ->
  Forall (fun c => c < length (cData f) /\ nth c (cData f) 0 < 2) cases ->
  exists r, BestBinSplit A St T f cases parent leaf al = Ok r /\
    Permutation cases (fCases r) /\ keeps ready al (fAl r) /\
    (fConst r = true <-> ~ admissible leaf (among f (only_cat 0)) cases) /\
    (fConst r = false ->
       (forall c, In c cases -> among f (code_set (fCode r)) c = (nth c (cData f) 0 =? 0)) /\
       fDec r = worth A parent cost (among f (code_set (fCode r))) cases /\
       (* and it is the only split: any other admissible one is worth the same *)
       (1 <= leaf -> forall s, admissible leaf (among f s) cases ->
          fDec r = worth A parent cost (among f s) cases)).
Proof.
  intros A St T ok imp cost ready holds Hon Hsym f cases parent leaf al Hok Hr Hd.
  assert (Hd1 : Forall (fun c => c < length (cData f)) cases) by (eapply Forall_impl; [|exact Hd]; cbn; tauto).
  assert (Hd2 : forall c, In c cases -> catv f c < 2).
  { intros c Hc. rewrite Forall_forall in Hd. apply Hd. auto. }
  destruct (bin_part_ok f cases Hd1) as (cs & l & E & P & Hl & H1 & H2).
  unfold BestBinSplit. rewrite E. cbn [bind].
  destruct (split_at (fun c => catv f c =? 1) cases cs l P Hl H1 H2) as (Q1 & Q2 & L1 & L2).
  assert (Flip : side (fun c => catv f c =? 1) cases = other (among f (only_cat 0)) cases /\
                 other (fun c => catv f c =? 1) cases = side (among f (only_cat 0)) cases).
  { destruct (side_ext (fun c => catv f c =? 1) (fun c => negb (among f (only_cat 0) c)) cases) as [-> ->].
    - intros c Hc. specialize (Hd2 c Hc). unfold among, only_cat. fold (catv f c).
      destruct (catv f c) as [|[|]]; auto; lia.
    - apply side_negb. }
  destruct Flip as [F1 F2].
  rewrite <- L2, <- L1.
  destruct (admissible_dec leaf (among f (only_cat 0)) cases) as [Ad|Na].
  - replace ((length (side (fun c => catv f c =? 1) cases) <? leaf) ||
             (length (other (fun c => catv f c =? 1) cases) <? leaf)) with false.
    2:{ symmetry. apply admissible_test. rewrite F1, F2. destruct Ad; auto. }
    rewrite L1. rewrite !slice_ok by lia. cbn [bind]. rewrite Nat.sub_0_r. cbn [skipn].
    replace (firstn (length cs - l) (skipn l cs)) with (skipn l cs)
      by (symmetry; apply firstn_all2; rewrite skipn_length; lia).
    assert (O1 : Forall ok (firstn l cs)).
    { eapply Permutation_Forall; [exact Q1|]. apply Forall_filter; auto. }
    assert (O2 : Forall ok (skipn l cs)).
    { eapply Permutation_Forall; [exact Q2|]. apply Forall_filter; auto. }
    destruct (h_split _ _ _ _ _ _ Hon _ _ (aTgt al) O1 O2 Hr) as (tg' & Es & Hr' & _). rewrite Es. cbn [bind].
    eexists. split; [reflexivity|]. cbn [fCases fConst fCode fDec fAl]. split; auto.
    split; [split; [|split]; auto|]. split; [split; [discriminate|tauto]|]. intros _.
    assert (Bit : forall c, In c cases -> among f (code_set (CInt 1)) c = (nth c (cData f) 0 =? 0)).
    { intros c Hc. specialize (Hd2 c Hc). unfold among. fold (catv f c).
      destruct (catv f c) as [|[|]]; auto; lia. }
    assert (Val : decrease A parent (cost (firstn l cs) (skipn l cs)) =
                  gain A parent cost (other (among f (only_cat 0)) cases) (side (among f (only_cat 0)) cases)).
    { rewrite <- F1, <- F2. symmetry. etransitivity; [eapply gain_perm; eauto|]. reflexivity. }
    assert (Val' : decrease A parent (cost (firstn l cs) (skipn l cs)) = worth A parent cost (among f (only_cat 0)) cases).
    { rewrite Val. unfold worth, gain. rewrite (Hsym (other _ _)). reflexivity. }
    split; auto. split.
    + rewrite Val'. unfold worth. destruct (side_ext (among f (code_set (CInt 1))) (among f (only_cat 0)) cases) as [-> ->]; auto.
    + intros Hleaf s [As1 As2]. rewrite Val'.
      assert (Hs : s 0 <> s 1).
      { intros Es01.
        assert (Hall : forall c, In c cases -> among f s c = s 0).
        { intros c Hc. specialize (Hd2 c Hc). unfold among. fold (catv f c).
          destruct (catv f c) as [|[|]]; auto; lia. }
        destruct (s 0) eqn:E0.
        - replace (other (among f s) cases) with (@nil nat) in As2; [cbn in As2; lia|].
          symmetry. apply filter_false. apply Forall_forall. intros c Hc. rewrite Hall; auto.
        - replace (side (among f s) cases) with (@nil nat) in As1; [cbn in As1; lia|].
          symmetry. apply filter_false. apply Forall_forall. intros c Hc. rewrite Hall; auto. }
      destruct (s 0) eqn:E0, (s 1) eqn:E1; try congruence.
      * symmetry. unfold worth. destruct (side_ext (among f s) (among f (only_cat 0)) cases) as [-> ->]; auto.
        intros c Hc. specialize (Hd2 c Hc). unfold among, only_cat. fold (catv f c).
        destruct (catv f c) as [|[|]]; auto; lia.
      * symmetry.
        destruct (side_ext (among f s) (fun c => negb (among f (only_cat 0) c)) cases) as [X1 X2].
        { intros c Hc. specialize (Hd2 c Hc). unfold among, only_cat. fold (catv f c).
          destruct (catv f c) as [|[|]]; auto; lia. }
        destruct (side_negb (among f (only_cat 0)) cases) as [Y1 Y2].
        apply worth_swap; auto; congruence.
  - replace ((length (side (fun c => catv f c =? 1) cases) <? leaf) ||
             (length (other (fun c => catv f c =? 1) cases) <? leaf)) with true.
    2:{ symmetry. destruct ((length (side (fun c => catv f c =? 1) cases) <? leaf) ||
             (length (other (fun c => catv f c =? 1) cases) <? leaf)) eqn:Eo; auto.
        exfalso. apply Na. apply admissible_test in Eo. rewrite F1, F2 in Eo. unfold admissible. tauto. }
    eexists. split; [reflexivity|]. cbn [fCases fConst fCode fDec fAl]. split; auto.
    split; [split; [|split]; auto|]. split; [tauto|discriminate].
Qed.

(** The random search over more than 30 categories (BestCatSplitBig): the codes
    drawn are below 2^(nCats-1), the best of those drawn is returned. *)
Theorem C77_random_categories_best_drawn_big :
  forall (A : arith) (St : Type) (T : target A St) ok imp cost ready holds,
  honest T ok imp cost ready holds -> ordered A ->
  forall rnd f cases parent maxEx leaf al,
  maxEx < NCats (cMap f) ->
  Forall ok cases -> ready (aTgt al) ->
  Forall (fun c => c < length (cData f)) cases ->
  exists r, BestCatSplitBig A St T rnd f cases parent maxEx leaf al = Ok r /\
    fCases r = cases /\ fConst r = false /\ keeps ready al (fAl r) /\
    (forall k, k < nparts maxEx - 1 ->
       let drawn := CBig (Z.of_nat (rnd (aDraw al + k)) mod 2 ^ Z.of_nat (NCats (cMap f) - 1)) in
       admissible leaf (among f (code_set drawn)) cases ->
       nltb A (fDec r) (worth A parent cost (among f (code_set drawn)) cases) = false) /\
    (nltb A (least A) (fDec r) = true ->
       admissible leaf (among f (code_set (fCode r))) cases /\
       fDec r = worth A parent cost (among f (code_set (fCode r))) cases) /\
    (nltb A (least A) (fDec r) = false -> fDec r = least A).
Proof.
  intros A St T ok imp cost ready holds Hon Hord rnd f cases parent maxEx leaf al Hk Hok Hr Hd.
  unfold BestCatSplitBig.
  replace (NCats (cMap f) <=? maxEx) with false by (symmetry; apply Nat.leb_gt; auto). cbv zeta.
  set (rule := fun z => among f (code_set (CBig z))).
  set (code := fun k => (Z.of_nat (rnd k) mod 2 ^ Z.of_nat (NCats (cMap f) - 1))%Z).
  match goal with |- context [for_up ?n ?lo ?b ?s] =>
    pose proof (@for_up_total (Z * A * St * nat)
      (fun i '((best, dec, tg, d) : Z * A * St * nat) =>
         ready tg /\ d = aDraw al + (i - 1) /\
         top A cost cases parent leaf rule 0%Z (minImp A) (map code (seq (aDraw al) (i - 1))) best dec) b n lo s) as F
  end.
  destruct F as ([[[best dec] tg] d] & Ef & R & _ & (Tb & Tl & Tall)).
  - intros i [[[best dec] tg] d] Hi (R & -> & Tp). cbv beta iota zeta.
    fold (code (aDraw al + (i - 1))). set (b := code (aDraw al + (i - 1))).
    assert (Eseq : map code (seq (aDraw al) (S i - 1)) = map code (seq (aDraw al) (i - 1)) ++ [b]).
    { replace (S i - 1) with (S (i - 1)) by lia. rewrite seq_S, map_app. reflexivity. }
    rewrite (by_bit_ok f cases Hd (bigbit b)). cbn [bind].
    change (among f (bigbit b)) with (rule b).
    destruct (admissible_dec leaf (rule b) cases) as [Ad|Na].
    + replace ((length (side (rule b) cases) <? leaf) || (length (other (rule b) cases) <? leaf)) with false
        by (symmetry; apply admissible_test; exact Ad).
      destruct (h_split _ _ _ _ _ _ Hon (side (rule b) cases) (other (rule b) cases) tg)
        as (tg' & Es & Hr' & _); [apply Forall_filter; auto|apply Forall_filter; auto|auto|].
      rewrite Es. cbn [bind].
      change (decrease A parent (cost (side (rule b) cases) (other (rule b) cases)))
        with (worth A parent cost (rule b) cases).
      pose proof (top_take A cost Hord cases parent leaf rule _ _ _ _ _ b Tp Ad) as Ht. cbv beta in Ht.
      apply yields_ok. destruct (nltb A dec (worth A parent cost (rule b) cases));
        (split; [auto|]; split; [lia|]; rewrite Eseq; exact Ht).
    + replace ((length (side (rule b) cases) <? leaf) || (length (other (rule b) cases) <? leaf)) with true.
      2:{ symmetry. destruct ((length (side (rule b) cases) <? leaf) || (length (other (rule b) cases) <? leaf)) eqn:Eo; auto.
          exfalso. apply Na. apply admissible_test. auto. }
      apply yields_ok. split; auto. split; [lia|]. rewrite Eseq. apply top_skip; auto.
  - split; auto. split; [lia|]. apply top_init; auto.
  - rewrite Ef. cbn [bind]. eexists. split; [reflexivity|]. cbn [fCases fConst fDec fCode].
    split; [reflexivity|]. split; [reflexivity|]. split; [split; [|split]; auto|]. split; [|split].
    + cbv zeta. intros k Hi Ad. apply (Tall (code (aDraw al + k))); auto. apply in_map_iff.
      exists (aDraw al + k). split; auto. apply in_seq. lia.
    + destruct Tb as [[_ ->]|(_ & Ad & Ed & _)]; auto.
      intros H. change (least A) with (minImp A) in H. rewrite (proj1 Hord) in H. discriminate.
    + intros H. destruct Tb as [[_ ->]|(_ & _ & _ & L)]; auto. change (least A) with (minImp A) in H. congruence.
Qed.

(** ** Cases meeting the hypotheses *)
Definition cats (names : list string) (data : list nat) (random : bool) : catF :=
  mkCat (mkCM (combine names (seq 0 (length names))) names) data (map (fun _ => false) data) EmptyString random false.
Local Open Scope string_scope.
Local Open Scope nat_scope.
Local Open Scope list_scope.
Definition fresh (n : nat) : allocs cst :=
  mkAl (repeat f0 n) (repeat 0%Z n) (repeat 0%Z 2, mkK (repeat 0%Z 2) (repeat 0%Z 2) (repeat 0%Z 2)) 0.
(** Four categories; cases of categories 0 and 2 belong to class 0. *)
Definition four : catF := cats ["a"; "b"; "c"; "d"] [0; 1; 2; 3; 0; 1; 2; 3] false.
Definition four_classes : list nat := [0; 1; 0; 1; 0; 1; 0; 1].
Definition half : f64 := fdiv f1 f2.
Definition T4 := gini_target F64 four_classes.

Example ex_four_hyps :
  honest T4 (in_data four_classes 2) (gini_val F64 four_classes 2) (gini_cost F64 four_classes 2)
    (cst_ready 2) (cst_holds four_classes 2) /\
  ordered F64 /\ symmetric (gini_cost F64 four_classes 2) /\
  NCats (cMap four) <= 10 /\ Forall (in_data four_classes 2) (seq 0 8) /\ cst_ready 2 (aTgt (fresh 8)) /\
  length (seq 0 8) <= length (aCat (fresh 8)) /\
  Forall (fun c => c < length (cData four) /\ nth c (cData four) 0 < NCats (cMap four)) (seq 0 8).
Proof.
  split; [apply gini_honest_F64|]. split; [apply ordered_F64|]. split; [apply gini_symmetric_F64|].
  split; [cbn; lia|]. split; [repeat constructor; cbn; lia|]. split; [repeat split|]. split; [cbn; lia|].
  repeat constructor; cbn; lia.
Qed.
Definition shown (r : res (found F64 cst)) : option (coded * f64 * bool * list nat) :=
  match r with Ok r => Some (fCode r, fDec r, fConst r, fCases r) | _ => None end.
(** Both searches find {a, c}: exhaustive as code 5, greedily one by one. *)
Example ex_four_found :
  shown (BestCatSplit F64 cst T4 (fun _ => 0) four (seq 0 8) half 10 2 (fresh 8)) =
    Some (CInt 5, half, false, [2; 6; 1; 5; 4; 0; 7; 3]) /\
  shown (BestCatSplitIter F64 cst T4 four (seq 0 8) half 2 (fresh 8)) = Some (CInt 5, half, false, seq 0 8) /\
  shown (BestCatSplitIterBig F64 cst T4 four (seq 0 8) half 2 (fresh 8)) = Some (CBig 5, half, false, seq 0 8).
Proof. vm_compute. repeat split. Qed.
(** With leaves of at least five cases there is no admissible split: constant. *)
Example ex_four_constant :
  option_map (fun x => snd (fst x)) (shown (BestCatSplit F64 cst T4 (fun _ => 0) four (seq 0 8) half 10 5 (fresh 8))) = Some true.
Proof. vm_compute. reflexivity. Qed.
(** A random search that draws 1, 2 and 3. *)
Example ex_four_random :
  option_map (fun x => fst (fst (fst x)))
    (shown (BestCatSplitBig F64 cst T4 S four (seq 0 8) half 3 2 (fresh 8))) = Some (CBig 1).
Proof. vm_compute. reflexivity. Qed.

Definition two : catF := cats ["no"; "yes"] [1; 0; 1; 0; 0] false.
Example ex_two :
  Forall (fun c => c < length (cData two) /\ nth c (cData two) 0 < 2) (seq 0 5) /\
  option_map (fun x => (fst (fst (fst x)), snd (fst x), snd x))
    (shown (BestBinSplit F64 cst (gini_target F64 [1; 0; 1; 0; 1]) two (seq 0 5) half 2 (fresh 5))) =
    Some (CInt 1, false, [0; 2; 3; 4; 1]).
Proof. split; [repeat constructor; cbn; lia|]. vm_compute. reflexivity. Qed.

Print Assumptions C31_exhaustive_categories_optimal.
Print Assumptions C77_random_categories_best_drawn.
Print Assumptions C77_random_categories_best_drawn_big.
Print Assumptions C32_greedy_local_optimum.
Print Assumptions C32_greedy_local_optimum_big.
Print Assumptions C33_binary_split.
