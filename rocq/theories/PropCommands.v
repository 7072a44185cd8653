(** Properties C96 and C97: what growforest chooses to grow forests from. *)
From Verif Require Import Go GoLemmas F64 F64Order ModelFeature ModelSort ModelSearch ModelText ModelMatrix MatrixSpec ModelBallot ModelStats ModelCommands.
From Coq Require Import Sorting.Sorted.
Local Open Scope string_scope.
Local Open Scope nat_scope.
Local Open Scope list_scope.

(** ** Marking features *)
Definition blacks (bl : list bool) : nat := length (filter (fun b => b) bl).

Lemma blacks_upd : forall bl i, i < length bl -> blacks (upd bl i true) = if nth i bl false then blacks bl else S (blacks bl).
Proof.
  unfold blacks. induction bl as [|b bl IH]; intros [|i] H; cbn in *; try lia.
  - destruct b; reflexivity.
  - specialize (IH i ltac:(lia)). destruct b; cbn [length]; rewrite IH; destruct (nth i bl false); auto.
Qed.
Lemma nth_upd_b : forall (bl : list bool) i j b, i < length bl -> nth j (upd bl i b) false = if j =? i then b else nth j bl false.
Proof.
  induction bl as [|c bl IH]; intros [|i] [|j] b H; cbn in *; try lia; auto.
  rewrite IH by lia. reflexivity.
Qed.
Lemma get_nth_b : forall (bl : list bool) i, i < length bl -> get bl i = Ok (nth i bl false).
Proof. intros bl i H. apply get_nth. apply nth_error_nth'. auto. Qed.

Lemma blacken_ok bl i : i < length bl -> blacken i (bl, blacks bl) = Ok (upd bl i true, blacks (upd bl i true)).
Proof.
  intros H. unfold blacken. rewrite (get_nth_b bl i H). cbn [bind]. rewrite (blacks_upd bl i H).
  destruct (nth i bl false) eqn:E.
  - rewrite upd_same; auto. rewrite <- E. apply nth_error_nth'. auto.
  - rewrite set_ok by auto. cbn [bind]. rewrite Nat.add_1_r. reflexivity.
Qed.

Definition leads (lookup : list (string * nat)) (j : nat) (id : string) : bool :=
  match assoc id lookup with Some i => j =? i | None => false end.
Lemma blacklist_file_ok lookup : forall ids bl, (forall id i, assoc id lookup = Some i -> i < length bl) ->
  exists bl', blacklist_file lookup ids (bl, blacks bl) = Ok (bl', blacks bl') /\ length bl' = length bl
    /\ forall j, nth j bl' false = nth j bl false || existsb (leads lookup j) ids.
Proof.
  unfold blacklist_file. induction ids as [|id ids IH]; intros bl H; cbn [foreach existsb].
  - exists bl. repeat split; auto. intros j. rewrite orb_false_r. auto.
  - destruct (assoc id lookup) as [i|] eqn:E.
    + rewrite blacken_ok by eauto. cbn [bind].
      destruct (IH (upd bl i true)) as (bl' & R & HL & Hn).
      { intros id' i' Hi. rewrite upd_length. eauto. }
      exists bl'. split; [exact R|]. split; [rewrite HL; apply upd_length|].
      intros j. rewrite Hn, nth_upd_b by eauto. unfold leads at 2. rewrite E.
      destruct (j =? i); destruct (nth j bl false); auto.
    + cbn [bind]. destruct (IH bl H) as (bl' & R & HL & Hn). exists bl'. split; [exact R|]. split; auto.
      intros j. rewrite Hn. unfold leads at 2. rewrite E. auto.
Qed.

Definition named (re : string -> bool) (data : list feature) (j : nat) : bool :=
  match nth_error data j with Some f => re (fName f) | None => false end.
Lemma blacken_names_from re targeti : forall data k bl, k + length data = length bl ->
  exists bl', foreach (combine (seq k (length data)) data) (fun '((i, f) : nat * feature) s =>
      if negb (targeti =? i) && re (fName f) then blacken i s else Ok s) (bl, blacks bl) = Ok (bl', blacks bl')
    /\ length bl' = length bl
    /\ forall j, nth j bl' false = nth j bl false || (negb (targeti =? j) && (k <=? j) && named re data (j - k)).
Proof.
  induction data as [|f data IH]; intros k bl H; cbn [length seq combine foreach] in *.
  - exists bl. repeat split; auto. intros j. unfold named. destruct (j - k); cbn; rewrite !andb_false_r, orb_false_r; auto.
  - set (bl1 := if negb (targeti =? k) && re (fName f) then upd bl k true else bl).
    assert (E : (if negb (targeti =? k) && re (fName f) then blacken k (bl, blacks bl) else Ok (bl, blacks bl)) = Ok (bl1, blacks bl1)).
    { unfold bl1. destruct (negb (targeti =? k) && re (fName f)); auto. apply blacken_ok. lia. }
    rewrite E. cbn [bind]. assert (L1 : length bl1 = length bl) by (unfold bl1; destruct (_ && _); rewrite ?upd_length; auto).
    destruct (IH (S k) bl1) as (bl' & R & HL & Hn); [lia|].
    exists bl'. split; [exact R|]. split; [lia|]. intros j. rewrite Hn.
    assert (N1 : nth j bl1 false = nth j bl false || (negb (targeti =? j) && (j =? k) && re (fName f))).
    { unfold bl1. destruct (Nat.eqb_spec j k) as [->|Hne].
      - rewrite andb_true_r. destruct (negb (targeti =? k) && re (fName f)).
        + rewrite nth_upd_b by lia. rewrite Nat.eqb_refl, orb_true_r. auto.
        + rewrite orb_false_r. auto.
      - rewrite andb_false_r, orb_false_r. destruct (negb (targeti =? k) && re (fName f)); auto.
        rewrite nth_upd_b by lia. destruct (Nat.eqb_spec j k); [contradiction|auto]. }
    rewrite N1. rewrite <- orb_assoc. f_equal. clear N1 Hn.
    destruct (Nat.eqb_spec j k) as [->|Hne].
    + replace (k - k) with 0 by lia. replace (S k <=? k) with false by (symmetry; apply Nat.leb_gt; lia).
      rewrite Nat.leb_refl. unfold named. cbn [nth_error]. rewrite !andb_true_r, andb_false_r, orb_false_r. auto.
    + rewrite andb_false_r. cbn [orb andb]. destruct (Nat.leb_spec (S k) j).
      * replace (k <=? j) with true by (symmetry; apply Nat.leb_le; lia).
        replace (j - k) with (S (j - S k)) by lia. reflexivity.
      * replace (k <=? j) with false by (symmetry; apply Nat.leb_gt; lia). rewrite !andb_false_r. auto.
Qed.
Lemma blacken_names_ok re targeti data bl : length data = length bl ->
  exists bl', blacken_names re targeti data (bl, blacks bl) = Ok (bl', blacks bl') /\ length bl' = length bl
    /\ forall j, nth j bl' false = nth j bl false || (negb (targeti =? j) && named re data j).
Proof.
  intros H. destruct (blacken_names_from re targeti data 0 bl H) as (bl' & R & HL & Hn).
  exists bl'. split; [exact R|]. split; auto. intros j. rewrite Hn, Nat.sub_0_r. cbn [Nat.leb]. rewrite andb_true_r. auto.
Qed.

Definition chosen (targeti : nat) (bl : list bool) (i : nat) : bool := negb (i =? targeti) && negb (nth i bl false).
Lemma candidates_of_ok n targeti bl : n <= length bl ->
  candidates_of n targeti bl = Ok (filter (chosen targeti bl) (seq 0 n)).
Proof.
  intros H. unfold candidates_of.
  destruct (@for_up_total (list nat) (fun i cans => cans = filter (chosen targeti bl) (seq 0 i))
    (fun i cans => if i =? targeti then Ok cans else let* b := get bl i in Ok (if b then cans else cans ++ [i])) n 0 []) as (cans & R & E).
  - intros i cans Hi ->. rewrite seq_S, filter_app. cbn [plus filter]. change (chosen targeti bl i) with (negb (i =? targeti) && negb (nth i bl false)).
    destruct (i =? targeti); cbn [negb andb].
    + rewrite app_nil_r. apply yields_ok. auto.
    + rewrite get_nth_b by lia. cbn [bind]. apply yields_ok. destruct (nth i bl false); cbn [negb]; rewrite ?app_nil_r; auto.
  - auto.
  - rewrite R, E. auto.
Qed.

(** Every feature is a candidate, marked, or the target. *)
Lemma chosen_count targeti : forall bl k, (forall b, nth_error bl (targeti - k) = Some b -> k <= targeti -> b = false) ->
  (k <= targeti < k + length bl) \/ targeti < k \/ k + length bl <= targeti ->
  length (filter (fun i => negb (i =? targeti) && negb (nth (i - k) bl false)) (seq k (length bl))) + blacks bl
  + (if (k <=? targeti) && (targeti <? k + length bl) then 1 else 0) = length bl.
Proof.
  induction bl as [|b bl IH]; intros k Hb Hr; cbn [length seq filter] in *.
  - destruct (Nat.leb_spec k targeti); destruct (Nat.ltb_spec targeti (k + 0)); cbn; try lia.
  - replace (k - k) with 0 by lia. cbn [nth].
    assert (IH' : length (filter (fun i => negb (i =? targeti) && negb (nth (i - S k) bl false)) (seq (S k) (length bl))) + blacks bl
        + (if (S k <=? targeti) && (targeti <? S k + length bl) then 1 else 0) = length bl).
    { apply IH; [|lia]. intros b' Hn Hle. apply (Hb b'); [|lia]. replace (targeti - k) with (S (targeti - S k)) by lia. auto. }
    assert (EF : filter (fun i => negb (i =? targeti) && negb match i - k with 0 => b | S m => nth m bl false end) (seq (S k) (length bl))
               = filter (fun i => negb (i =? targeti) && negb (nth (i - S k) bl false)) (seq (S k) (length bl))).
    { apply filter_ext_in. intros i Hi. apply in_seq in Hi. replace (i - k) with (S (i - S k)) by lia. auto. }
    rewrite EF. unfold blacks in *. cbn [filter].
    destruct (Nat.eqb_spec k targeti) as [->|Hne]; cbn [negb andb].
    + rewrite (Hb b); [|replace (targeti - targeti) with 0 by lia; auto|lia].
      rewrite Nat.leb_refl in *. replace (S targeti <=? targeti) with false in IH' by (symmetry; apply Nat.leb_gt; lia).
      replace (targeti <? targeti + S (length bl)) with true by (symmetry; apply Nat.ltb_lt; lia). cbn [andb] in *. lia.
    + replace ((k <=? targeti) && (targeti <? k + S (length bl))) with ((S k <=? targeti) && (targeti <? S k + length bl)).
      * destruct b; cbn [negb length]; lia.
      * destruct (Nat.leb_spec (S k) targeti), (Nat.leb_spec k targeti), (Nat.ltb_spec targeti (S k + length bl)), (Nat.ltb_spec targeti (k + S (length bl))); cbn; auto; lia.
Qed.

(** ** C96 *)

(** Feature [i] is on the list of names [ids]. *)
Definition listed (fm : fmatrix) (ids : list string) (i : nat) : Prop :=
  exists id, In id ids /\ assoc id (fmMap fm) = Some i.
(** The features that were asked for: all but the target, the listed ones, those whose
    name matches [block] and those whose name does not match [inc]. *)
Definition asked_for (fm : fmatrix) (ids : list string) (block inc : option (string -> bool)) (targeti i : nat) : Prop :=
  i <> targeti /\ ~ listed fm ids i /\
  exists f, nth_error (fmData fm) i = Some f
    /\ (forall re, block = Some re -> re (fName f) = false)
    /\ (forall re, inc = Some re -> re (fName f) = true).

Lemma select_ok fm ids target block inc targeti : names_ok fm -> assoc target (fmMap fm) = Some targeti ->
  exists bl, select_features (fmMap fm) (fmData fm) ids target block inc
             = Ok (Some (targeti, bl, (Z.of_nat (length (fmData fm)) - Z.of_nat (blacks bl) - 1)%Z))
    /\ length bl = length (fmData fm)
    /\ forall j, nth j bl false = existsb (leads (fmMap fm) j) ids
         || (negb (targeti =? j) && match block with Some re => named re (fmData fm) j | None => false end)
         || (negb (targeti =? j) && match inc with Some re => named (fun x => negb (re x)) (fmData fm) j | None => false end).
Proof.
  intros [Hn _] Ht. unfold select_features. set (n := length (fmData fm)).
  assert (Hz : blacks (repeat false n) = 0). { clear. unfold blacks. induction n; cbn; auto. }
  assert (Hzn : forall j, nth j (repeat false n) false = false). { clear. induction n; destruct j; cbn; auto. }
  destruct (blacklist_file_ok (fmMap fm) ids (repeat false n)) as (bl1 & R1 & L1 & N1).
  { intros id i Hi. rewrite repeat_length. destruct (Hn _ _ Hi) as (f & Hf & _). apply nth_error_some_lt in Hf. auto. }
  rewrite Hz in R1. rewrite R1. cbn [bind]. rewrite Ht. rewrite repeat_length in L1.
  assert (S2 : exists bl2, (match block with None => Ok (bl1, blacks bl1) | Some re => blacken_names re targeti (fmData fm) (bl1, blacks bl1) end)
                = Ok (bl2, blacks bl2) /\ length bl2 = n
             /\ forall j, nth j bl2 false = nth j bl1 false || (negb (targeti =? j) && match block with Some re => named re (fmData fm) j | None => false end)).
  { destruct block as [re|].
    - destruct (blacken_names_ok re targeti (fmData fm) bl1) as (bl2 & R2 & L2 & N2); [unfold n in L1; lia|].
      exists bl2. split; auto. split; auto. lia.
    - exists bl1. repeat split; auto. intros j. rewrite andb_false_r, orb_false_r. auto. }
  destruct S2 as (bl2 & R2 & L2 & N2). rewrite R2. cbn [bind].
  assert (S3 : exists bl3, (match inc with None => Ok (bl2, blacks bl2) | Some re => blacken_names (fun x => negb (re x)) targeti (fmData fm) (bl2, blacks bl2) end)
                = Ok (bl3, blacks bl3) /\ length bl3 = n
             /\ forall j, nth j bl3 false = nth j bl2 false || (negb (targeti =? j) && match inc with Some re => named (fun x => negb (re x)) (fmData fm) j | None => false end)).
  { destruct inc as [re|].
    - destruct (blacken_names_ok (fun x => negb (re x)) targeti (fmData fm) bl2) as (bl3 & R3 & L3 & N3); [unfold n in L2; lia|].
      exists bl3. split; auto. split; auto. lia.
    - exists bl2. repeat split; auto. intros j. rewrite andb_false_r, orb_false_r. auto. }
  destruct S3 as (bl3 & R3 & L3 & N3). rewrite R3. cbn [bind]. exists bl3. split; auto. split; auto.
  intros j. rewrite N3, N2, N1, Hzn. auto.
Qed.

Lemma leads_listed fm ids j : existsb (leads (fmMap fm) j) ids = true <-> listed fm ids j.
Proof.
  rewrite existsb_exists. unfold listed, leads. split; intros (id & Hi & H); exists id; split; auto.
  - destruct (assoc id (fmMap fm)); [|discriminate]. apply Nat.eqb_eq in H. subst; auto.
  - rewrite H. apply Nat.eqb_refl.
Qed.

Lemma chosen_asked fm ids block inc targeti bl i : i < length (fmData fm) ->
  (forall j, nth j bl false = existsb (leads (fmMap fm) j) ids
         || (negb (targeti =? j) && match block with Some re => named re (fmData fm) j | None => false end)
         || (negb (targeti =? j) && match inc with Some re => named (fun x => negb (re x)) (fmData fm) j | None => false end)) ->
  (chosen targeti bl i = true <-> asked_for fm ids block inc targeti i).
Proof.
  intros Hi Hb. unfold chosen, asked_for. rewrite Hb.
  destruct (nth_error (fmData fm) i) as [f|] eqn:Ef; [|apply nth_error_None in Ef; lia].
  rewrite (Nat.eqb_sym targeti i).
  destruct (Nat.eqb_spec i targeti) as [->|Hne]; cbn [negb andb].
  { split; [discriminate|]. intros (H & _). congruence. }
  destruct (existsb (leads (fmMap fm) i) ids) eqn:El; cbn [orb negb].
  { apply leads_listed in El. split; [discriminate|]. intros (_ & H & _). contradiction. }
  assert (Hnl : ~ listed fm ids i) by (intros H; apply leads_listed in H; congruence).
  unfold named. rewrite Ef. rewrite negb_orb, andb_true_iff, !negb_true_iff. split.
  - intros [H1 H2]. split; auto. split; auto. exists f. split; auto. split; intros re E; subst; auto.
    apply negb_false_iff. auto.
  - intros (_ & _ & f' & E & H1 & H2). injection E as <-. split.
    + destruct block; auto.
    + destruct inc; auto. apply negb_false_iff. auto.
Qed.

Theorem C96_candidates : forall fm ids target block inc targeti,
  names_ok fm -> assoc target (fmMap fm) = Some targeti ->
  exists bl nFeatures cans,
    select_features (fmMap fm) (fmData fm) ids target block inc = Ok (Some (targeti, bl, nFeatures))
    /\ candidates_of (length (fmData fm)) targeti bl = Ok cans
    /\ StronglySorted lt cans
    /\ forall i, In i cans <-> asked_for fm ids block inc targeti i.
Proof.
  intros fm ids target block inc targeti Hn Ht.
  destruct (select_ok fm ids target block inc targeti Hn Ht) as (bl & R & HL & Hb).
  exists bl. eexists. eexists. split; [exact R|]. split; [apply candidates_of_ok; lia|]. split.
  - clear. generalize 0. induction (length (fmData fm)) as [|n IH]; intros k; cbn [seq filter]; [constructor|].
    destruct (chosen targeti bl k); auto. constructor; auto. apply Forall_forall. intros x Hx. apply filter_In in Hx. destruct Hx as [Hx _]. apply in_seq in Hx. lia.
  - intros i. rewrite filter_In, in_seq. split.
    + intros [Hi Hc]. eapply chosen_asked; eauto. lia.
    + intros Ha. assert (Hi : i < length (fmData fm)).
      { destruct Ha as (_ & _ & f & Hf & _). apply nth_error_some_lt in Hf. auto. }
      split; [lia|]. eapply chosen_asked; eauto.
Qed.

(** nFeatures is the number of candidates unless the target is on the list. *)
Theorem C96_feature_count_partial : forall fm ids target block inc targeti bl nFeatures cans,
  names_ok fm -> assoc target (fmMap fm) = Some targeti -> ~ listed fm ids targeti ->
  select_features (fmMap fm) (fmData fm) ids target block inc = Ok (Some (targeti, bl, nFeatures)) ->
  candidates_of (length (fmData fm)) targeti bl = Ok cans ->
  nFeatures = Z.of_nat (length cans).
Proof.
  intros fm ids target block inc targeti bl nF cans Hn Ht Hl R Rc.
  destruct (select_ok fm ids target block inc targeti Hn Ht) as (bl' & R' & HL & Hb).
  rewrite R in R'. injection R' as <- ->. rewrite candidates_of_ok in Rc by lia. injection Rc as <-.
  assert (Htl : targeti < length (fmData fm)).
  { destruct (proj1 Hn _ _ Ht) as (f & Hf & _). apply nth_error_some_lt in Hf. auto. }
  assert (Hbt : nth targeti bl false = false).
  { rewrite Hb, Nat.eqb_refl. cbn [negb andb]. rewrite !orb_false_r. destruct (existsb _ _) eqn:E; auto. apply leads_listed in E. contradiction. }
  pose proof (chosen_count targeti bl 0) as C. rewrite <- HL in *.
  assert (E : filter (fun i => negb (i =? targeti) && negb (nth (i - 0) bl false)) (seq 0 (length bl)) = filter (chosen targeti bl) (seq 0 (length bl))).
  { apply filter_ext. intros i. rewrite Nat.sub_0_r. auto. }
  rewrite E in C. replace ((0 <=? targeti) && (targeti <? 0 + length bl)) with true in C
    by (symmetry; apply andb_true_iff; split; [auto|apply Nat.ltb_lt; lia]).
  assert (X : length (filter (chosen targeti bl) (seq 0 (length bl))) + blacks bl + 1 = length bl).
  { apply C; [|lia]. intros b Hbn _. rewrite Nat.sub_0_r in Hbn. apply nth_error_nth with (d := false) in Hbn. congruence. }
  lia.
Qed.

(** When the target is on the list it is counted twice. *)
Theorem C96_listed_target_refuted : forall fm ids target block inc targeti bl nFeatures cans,
  names_ok fm -> assoc target (fmMap fm) = Some targeti -> listed fm ids targeti ->
  select_features (fmMap fm) (fmData fm) ids target block inc = Ok (Some (targeti, bl, nFeatures)) ->
  candidates_of (length (fmData fm)) targeti bl = Ok cans ->
  nFeatures = (Z.of_nat (length cans) - 1)%Z.
Proof.
  intros fm ids target block inc targeti bl nF cans Hn Ht Hl R Rc.
  destruct (select_ok fm ids target block inc targeti Hn Ht) as (bl' & R' & HL & Hb).
  rewrite R in R'. injection R' as <- ->. rewrite candidates_of_ok in Rc by lia. injection Rc as <-.
  assert (Htl : targeti < length (fmData fm)).
  { destruct (proj1 Hn _ _ Ht) as (f & Hf & _). apply nth_error_some_lt in Hf. auto. }
  assert (Hbt : nth targeti bl false = true).
  { rewrite Hb. apply leads_listed in Hl. rewrite Hl. auto. }
  assert (E : filter (chosen targeti bl) (seq 0 (length bl)) = filter (fun i => negb (nth (i - 0) bl false)) (seq 0 (length bl))).
  { apply filter_ext. intros i. unfold chosen. rewrite Nat.sub_0_r. destruct (Nat.eqb_spec i targeti) as [->|]; auto. rewrite Hbt. auto. }
  rewrite <- HL, E. clear. generalize 0. induction bl as [|b bl IH]; intros k; cbn [length seq filter]; [reflexivity|].
  replace (k - k) with 0 by lia. cbn [nth].
  assert (EF : filter (fun i => negb match i - k with 0 => b | S m => nth m bl false end) (seq (S k) (length bl))
             = filter (fun i => negb (nth (i - S k) bl false)) (seq (S k) (length bl))).
  { apply filter_ext_in. intros i Hi. apply in_seq in Hi. replace (i - k) with (S (i - S k)) by lia. auto. }
  rewrite EF. specialize (IH (S k)). unfold blacks in *. cbn [filter]. destruct b; cbn [negb length]; lia.
Qed.

(** mTry is positive as soon as there is a feature; [sqrt_ceil] is only assumed to be
    positive on positive numbers. *)
Theorem C96_mtry_positive : forall PF PI ceil sqrt_ceil term nFeatures,
  (forall n, 1 <= n -> 1 <= sqrt_ceil n)%Z -> (1 <= nFeatures)%Z ->
  (1 <= mTry_of PF PI ceil sqrt_ceil term nFeatures)%Z.
Proof.
  intros PF PI ceil sq term nF Hs Hn. unfold mTry_of. destruct (Z.leb_spec (ParseAsIntOrFractionOfTotal PF PI ceil term nF) 0); auto. lia.
Qed.
Theorem C96_leaf_size_partial : forall PF PI ceil term n boost ncats,
  (boost = false \/ 3 <= n)%Z -> (1 <= leafSize_of PF PI ceil term n boost ncats)%Z.
Proof.
  intros PF PI ceil term n boost ncats H. unfold leafSize_of. destruct (Z.leb_spec (ParseAsIntOrFractionOfTotal PF PI ceil term n) 0); [|lia].
  destruct boost.
  - destruct H as [H|H]; [discriminate|]. apply Z.div_le_lower_bound; lia.
  - destruct (ncats =? 0); lia.
Qed.
(** A positive size is taken as given; otherwise a boosted forest has leaves of a third of
    the cases, other forests of 4 cases for numbers and 1 for categories. *)
Theorem C96_leaf_size_default : forall PF PI ceil term n boost ncats,
  let asked := ParseAsIntOrFractionOfTotal PF PI ceil term n in
  ((0 < asked)%Z -> leafSize_of PF PI ceil term n boost ncats = asked) /\
  ((asked <= 0)%Z ->
     (boost = true -> let l := leafSize_of PF PI ceil term n boost ncats in (3 * l <= n < 3 * l + 3)%Z) /\
     (boost = false -> ncats = 0 -> leafSize_of PF PI ceil term n boost ncats = 4%Z) /\
     (boost = false -> ncats <> 0 -> leafSize_of PF PI ceil term n boost ncats = 1%Z)).
Proof.
  intros PF PI ceil term n boost ncats asked. unfold leafSize_of. fold asked. split; intros H; destruct (Z.leb_spec asked 0); try lia.
  repeat split; intros; subst; cbn zeta.
  - apply Z.mul_div_le. lia.
  - pose proof (Z.mul_succ_div_gt n 3). lia.
  - reflexivity.
  - destruct (Nat.eqb_spec ncats 0); [contradiction|reflexivity].
Qed.
(** Boosting on one or two cases asks for leaves of size 0, *)
Theorem C96_leaf_size_zero_refuted : forall PF PI ceil n ncats, (0 <= n < 3)%Z ->
  leafSize_of PF PI ceil "" n true ncats = 0%Z.
Proof. intros. unfold leafSize_of. cbn. apply Z.div_small. auto. Qed.
(** and with that size the search for a numerical split never returns one. *)
Theorem C96_zero_leaves_panic_refuted : forall A St T rnd f cases parentImp (al : allocs St) r,
  BestNumSplit A St T rnd f cases parentImp 0 false al = Ok r -> fConst r = true.
Proof.
  intros A St T rnd f cases pI al r H. unfold BestNumSplit in H. cbn [Nat.mul Nat.leb andb] in H.
  apply bind_ok in H. destruct H as (vals & _ & H). apply bind_ok in H. destruct H as ([cs vs] & _ & H).
  apply bind_ok in H. destruct H as (v0 & _ & H). apply bind_ok in H. destruct H as (vn & En & H).
  destruct (fleb vn (fadd v0 f1e_7)); [injection H as <-; auto|]. cbn [bind] in H.
  apply bind_ok in H. destruct H as ([[[[x1 x2] x3] x4] x5] & H & _).
  destruct cases as [|c cases].
  - cbn in En. discriminate.
  - cbn [length] in H. rewrite !Nat.sub_0_r in H. cbn [for_up] in H.
    apply bind_ok in H. destruct H as (s' & H & _). unfold num_step in H. apply bind_ok in H. destruct H as (v & _ & H). cbn in H. discriminate.
Qed.

(** ** C97 *)
Lemma firstn_snoc {A} (d : A) : forall (l : list A) i, i < length l -> firstn i l ++ [nth i l d] = firstn (S i) l.
Proof.
  induction l as [|b l IH]; intros [|i] Hi; cbn in Hi; try lia; auto.
  change (b :: (firstn i l ++ [nth i l d]) = b :: firstn (S i) l). rewrite IH by lia. auto.
Qed.
Section Ace.
  Variable n targeti : nat.
  Variable bl : list bool.
  Hypothesis HL : length bl = n.
  Hypothesis Ht : targeti < n.

  Definition ace_bl : list bool := upd (bl ++ bl) (targeti + n) true.
  Lemma ace_bl_length : length ace_bl = n + n.
  Proof. unfold ace_bl. rewrite upd_length, app_length. lia. Qed.
  Lemma ace_blacklist_ok : ace_blacklist n targeti bl = Ok ace_bl.
  Proof.
    unfold ace_blacklist.
    destruct (@for_up_total (list bool) (fun i s => s = bl ++ firstn i bl)
      (fun i s => let* b := get s i in Ok (s ++ [b])) n 0 bl) as (s & R & E).
    - intros i s Hi ->. rewrite get_nth_b by (rewrite app_length; lia). cbn [bind]. apply yields_ok.
      rewrite app_nth1 by lia. rewrite <- app_assoc. f_equal.
      apply firstn_snoc. lia.
    - rewrite firstn_O, app_nil_r. auto.
    - rewrite R. cbn [bind]. rewrite E. cbn [plus]. rewrite firstn_all2 by lia. rewrite set_ok by (rewrite app_length; lia). auto.
  Qed.
  (** Feature and contrast are marked alike, and the contrast of the target is marked. *)
  Lemma ace_bl_nth i : i < n + n -> nth i ace_bl false = (i =? targeti + n) || nth (if i <? n then i else i - n) bl false.
  Proof.
    intros Hi. unfold ace_bl. rewrite nth_upd_b by (rewrite app_length; lia).
    destruct (i =? targeti + n); auto. cbn [orb]. destruct (Nat.ltb_spec i n).
    - rewrite app_nth1 by lia. auto.
    - rewrite app_nth2 by lia. rewrite HL. auto.
  Qed.

  Section Select.
    Variable N : arith.
    Local Notation zero := (nofZ N 0).
    Variable ttest : list N -> list N -> N * N.
    Variable cutoff : N.
    Variable imps : list (list N).
    Hypothesis HI : length imps = n + n.
    (** The test a feature has to pass. *)
    Definition passes (i : nat) : bool :=
      let '(p, m) := ttest (nth i imps []) (nth (i + n) imps []) in nltb N p cutoff && nltb N zero m.
    Definition keeps (b : list bool) (i : nat) : bool := (i <? n) && negb (nth i b false) && passes i && negb (i =? targeti).

    Lemma ace_select_ok b0 : length b0 = n + n ->
      exists b1, ace_select N ttest cutoff n targeti imps b0 = Ok (b1, length (filter (keeps b0) (seq 0 (n + n))))
        /\ length b1 = n + n /\ forall i, i < n + n -> nth i b1 false = negb (keeps b0 i).
    Proof.
      clear HL Ht bl. intros H0. unfold ace_select. rewrite H0.
      match goal with |- context [for_up (n + n) 0 ?body _] =>
        destruct (@for_up_total (list bool * nat) (fun i '((b, c) : list bool * nat) => length b = n + n
          /\ c = length (filter (keeps b0) (seq 0 i))
          /\ forall j, j < n + n -> nth j b false = if j <? i then negb (keeps b0 j) else nth j b0 false) body (n + n) 0 (b0, 0)) as ([b1 c1] & R & E1 & E2 & E3)
      end.
      - intros i [b c] Hi (Hb & -> & Hn). assert (Hbi : nth i b false = nth i b0 false).
        { rewrite Hn by lia. rewrite Nat.ltb_irrefl. auto. }
        assert (Hcount : forall x, keeps b0 i = x -> length (filter (keeps b0) (seq 0 (S i))) = if x then length (filter (keeps b0) (seq 0 i)) + 1 else length (filter (keeps b0) (seq 0 i))).
        { intros x Hx. rewrite seq_S, filter_app, app_length. cbn [plus filter]. rewrite Hx. destruct x; cbn [length]; lia. }
        assert (Hupd : forall x, negb x = keeps b0 i -> forall j, j < n + n -> nth j (upd b i x) false = if j <? S i then negb (keeps b0 j) else nth j b0 false).
        { intros x Hx j Hj. rewrite nth_upd_b by lia. destruct (Nat.eqb_spec j i) as [->|Hne].
          - replace (i <? S i) with true by (symmetry; apply Nat.ltb_lt; lia). rewrite <- Hx, negb_involutive. auto.
          - rewrite Hn by lia. destruct (Nat.ltb_spec j i), (Nat.ltb_spec j (S i)); auto; lia. }
        destruct (Nat.ltb_spec i n) as [Hin|Hin].
        + rewrite get_nth_b by lia. cbn [bind]. rewrite Hbi. replace (n <=? i) with false by (symmetry; apply Nat.leb_gt; lia).
          destruct (nth i b0 false) eqn:Eb.
          * cbn [bind]. assert (K : keeps b0 i = false) by (unfold keeps; rewrite Eb; cbn; rewrite andb_false_r; auto).
            apply yields_ok. rewrite (Hcount _ K). split; auto. split; auto.
            intros j Hj. rewrite <- (@upd_same _ b i true); [|rewrite <- Hbi; apply nth_error_nth'; lia]. apply Hupd; auto.
          * destruct (nth_error imps i) as [X|] eqn:EX; [|apply nth_error_None in EX; lia].
            destruct (nth_error imps (i + n)) as [Y|] eqn:EY; [|apply nth_error_None in EY; lia].
            rewrite (get_nth _ _ EX), (get_nth _ _ EY). cbn [bind].
            assert (K : keeps b0 i = passes i && negb (i =? targeti)).
            { unfold keeps. rewrite Eb. replace (i <? n) with true by (symmetry; apply Nat.ltb_lt; lia). auto. }
            unfold passes in K. rewrite (nth_error_nth _ _ _ EX), (nth_error_nth _ _ _ EY) in K.
            destruct (ttest X Y) as [p m]. rewrite <- K.
            destruct (keeps b0 i) eqn:EK; rewrite set_ok by lia; cbn [bind]; apply yields_ok; rewrite upd_length, (Hcount _ eq_refl); split; auto.
        + replace (n <=? i) with true by (symmetry; apply Nat.leb_le; lia). cbn [bind]. rewrite set_ok by lia. cbn [bind].
          assert (K : keeps b0 i = false) by (unfold keeps; replace (i <? n) with false by (symmetry; apply Nat.ltb_ge; lia); auto).
          apply yields_ok. rewrite upd_length, (Hcount _ K). split; auto.
      - repeat split; auto.
      - rewrite R, E2. exists b1. split; auto. split; auto. intros i Hi. rewrite E3 by auto. cbn [plus].
        replace (i <? n + n) with true by (symmetry; apply Nat.ltb_lt; lia). auto.
    Qed.
  End Select.
End Ace.

Section AceMain.
  Variable N : arith.
  Local Notation zero := (nofZ N 0).
  Variable ttest : list N -> list N -> N * N.
  Variable forest : nat -> list bool -> list (N * N).
  Variable mtry : nat -> Z.
  Variables n targeti ace nTrees : nat.
  Variable bl : list bool.
  Variable mTry0 : Z.
  Hypothesis HL : length bl = n.
  Hypothesis Ht : targeti < n.
  Hypothesis Hf : forall k b, length (forest k b) = n + n.

  (** What forest [k], grown with the marks of the ACE forests, says about feature [i]:
      the sum of its impurity decreases divided by the number of trees. *)
  Definition score (k i : nat) : N :=
    let '(mean, count) := nth i (forest k (ace_bl n targeti bl)) (zero, zero) in
    ndiv N (nmul N mean count) (nofZ N (Z.of_nat nTrees)).
  Definition row (f i : nat) : list N := map (fun k => if k <? f then score k i else zero) (seq 0 ace).
  Definition rows (f : nat) : list (list N) := map (row f) (seq 0 (n + n)).
  (** All scores of a feature, one for each forest. *)
  Definition scores (i : nat) : list N := map (fun k => score k i) (seq 0 ace).

  Lemma nth_error_map_seq {A} (g : nat -> A) m i : i < m -> nth_error (map g (seq 0 m)) i = Some (g i).
  Proof.
    intros H. rewrite nth_error_map. rewrite (nth_error_nth' (seq 0 m) 0) by (rewrite seq_length; auto).
    rewrite seq_nth by auto. auto.
  Qed.
  Lemma rows_length f : length (rows f) = n + n.
  Proof. unfold rows. rewrite map_length, seq_length. auto. Qed.
  Lemma rows_all f : ace <= f -> rows f = map scores (seq 0 (n + n)).
  Proof.
    intros H. apply map_ext. intros i. apply map_ext_in. intros k Hk. apply in_seq in Hk.
    replace (k <? f) with true by (symmetry; apply Nat.ltb_lt; lia). auto.
  Qed.

  Lemma row_set f i : f < ace -> set (row f i) f (score f i) = Ok (row (S f) i).
  Proof.
    intros H. unfold row. rewrite set_ok by (rewrite map_length, seq_length; auto). f_equal.
    apply nth_error_ext'. intros k. destruct (Nat.lt_ge_cases k ace) as [Hk|Hk].
    - rewrite (nth_error_map_seq _ ace k Hk). destruct (Nat.eq_dec k f) as [->|Hne].
      + rewrite nth_error_upd_eq by (rewrite map_length, seq_length; auto).
        replace (f <? S f) with true by (symmetry; apply Nat.ltb_lt; lia). auto.
      + rewrite nth_error_upd_neq by auto. rewrite (nth_error_map_seq _ ace k Hk).
        destruct (Nat.ltb_spec k f), (Nat.ltb_spec k (S f)); auto; lia.
    - rewrite !(proj2 (nth_error_None _ _)); auto; rewrite ?upd_length, map_length, seq_length; lia.
  Qed.

  Lemma ace_record_ok f : f < ace ->
    ace_record N nTrees f (forest f (ace_bl n targeti bl)) (rows f) = Ok (rows (S f)).
  Proof.
    intros H. unfold ace_record. rewrite rows_length.
    match goal with |- for_up (n + n) 0 ?body _ = _ =>
      destruct (@for_up_total (list (list N)) (fun i s => length s = n + n
        /\ forall j, j < n + n -> nth_error s j = Some (if j <? i then row (S f) j else row f j)) body (n + n) 0 (rows f)) as (s & R & E1 & E2)
    end.
    - intros i s Hi (Hs & Hn).
      assert (Hg : get (forest f (ace_bl n targeti bl)) i = Ok (nth i (forest f (ace_bl n targeti bl)) (zero, zero))).
      { apply get_nth, nth_error_nth'. rewrite Hf. lia. }
      rewrite Hg. pose proof (eq_refl (score f i)) as Es. unfold score at 1 in Es.
      destruct (nth i (forest f (ace_bl n targeti bl)) (zero, zero)) as [mean count]. cbn [bind].
      assert (Hsi : nth_error s i = Some (row f i)).
      { rewrite Hn by lia. rewrite Nat.ltb_irrefl. auto. }
      rewrite (get_nth _ _ Hsi). cbn [bind]. rewrite Es, row_set by auto. cbn [bind]. rewrite set_ok by lia. apply yields_ok.
      rewrite upd_length. split; auto. intros j Hj. destruct (Nat.eq_dec j i) as [->|Hne].
      + rewrite nth_error_upd_eq by lia. replace (i <? S i) with true by (symmetry; apply Nat.ltb_lt; lia). auto.
      + rewrite nth_error_upd_neq by auto. rewrite Hn by auto. destruct (Nat.ltb_spec j i), (Nat.ltb_spec j (S i)); auto; lia.
    - split; [apply rows_length|]. intros j Hj. cbn [Nat.ltb Nat.leb]. unfold rows. apply nth_error_map_seq. auto.
    - rewrite R. f_equal. apply nth_error_ext'. intros j. destruct (Nat.lt_ge_cases j (n + n)) as [Hj|Hj].
      + rewrite E2 by auto. unfold rows. rewrite nth_error_map_seq by auto. replace (j <? 0 + (n + n)) with true by (symmetry; apply Nat.ltb_lt; lia). auto.
      + rewrite !(proj2 (nth_error_None _ _)); auto; rewrite ?rows_length; lia.
  Qed.

  Lemma rows_0 : rows 0 = repeat (repeat zero ace) (n + n).
  Proof.
    assert (Hr : forall m (x : nat -> list N) y k, (forall i, x i = y) -> map x (seq k m) = repeat y m).
    { induction m; intros x y k E; cbn; auto. rewrite E, (IHm x y); auto. }
    apply Hr. intros i. unfold row. clear. generalize 0 at 2. induction ace as [|a IH]; intros k; cbn; auto. rewrite IH. auto.
  Qed.

  (** The candidates of the ACE forests. *)
  Definition ace_cans : list nat := filter (chosen targeti (ace_bl n targeti bl)) (seq 0 (n + n)).
  Lemma ace_cans_ok : candidates_of (n + n) targeti (ace_bl n targeti bl) = Ok ace_cans.
  Proof. apply candidates_of_ok. rewrite ace_bl_length by auto. auto. Qed.

  Section Run.
    Variable cutoff : N.
    Let nForest := if nltb N zero cutoff then ace + 1 else ace.
    Let eq0 := nleb N cutoff zero && nleb N zero cutoff.
    Let start := mkAce (ace_bl n targeti bl) (rows 0) mTry0 [].

    (** The forests before the last one. *)
    Lemma ace_forest_recording f : f < ace -> eq0 = true \/ f + 1 < nForest -> nltb N zero cutoff = false \/ f + 1 < ace ->
      ace_forest N ttest forest mtry cutoff nForest nTrees n targeti (n + n) f
        (mkAce (ace_bl n targeti bl) (rows f) mTry0 (repeat (ace_cans, mTry0) f))
      = Ok (mkAce (ace_bl n targeti bl) (rows (S f)) mTry0 (repeat (ace_cans, mTry0) (S f))).
    Proof.
      intros H1 H2 H3. unfold ace_forest. cbn [aBl aTrace aTry aImps]. rewrite ace_cans_ok. cbn [bind].
      fold eq0. replace (eq0 || (f + 1 <? nForest)) with true.
      2:{ symmetry. destruct H2 as [->|H2]; auto. apply orb_true_iff. right. apply Nat.ltb_lt. auto. }
      rewrite ace_record_ok by auto. cbn [bind].
      replace (nltb N zero cutoff && (f + 2 =? nForest)) with false.
      2:{ symmetry. unfold nForest. destruct (nltb N zero cutoff); auto. destruct H3 as [H3|H3]; [discriminate|].
          cbn [andb]. apply Nat.eqb_neq. lia. }
      rewrite <- repeat_cons. auto.
    Qed.
    Lemma ace_forests_recording m : m <= ace -> (forall f, f < m -> eq0 = true \/ f + 1 < nForest) ->
      (forall f, f < m -> nltb N zero cutoff = false \/ f + 1 < ace) ->
      for_up m 0 (ace_forest N ttest forest mtry cutoff nForest nTrees n targeti (n + n)) start
      = Ok (mkAce (ace_bl n targeti bl) (rows m) mTry0 (repeat (ace_cans, mTry0) m)).
    Proof.
      intros H1 H2 H3.
      destruct (@for_up_total (ace_state N) (fun f s => s = mkAce (ace_bl n targeti bl) (rows f) mTry0 (repeat (ace_cans, mTry0) f))
        (ace_forest N ttest forest mtry cutoff nForest nTrees n targeti (n + n)) m 0 start) as (s & R & E).
      - intros f s Hfm ->. rewrite ace_forest_recording; [apply yields_ok; auto|lia|apply H2; lia|apply H3; lia].
      - auto.
      - rewrite R, E. auto.
    Qed.
  End Run.

  Lemma for_up_app {St} (body : nat -> St -> res St) : forall a b lo s,
    for_up (a + b) lo body s = (let* s := for_up a lo body s in for_up b (lo + a) body s).
  Proof.
    induction a as [|a IH]; intros b lo s; cbn [plus for_up].
    - rewrite Nat.add_0_r. auto.
    - destruct (body lo s); cbn [bind]; auto. rewrite IH. rewrite <- plus_n_Sm. auto.
  Qed.

  Lemma for_up_app' {St} (body : nat -> St -> res St) a b m lo s : m = a + b ->
    for_up m lo body s = (let* s := for_up a lo body s in for_up b (lo + a) body s).
  Proof. intros ->. apply for_up_app. Qed.

  Lemma ace_main_start cutoff : ace_main N ttest forest mtry cutoff ace nTrees targeti bl mTry0 =
    for_up (if nltb N zero cutoff then ace + 1 else ace) 0
      (ace_forest N ttest forest mtry cutoff (if nltb N zero cutoff then ace + 1 else ace) nTrees n targeti (n + n))
      (mkAce (ace_bl n targeti bl) (rows 0) mTry0 []).
  Proof. unfold ace_main. rewrite HL, ace_blacklist_ok by auto. cbn [bind]. rewrite rows_0. auto. Qed.

  (** Without a cutoff. *)
  Lemma ace_main_all cutoff : nleb N cutoff zero && nleb N zero cutoff = true -> nltb N zero cutoff = false ->
    ace_main N ttest forest mtry cutoff ace nTrees targeti bl mTry0
    = Ok (mkAce (ace_bl n targeti bl) (map scores (seq 0 (n + n))) mTry0 (repeat (ace_cans, mTry0) ace)).
  Proof.
    intros H1 H2. rewrite ace_main_start.
    pose proof (ace_forests_recording cutoff ace (le_n _)) as R. rewrite H2 in *. rewrite R; auto.
    - f_equal. rewrite rows_all by auto. auto.
  Qed.

  (** With a positive cutoff. *)
  Lemma ace_main_cutoff cutoff : nleb N cutoff zero = false -> nltb N zero cutoff = true -> 1 <= ace ->
    exists b cans, ace_main N ttest forest mtry cutoff ace nTrees targeti bl mTry0
      = Ok (mkAce b (map scores (seq 0 (n + n))) (mtry (length cans)) (repeat (ace_cans, mTry0) ace ++ [(cans, mtry (length cans))]))
      /\ cans = filter (keeps n targeti N ttest cutoff (map scores (seq 0 (n + n))) (ace_bl n targeti bl)) (seq 0 (n + n)).
  Proof.
    intros H1 H2 Ha. rewrite ace_main_start.
    pose proof (ace_forests_recording cutoff (ace - 1)) as R. rewrite H2 in *.
    rewrite (for_up_app' _ (ace - 1) 2 (ace + 1)) by lia.
    rewrite R; [|lia|intros; right; lia|intros; right; lia].
    cbn [bind plus]. cbn [for_up].
    assert (E0 : nleb N cutoff zero && nleb N zero cutoff = false) by (rewrite H1; auto).
    set (imps := map scores (seq 0 (n + n))) in *.
    destruct (ace_select_ok n targeti N ttest cutoff imps) with (b0 := ace_bl n targeti bl) as (b1 & R1 & L1 & N1).
    { unfold imps. rewrite map_length, seq_length. auto. }
    { apply ace_bl_length; auto. }
    assert (R2 : ace_forest N ttest forest mtry cutoff (ace + 1) nTrees n targeti (n + n) (ace - 1)
        (mkAce (ace_bl n targeti bl) (rows (ace - 1)) mTry0 (repeat (ace_cans, mTry0) (ace - 1)))
      = Ok (mkAce b1 imps (mtry (length (filter (keeps n targeti N ttest cutoff imps (ace_bl n targeti bl)) (seq 0 (n + n)))))
             (repeat (ace_cans, mTry0) ace))).
    { unfold ace_forest. cbn [aBl aTrace aTry aImps]. rewrite ace_cans_ok. cbn [bind]. rewrite E0.
      replace (ace - 1 + 1 <? ace + 1) with true by (symmetry; apply Nat.ltb_lt; lia). cbn [orb].
      rewrite ace_record_ok by lia. cbn [bind]. rewrite H2. replace (ace - 1 + 2 =? ace + 1) with true by (symmetry; apply Nat.eqb_eq; lia).
      cbn [andb]. rewrite rows_all by lia. fold imps. rewrite R1. cbn [bind].
      rewrite <- repeat_cons. change ((ace_cans, mTry0) :: repeat (ace_cans, mTry0) (ace - 1)) with (repeat (ace_cans, mTry0) (S (ace - 1))). replace (S (ace - 1)) with ace by lia. auto. }
    rewrite R2. cbn [bind]. replace (S (ace - 1)) with ace by lia.
    unfold ace_forest. cbn [aBl aTrace aTry aImps]. rewrite candidates_of_ok by lia. cbn [bind]. rewrite E0.
    replace (ace + 1 <? ace + 1) with false by (symmetry; apply Nat.ltb_irrefl). cbn [orb bind].
    assert (EF : filter (chosen targeti b1) (seq 0 (n + n)) = filter (keeps n targeti N ttest cutoff imps (ace_bl n targeti bl)) (seq 0 (n + n))).
    { apply filter_ext_in. intros i Hi. apply in_seq in Hi. unfold chosen. rewrite N1 by lia. rewrite negb_involutive.
      destruct (Nat.eqb_spec i targeti) as [->|]; auto. unfold keeps. rewrite Nat.eqb_refl. cbn. rewrite !andb_false_r. auto. }
    rewrite EF. eexists. eexists. split; [reflexivity|auto].
  Qed.
End AceMain.

(** Every ACE forest is grown from the features that may be used and their contrasts,
    without the target and its contrast. *)
Definition may_use (bl : list bool) (targeti i : nat) : Prop := i < length bl /\ i <> targeti /\ nth_error bl i = Some false.

Lemma ace_cans_In n targeti bl i : length bl = n -> targeti < n ->
  (In i (ace_cans n targeti bl) <-> may_use bl targeti i \/ (n <= i /\ may_use bl targeti (i - n))).
Proof.
  intros HL Ht. unfold ace_cans. rewrite filter_In, in_seq. unfold chosen.
  assert (Hnb : forall j, j < n -> (nth_error bl j = Some false <-> nth j bl false = false)).
  { intros j Hj. split; intros H.
    - apply nth_error_nth with (d := false) in H. auto.
    - rewrite <- H. apply nth_error_nth'. lia. }
  split.
  - intros [Hi Hc]. rewrite (ace_bl_nth n targeti bl HL Ht) in Hc by lia. apply andb_true_iff in Hc. destruct Hc as [H1 H2].
    apply negb_true_iff in H1, H2. apply orb_false_iff in H2. destruct H2 as [H2 H3]. apply Nat.eqb_neq in H1, H2.
    destruct (Nat.ltb_spec i n).
    + left. repeat split; auto; [lia|]. apply Hnb; auto.
    + right. split; auto. repeat split; try lia. apply Hnb; auto. lia.
  - intros [(H1 & H2 & H3)|(H0 & H1 & H2 & H3)].
    + split; [lia|]. rewrite (ace_bl_nth n targeti bl HL Ht) by lia. apply Hnb in H3; [|lia].
      replace (i =? targeti) with false by (symmetry; apply Nat.eqb_neq; lia).
      replace (i =? targeti + n) with false by (symmetry; apply Nat.eqb_neq; lia).
      replace (i <? n) with true by (symmetry; apply Nat.ltb_lt; lia). rewrite H3. auto.
    + split; [lia|]. rewrite (ace_bl_nth n targeti bl HL Ht) by lia. apply Hnb in H3; [|lia].
      replace (i =? targeti) with false by (symmetry; apply Nat.eqb_neq; lia).
      replace (i =? targeti + n) with false by (symmetry; apply Nat.eqb_neq; lia).
      replace (i <? n) with false by (symmetry; apply Nat.ltb_ge; lia). rewrite H3. auto.
Qed.

(** With a positive cutoff the last forest is grown from exactly the features that may be
    used and whose scores in the ACE forests pass the test against their contrasts. *)
Theorem C97_selection : forall (ttest : list f64 -> list f64 -> f64 * f64) forest mtry cutoff ace nTrees targeti bl mTry,
  targeti < length bl -> 1 <= ace -> fltb f0 cutoff = true ->
  (forall k b, length (forest k b) = length bl + length bl) ->
  let n := length bl in
  let imp := fun i => scores F64 forest n targeti ace nTrees bl i in
  exists s cans1 cans2,
    ace_main F64 ttest forest mtry cutoff ace nTrees targeti bl mTry = Ok s
    /\ aTrace s = repeat (cans1, mTry) ace ++ [(cans2, mtry (length cans2))]
    /\ (forall i, In i cans1 <-> may_use bl targeti i \/ (n <= i /\ may_use bl targeti (i - n)))
    /\ NoDup cans2
    /\ (forall i, In i cans2 <-> may_use bl targeti i
          /\ fltb (fst (ttest (imp i) (imp (i + n)))) cutoff = true /\ fltb f0 (snd (ttest (imp i) (imp (i + n)))) = true).
Proof.
  intros ttest forest mtry cutoff ace nTrees targeti bl mTry Ht Ha Hc Hf n imp.
  assert (Hle : fleb cutoff f0 = false).
  { destruct (fleb cutoff f0) eqn:E; auto. pose proof (flt_le_trans _ _ _ Hc E) as X. rewrite flt_irrefl in X. discriminate. }
  destruct (ace_main_cutoff F64 ttest forest mtry n targeti ace nTrees bl mTry eq_refl Ht Hf cutoff Hle Hc Ha) as (b & cans & R & Ec).
  eexists. exists (ace_cans n targeti bl), cans. split; [exact R|]. split; [reflexivity|].
  split; [intros i; apply ace_cans_In; auto|]. split.
  { rewrite Ec. apply NoDup_filter, seq_NoDup. }
  intros i. rewrite Ec, filter_In, in_seq. unfold keeps, passes.
  set (imps := map (scores F64 forest n targeti ace nTrees bl) (seq 0 (n + n))).
  assert (Hn : forall j, j < n + n -> nth j imps [] = imp j).
  { intros j Hj. apply nth_error_nth. unfold imps. apply nth_error_map_seq. auto. }
  assert (Hnb : forall j, j < n -> (nth_error bl j = Some false <-> nth j bl false = false)).
  { intros j Hj. split; intros H.
    - apply nth_error_nth with (d := false) in H. auto.
    - rewrite <- H. apply nth_error_nth'. auto. }
  unfold may_use. fold n. split.
  - intros [Hi H]. rewrite !andb_true_iff, !negb_true_iff in H. destruct H as (((H1 & H2) & H3) & H4).
    apply Nat.ltb_lt in H1. rewrite (ace_bl_nth n targeti bl eq_refl Ht) in H2 by lia. apply orb_false_iff in H2. destruct H2 as [_ H2].
    replace (i <? n) with true in H2 by (symmetry; apply Nat.ltb_lt; lia). apply Nat.eqb_neq in H4.
    rewrite !Hn in H3 by lia. destruct (ttest (imp i) (imp (i + n))) as [p m]. apply andb_true_iff in H3. destruct H3 as [H3 H5].
    cbn [fst snd]. repeat split; auto. apply Hnb; auto.
  - intros ((H1 & H2 & H3) & H4 & H5). split; [lia|].
    rewrite (ace_bl_nth n targeti bl eq_refl Ht) by lia. apply Hnb in H3; auto.
    replace (i =? targeti + n) with false by (symmetry; apply Nat.eqb_neq; lia).
    replace (i <? n) with true by (symmetry; apply Nat.ltb_lt; lia). rewrite H3. cbn [orb negb andb].
    rewrite !Hn by lia. destruct (ttest (imp i) (imp (i + n))) as [p m]. cbn [fst snd] in *.
    rewrite (H4 : nltb F64 p cutoff = true), (H5 : nltb F64 (nofZ F64 0) m = true). cbn [andb].
    apply negb_true_iff, Nat.eqb_neq. auto.
Qed.

(** Without a cutoff all forests are grown from features and contrasts, and the score of
    every feature in every forest is recorded. *)
Theorem C97_all_recorded : forall (ttest : list f64 -> list f64 -> f64 * f64) forest mtry ace nTrees targeti bl mTry,
  targeti < length bl -> (forall k b, length (forest k b) = length bl + length bl) ->
  let n := length bl in
  exists s cans, ace_main F64 ttest forest mtry f0 ace nTrees targeti bl mTry = Ok s
    /\ aTrace s = repeat (cans, mTry) ace
    /\ (forall i, In i cans <-> may_use bl targeti i \/ (n <= i /\ may_use bl targeti (i - n)))
    /\ length (aImps s) = n + n
    /\ forall i k, i < n + n -> k < ace -> exists row mean count,
         nth_error (aImps s) i = Some row /\ length row = ace
         /\ nth_error (forest k (aBl s)) i = Some (mean, count)
         /\ nth_error row k = Some (fdiv (fmul mean count) (f_of_Z (Z.of_nat nTrees))).
Proof.
  intros ttest forest mtry ace nTrees targeti bl mTry Ht Hf n.
  pose proof (ace_main_all F64 ttest forest mtry n targeti ace nTrees bl mTry eq_refl Ht Hf f0 eq_refl eq_refl) as R.
  eexists. exists (ace_cans n targeti bl). split; [exact R|]. cbn [aTrace aImps aBl]. split; auto.
  split; [intros i; apply ace_cans_In; auto|]. split; [rewrite map_length, seq_length; auto|].
  intros i k Hi Hk. destruct (nth_error (forest k (ace_bl n targeti bl)) i) as [[mean count]|] eqn:E.
  2:{ apply nth_error_None in E. rewrite Hf in E. lia. }
  exists (scores F64 forest n targeti ace nTrees bl i), mean, count. split; [apply nth_error_map_seq; auto|].
  split; [unfold scores; rewrite map_length, seq_length; auto|]. split; auto.
  unfold scores. rewrite nth_error_map_seq by auto. unfold score. rewrite (nth_error_nth _ _ _ E). auto.
Qed.

(** A negative cutoff loses the scores of the last forest: its column stays 0. *)
Theorem C97_negative_cutoff_refuted : forall (ttest : list f64 -> list f64 -> f64 * f64) forest mtry cutoff ace nTrees targeti bl mTry,
  fltb cutoff f0 = true -> 1 <= ace ->
  targeti < length bl -> (forall k b, length (forest k b) = length bl + length bl) ->
  exists s, ace_main F64 ttest forest mtry cutoff ace nTrees targeti bl mTry = Ok s
    /\ forall i, i < length bl + length bl -> exists row, nth_error (aImps s) i = Some row
         /\ nth_error row (ace - 1) = Some f0.
Proof.
  intros ttest forest mtry cutoff ace nTrees targeti bl mTry Hc Ha Ht Hf. set (n := length bl) in *.
  assert (Hlt : fltb f0 cutoff = false).
  { destruct (fltb f0 cutoff) eqn:E; auto. pose proof (flt_trans _ _ _ Hc E) as X. rewrite flt_irrefl in X. discriminate. }
  assert (Hle : fleb f0 cutoff = false).
  { destruct (fleb f0 cutoff) eqn:E; auto. pose proof (flt_le_trans _ _ _ Hc E) as X. rewrite flt_irrefl in X. discriminate. }
  rewrite (ace_main_start F64 ttest forest mtry n targeti ace nTrees bl mTry eq_refl Ht cutoff).
  change (nltb F64 (nofZ F64 0) cutoff) with (fltb f0 cutoff). rewrite Hlt.
  pose proof (ace_forests_recording F64 ttest forest mtry n targeti ace nTrees bl mTry eq_refl Ht Hf cutoff (ace - 1)) as R.
  change (nltb F64 (nofZ F64 0) cutoff) with (fltb f0 cutoff) in R. rewrite Hlt in R.
  rewrite (for_up_app' _ (ace - 1) 1 ace) by lia. rewrite R; [|lia|intros; right; lia|intros; left; auto].
  cbn [bind for_up plus]. unfold ace_forest. cbn [aBl aTrace aTry aImps]. rewrite ace_cans_ok by auto. cbn [bind].
  change (nleb F64 cutoff (nofZ F64 0) && nleb F64 (nofZ F64 0) cutoff) with (fleb cutoff f0 && fleb f0 cutoff). rewrite Hle, andb_false_r.
  replace (ace - 1 + 1 <? ace) with false by (symmetry; apply Nat.ltb_ge; lia). cbn [orb bind].
  eexists. split; [reflexivity|]. cbn [aImps]. intros i Hi. eexists. split; [apply nth_error_map_seq; exact Hi|].
  unfold row. rewrite nth_error_map_seq by lia. rewrite Nat.ltb_irrefl. auto.
Qed.

(** *** One ACE forest *)
Lemma fdiv_nan_r x : fdiv x S754_nan = S754_nan.
Proof. destruct x; auto. Qed.
Lemma fdiv_nan_l x : fdiv S754_nan x = S754_nan.
Proof. destruct x; auto. Qed.
Lemma fmul_nan_l x : fmul S754_nan x = S754_nan.
Proof. destruct x; auto. Qed.
Lemma fsub_nan_r x : fsub x S754_nan = S754_nan.
Proof. destruct x; auto. Qed.
Definition huge (x : f64) : Prop := x = S754_nan \/ exists s, x = S754_infinity s.
Lemma huge_div0 x : huge (fdiv x f0).
Proof. destruct x as [s|s| |s m e]; unfold huge; cbn; eauto. Qed.
Lemma huge_div1 x : huge x -> huge (fdiv x (f_of_Z 1)).
Proof. intros [->|[s ->]]; unfold huge; cbn; eauto. Qed.
Lemma huge_add x y : huge x -> huge y -> huge (fadd x y).
Proof. intros [->|[[|] ->]] [->|[[|] ->]]; unfold huge; cbn; eauto. Qed.
(** The square of such a number is infinite or not a number. *)
Lemma huge_sqr x : huge x -> fmul x x = S754_nan \/ fmul x x = S754_infinity false.
Proof. intros [->|[[|] ->]]; cbn; auto. Qed.

Lemma Ttest_single_nan sqrt exp lgamma pow x y :
  exists t v m, Ttest F64 sqrt exp lgamma pow [x] [y] = (S754_nan, t, v, m).
Proof.
  unfold Ttest, MeanAndVar. cbn [fold_left length]. cbv zeta.
  change (nofZ F64 (Z.of_nat 1)) with (f_of_Z 1).
  change (nsub F64 (f_of_Z 1) (nofZ F64 1)) with f0.
  match goal with |- context [ndiv F64 ?d f0] => set (dx := d) end.
  set (Av := ndiv F64 (ndiv F64 dx f0) (f_of_Z 1)).
  assert (HA : huge Av) by (apply huge_div1, huge_div0). clearbody Av.
  match goal with |- context [ndiv F64 (ndiv F64 ?d f0) (f_of_Z 1)] => set (dy := d) end.
  set (Bv := ndiv F64 (ndiv F64 dy f0) (f_of_Z 1)).
  assert (HB : huge Bv) by (apply huge_div1, huge_div0). clearbody Bv.
  set (s := nadd F64 Av Bv). assert (HS : huge s) by (apply huge_add; auto). clearbody s.
  match goal with |- context [ndiv F64 (nmul F64 s s) ?d] => assert (Ev : ndiv F64 (nmul F64 s s) d = S754_nan) end.
  { change (fdiv (fmul s s) (fadd (fdiv (fmul Av Av) f0) (fdiv (fmul Bv Bv) f0)) = S754_nan).
    destruct (huge_sqr _ HS) as [-> | ->]; [apply fdiv_nan_l|].
    destruct (huge_sqr _ HA) as [-> | ->], (huge_sqr _ HB) as [-> | ->]; reflexivity. }
  rewrite Ev.
  assert (Et : forall z, ndiv F64 S754_nan z = S754_nan) by (intros z; apply fdiv_nan_l). rewrite Et.
  assert (Etail : tail F64 exp lgamma pow S754_nan S754_nan = S754_nan).
  { unfold tail. change (nltb F64 (nine_tenths F64) S754_nan) with false. cbv iota.
    unfold regularizedIncompleteBeta. rewrite Et.
    apply fdiv_nan_r. }
  rewrite Etail, !Et. do 3 eexists.
  match goal with |- (if ?c then _ else _, _, _, _) = _ => destruct c end; reflexivity.
Qed.

(** With a single ACE forest no feature is ever selected, whatever the scores. *)
Theorem C97_single_forest_refuted : forall sqrt exp lgamma pow forest mtry cutoff nTrees targeti bl mTry,
  targeti < length bl -> fltb f0 cutoff = true ->
  (forall k b, length (forest k b) = length bl + length bl) ->
  let ttest := fun X Y => let '(p, _, _, m) := Ttest F64 sqrt exp lgamma pow X Y in (p, m) in
  exists s cans1, ace_main F64 ttest forest mtry cutoff 1 nTrees targeti bl mTry = Ok s
    /\ aTrace s = [(cans1, mTry); ([], mtry 0)].
Proof.
  intros sqrt exp lgamma pow forest mtry cutoff nTrees targeti bl mTry Ht Hc Hf ttest.
  destruct (C97_selection ttest forest mtry cutoff 1 nTrees targeti bl mTry Ht (le_n _) Hc Hf) as (s & c1 & c2 & R & Tr & _ & _ & H2).
  exists s, c1. split; auto. rewrite Tr. destruct c2 as [|i c2]; auto. exfalso.
  destruct (proj1 (H2 i) (or_introl eq_refl)) as (_ & Hp & _). unfold ttest, scores in Hp. cbn [seq map] in Hp.
  match type of Hp with context [Ttest _ _ _ _ _ [?x] [?y]] => destruct (Ttest_single_nan sqrt exp lgamma pow x y) as (t & v & m & E) end.
  rewrite E in Hp. cbn [fst] in Hp. unfold fltb in Hp. cbn in Hp. discriminate.
Qed.

(** ** Examples *)
Definition ex_matrix : fmatrix :=
  mkFM [newNum "N:a"; newNum "N:b"; newCat "C:t"; newNum "N:c"]
       [("N:c", 3); ("C:t", 2); ("N:b", 1); ("N:a", 0)] [].
Lemma ex_names : names_ok ex_matrix.
Proof.
  split; cbn [fmMap fmData ex_matrix].
  - intros name k H. cbn [assoc] in H.
    destruct (String.eqb_spec name "N:c") as [->|]; [injection H as <-; eexists; split; reflexivity|].
    destruct (String.eqb_spec name "C:t") as [->|]; [injection H as <-; eexists; split; reflexivity|].
    destruct (String.eqb_spec name "N:b") as [->|]; [injection H as <-; eexists; split; reflexivity|].
    destruct (String.eqb_spec name "N:a") as [->|]; [injection H as <-; eexists; split; reflexivity|].
    discriminate.
  - intros f [<-|[<-|[<-|[<-|[]]]]]; cbn; eauto.
Qed.
(** N:b is on the list, nothing named "N:c" is included: one candidate of one. *)
Example C96_example :
  let inc := Some (fun s => negb (s =? "N:c")%string) in
  select_features (fmMap ex_matrix) (fmData ex_matrix) ["N:b"; "N:x"; "N:b"] "C:t" None inc
    = Ok (Some (2, [false; true; false; true], 1%Z))
  /\ candidates_of 4 2 [false; true; false; true] = Ok [0]
  /\ asked_for ex_matrix ["N:b"; "N:x"; "N:b"] None inc 2 0
  /\ ~ listed ex_matrix ["N:b"; "N:x"; "N:b"] 2.
Proof.
  cbv zeta. split; [vm_compute; reflexivity|]. split; [vm_compute; reflexivity|].
  assert (NL : forall i, i <> 1 -> ~ listed ex_matrix ["N:b"; "N:x"; "N:b"] i).
  { intros i Hi (id & Hin & Ha). destruct Hin as [<-|[<-|[<-|[]]]]; cbn in Ha; congruence. }
  split; [|apply NL; lia]. split; [lia|]. split; [apply NL; lia|].
  eexists. split; [reflexivity|]. split; [discriminate|]. intros re E. injection E as <-. reflexivity.
Qed.
(** With the target on the list there are three candidates but nFeatures is 2; with the
    other features on it too, one candidate and nFeatures is 0, so mTry is 0 as well. *)
Example C96_listed_example :
  select_features (fmMap ex_matrix) (fmData ex_matrix) ["C:t"] "C:t" None None = Ok (Some (2, [false; false; true; false], 2%Z))
  /\ candidates_of 4 2 [false; false; true; false] = Ok [0; 1; 3]
  /\ select_features (fmMap ex_matrix) (fmData ex_matrix) ["C:t"; "N:a"; "N:b"] "C:t" None None = Ok (Some (2, [true; true; true; false], 0%Z))
  /\ candidates_of 4 2 [true; true; true; false] = Ok [3]
  /\ mTry_of (fun _ => None) (fun _ => None) (fun _ => 0%Z) Z.sqrt_up "" 0 = 0%Z.
Proof. repeat split; vm_compute; reflexivity. Qed.
(** Two ACE forests on three features, the last of which is the target; feature 0
    beats its contrast (feature 3) and feature 1 does not. *)
Example C97_example :
  let sc x := (x, f1) in
  let forest := fun _ (_ : list bool) => map sc [f2; f0; f0; f0; f1; f0] in
  let ttest := fun X Y : list f64 => (if fltb (nth 0 Y f0) (nth 0 X f0) then f0 else f1, nth 0 X f0) in
  match ace_main F64 ttest forest Z.of_nat f1 2 1 2 [false; false; false] 7 with
  | Ok s => (aBl s = [false; true; true; true; true; true])
            /\ (aImps s : list (list f64)) = [[f2; f2]; [f0; f0]; [f0; f0]; [f0; f0]; [f1; f1]; [f0; f0]]
            /\ aTrace s = [([0; 1; 3; 4], 7%Z); ([0; 1; 3; 4], 7%Z); ([0], 1%Z)]
  | _ => False
  end.
Proof. cbv zeta. vm_compute. auto. Qed.

Print Assumptions C96_candidates.
Print Assumptions C96_feature_count_partial.
Print Assumptions C96_listed_target_refuted.
Print Assumptions C96_mtry_positive.
Print Assumptions C96_leaf_size_partial.
Print Assumptions C96_leaf_size_default.
Print Assumptions C96_leaf_size_zero_refuted.
Print Assumptions C96_zero_leaves_panic_refuted.
Print Assumptions C97_selection.
Print Assumptions C97_all_recorded.
Print Assumptions C97_negative_cutoff_refuted.
Print Assumptions C97_single_forest_refuted.
