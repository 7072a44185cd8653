(** Properties C100 and C101: what applyforest predicts, and vetting. *)
From Verif Require Import Go GoLemmas F64 F64Order Exact ModelFeature FeatureSpec FeatureProofs ModelSort ModelSearch ModelText ModelMatrix
  ModelBallot BallotSpec BallotProofs PropBallot ModelGrow SearchSpec ModelCommands PropCommands2.
From Coq Require Import Reals Lra.
Local Open Scope string_scope.
Local Open Scope nat_scope.
Local Open Scope list_scope.


(** ** C100.  applyforest.  The claim in full: the prediction applyforest writes for a case
    is the one of the forest it read: the intercept of the forest plus the weighted sum of
    the trees' predictions when the forest has an intercept (it was boosted), and the
    weighted mean or plurality otherwise. *)
Section Applied.
  Variable N : arith.
  Variable PF : string -> option N.
  Variable Expit : N -> N.

  Lemma box_votes_sum votes : forall b,
    box_votes N PF (BSum b) votes = let* b := scast N PF votes b in Ok (BSum b).
  Proof.
    unfold box_votes, scast. induction votes as [|[[c p] w] votes IH]; intros b; cbn [foreach bind]; auto.
    cbn [box_vote]. destruct (sumVote N PF b c p w); cbn [bind]; auto.
  Qed.
  Lemma box_votes_num votes : forall b,
    box_votes N PF (BNum b) votes = let* b := ncast N PF votes b in Ok (BNum b).
  Proof.
    unfold box_votes, ncast. induction votes as [|[[c p] w] votes IH]; intros b; cbn [foreach bind]; auto.
    cbn [box_vote]. destruct (numVote N PF b c p w); cbn [bind]; auto.
  Qed.
  Lemma box_votes_cat votes : forall b bb, box_votes N PF (BCat b) votes = Ok bb -> exists b', bb = BCat b'.
  Proof.
    unfold box_votes. induction votes as [|[[c p] w] votes IH]; intros b bb; cbn [foreach bind].
    - intros H. inversion H. eauto.
    - cbn [box_vote]. destruct (catVote N b c p w); cbn [bind]; try discriminate. apply IH.
  Qed.

  (** With -sum, in any arithmetic and with any flags beside it, the value written is the
      intercept plus the sum of prediction times weight. *)
Theorem C100_sum_partial : forall num cat expit target size intercept (votes : list (vote N)) iter,
    Forall (fun '(c, _, _) => c < size) votes ->
    yields (box_votes N PF (apply_box N true num cat target size) votes) (fun bb =>
      forall i, i < size ->
        let x := nadd N (fold_left (fun s '(v, w) => nadd N s (nmul N v w)) (numbers_for N PF i votes) (nofZ N 0)) intercept in
        apply_result N Expit true expit intercept bb i iter = Ok (PNum (if expit then Expit x else x))).
  Proof.
    intros num cat expit target size intercept votes iter H. cbn [apply_box]. rewrite box_votes_sum.
    eapply yields_bind; [apply C21_sum; exact H|]. cbn beta zeta. intros b Hb.
    eexists. split; [reflexivity|]. intros i Hi. destruct (Hb i Hi) as [E _].
    unfold apply_result. cbn [orb]. rewrite E. reflexivity.
  Qed.

  (** A forest for a categorical target with an intercept other than 0 cannot be applied with
      the default flags: the first case panics. *)
Theorem C100_categorical_intercept_refuted : forall cat expit target size intercept (votes : list (vote N)) iter i,
    not_zero N intercept = true -> cat = true \/ has_prefix (B "N") (B target) = false ->
    forall bb, box_votes N PF (apply_box N false false cat target size) votes = Ok bb ->
    apply_result N Expit false expit intercept bb i iter = Panic.
  Proof.
    intros cat expit target size intercept votes iter i Hn Hc bb E. unfold apply_box in E.
    replace (negb cat && (false || has_prefix (B "N") (B target))) with false in E
      by (destruct Hc as [-> | ->]; cbn; rewrite ?andb_false_r; reflexivity).
    destruct (box_votes_cat votes (NewCatBallotBox N size) _ E) as [b ->].
    unfold apply_result. rewrite Hn. reflexivity.
  Qed.

  (** The votes file can only be asked for with a categorical box. *)
Theorem C100_votes_file_refuted : forall sum num cat target size (votes : list (vote N)) bb,
    box_votes N PF (apply_box N sum num cat target size) votes = Ok bb ->
    vote_totals N bb = Panic <-> (sum = true \/ (cat = false /\ (num = true \/ has_prefix (B "N") (B target) = true))).
  Proof.
    intros sum num cat target size votes bb E. unfold apply_box in E. destruct sum.
    { rewrite box_votes_sum in E. apply bind_ok in E as (b & _ & E). inversion E; subst. cbn. tauto. }
    destruct (negb cat && (num || has_prefix (B "N") (B target))) eqn:Ec.
    - rewrite box_votes_num in E. apply bind_ok in E as (b & _ & E). inversion E; subst. cbn.
      apply andb_true_iff in Ec as [E1 E2]. apply negb_true_iff in E1. apply orb_true_iff in E2. tauto.
    - destruct (box_votes_cat votes (NewCatBallotBox N size) _ E) as [b ->].
      cbn. split; [discriminate|]. intros [H|[-> H]]; [discriminate|]. cbn in Ec. apply orb_false_iff in Ec as [E1 E2].
      destruct H; congruence.
  Qed.
End Applied.

(** In exact arithmetic.  Without -sum a numerical forest with an intercept is applied as the
    weighted mean plus the intercept, which differs from the boosted prediction unless the
    sum is 0 or the weights add up to 1. *)
Theorem C100_intercept_without_sum_refuted : forall PF Expit size (votes : list (vote XR)) intercept iter target,
  Forall (fun '(c, _, _) => c < size) votes -> has_prefix (B "N") (B target) = true -> (intercept <> 0)%R ->
  yields (box_votes XR PF (apply_box XR false false false target size) votes) (fun bb =>
    forall i, i < size ->
      let nums := real_pairs (numbers_for XR PF i votes) in
      positive_start nums -> nums <> [] ->
      apply_result XR Expit false false (Some intercept) bb i iter = Ok (@PNum XR (Some (wmean nums + intercept)%R))
      /\ (wvsum nums <> 0 -> wsum nums <> 1 -> wmean nums + intercept <> wvsum nums + intercept)%R).
Proof.
  intros PF Expit size votes intercept iter target H Ht Hi. unfold apply_box. rewrite Ht. cbn [negb andb orb].
  rewrite box_votes_num. eapply yields_bind; [apply C20_num_weighted_mean; exact H|]. cbn beta zeta. intros b Hb.
  eexists. split; [reflexivity|]. intros i Hl Hp Hne. destruct (Hb i Hl Hp) as [E _]. split.
  - unfold apply_result.
    assert (Hn : not_zero XR (Some intercept) = true).
    { unfold not_zero. cbn. unfold Rleb. destruct (Rle_dec intercept 0), (Rle_dec 0 intercept); cbn; auto. exfalso; lra. }
    rewrite Hn, orb_true_r. cbv iota. rewrite E. cbn [bind]. destruct (real_pairs _); [congruence|]. reflexivity.
  - intros Hs Hw. destruct (real_pairs (numbers_for XR PF i votes)) as [|[v w] t] eqn:El; [congruence|].
    assert (Hpos : (0 < wsum ((v, w) :: t))%R).
    { destruct Hp as [Hw0 Ht0]. unfold wsum. cbn.
      assert (0 <= Rsum (map snd t))%R; [|lra]. clear - Ht0. induction Ht0 as [|[a c] l Hc _ IH]; cbn in *; lra. }
    intros Heq. apply Rplus_eq_reg_r in Heq. unfold wmean in Heq.
    set (s := wvsum ((v, w) :: t)) in *. set (q := wsum ((v, w) :: t)) in *.
    assert (H0 : (s = s / q * q)%R) by (field; lra). rewrite Heq in H0.
    assert (H1 : (s * (1 - q) = 0)%R) by lra.
    apply Rmult_integral in H1 as [H1|H1]; [auto|]. apply Hw. lra.
Qed.

(** growforest's own test and out of bag boxes: the tally of a numerical target is the
    weighted mean, without intercept, also when the forest was boosted. *)
Theorem C100_test_box_refuted : forall PF Expit size (votes : list (vote XR)) iter intercept,
  Forall (fun '(c, _, _) => c < size) votes ->
  yields (box_votes XR PF (test_box XR 0 size) votes) (fun bb =>
    forall i, i < size ->
      let nums := real_pairs (numbers_for XR PF i votes) in
      positive_start nums -> nums <> [] ->
      box_tally XR bb i iter = Ok (@PNum XR (Some (wmean nums)))
      /\ (forall num cat target, yields (box_votes XR PF (apply_box XR true num cat target size) votes) (fun bb' =>
           Forall (fun '(v, w) => v <> None /\ w <> None) (numbers_for XR PF i votes) ->
           apply_result XR Expit true false (Some intercept) bb' i iter = Ok (@PNum XR (Some (wvsum nums + intercept)%R))))).
Proof.
  intros PF Expit size votes iter intercept H. unfold test_box. cbn [Nat.eqb].
  rewrite box_votes_num. eapply yields_bind; [apply C20_num_weighted_mean; exact H|]. cbn beta zeta. intros b Hb.
  eexists. split; [reflexivity|]. intros i Hl Hp Hne. destruct (Hb i Hl Hp) as [_ E]. split.
  - unfold box_tally. rewrite E. cbn [bind]. destruct (real_pairs _); [congruence|]. reflexivity.
  - intros num cat target. cbn [apply_box]. rewrite box_votes_sum.
    destruct (scast XR PF votes (NewSumBallotBox XR size)) as [b'| |] eqn:Eb.
    2,3: destruct (C21_sum XR PF size votes H) as (b' & E' & _); unfold vote in *; rewrite E' in Eb; discriminate.
    cbn [bind]. eexists. split; [reflexivity|]. intros Hr.
    destruct (C21_sum_exact PF size votes i H Hl Hr votes (Permutation_refl _)) as (b2 & E2 & H2).
    assert (b2 = b') by (unfold vote in *; congruence). subst b2.
    unfold apply_result. cbn [orb]. cbv iota. rewrite H2. reflexivity.
Qed.

Example C100_example :
  let votes := [(0, "1", f1); (1, "2", f1); (0, "5", f2)] in
  match box_votes F64 (exPF F64) (apply_box F64 true false false "C:t" 2) votes with
  | Ok bb => match apply_result F64 (fun x => x) true false f1 bb 0 [], apply_result F64 (fun x => x) true false f1 bb 1 [] with
             | Ok (PNum x), Ok (PNum y) => feqb x (f_of_Z 12) && feqb y (f_of_Z 3) = true
             | _, _ => False
             end
  | _ => False
  end.
Proof. vm_compute. reflexivity. Qed.

(** ** C101.  Vetting.  The claim in full: for every target and every flag beside it, -vet
    compares a split of the target with the split of a shuffled copy of that target, under
    the same impurity, and growing with it does not fail. *)

(** The contrast is a copy of the column, whatever target was chosen: of all chosen targets
    only the unwrapped one is compared with its own kind.  (The two class gradient boosting
    target is numerical, and so is its contrast.) *)
Theorem C101_contrast_kind_refuted : forall fl k t tf, column k -> choose_target fl k = Ok (t, tf) ->
  (copied tf = tf <-> tf = k) /\ (tf = KGradClass \/ copied tf = k).
Proof.
  intros [de l1 od gb ad np co dn ac rf en he un ve] k t tf Hk. unfold choose_target, wrap_num, wrap_cat, given, grads.
  cbn [tDensity tL1 tOrdinal tGradboost tAdaboost tNP tCosts tDentropy tAdacosts tRfweights tEntropy tHellinger tUnlabeled tVet].
  generalize (negb (feqb gb f0)). generalize (negb (co =? "")%string) (negb (dn =? "")%string) (negb (ac =? "")%string)
    (negb (rf =? "")%string) (negb (un =? "")%string). clear gb co dn ac rf un ve.
  intros co dn ac rf un g. destruct Hk as [-> | ->].
  - destruct de, l1, od, g, ad; cbn; intros H; inversion H; subst; cbn; intuition discriminate.
  - destruct de; [cbn; intros H; inversion H; subst; cbn; intuition discriminate|].
    destruct np, co, dn, ac, rf, en, ad, he, g, un; cbn; intros H; inversion H; subst; cbn; intuition discriminate.
Qed.
(** With a flag that chooses an impurity, the contrast is searched with another one. *)
Corollary C101_entropy_vet_refuted : forall fl, tDensity fl = false -> tNP fl = false -> given (tCosts fl) = false ->
  given (tDentropy fl) = false -> given (tAdacosts fl) = false -> given (tRfweights fl) = false -> tEntropy fl = true ->
  given (tUnlabeled fl) = false ->
  exists t, choose_target fl KCat = Ok (t, t) /\ t = KWrap WEntropy KCat /\ copied t = KCat.
Proof.
  intros fl H1 H2 H3 H4 H5 H6 H7 H8. exists (KWrap WEntropy KCat). split; [|auto]. unfold choose_target, wrap_cat.
  rewrite H1, H2, H3, H4, H5, H6, H7. cbn. rewrite H8. reflexivity.
Qed.
(** -density -vet stops at the first tree. *)
Theorem C101_density_vet_refuted : forall fl k, column k -> tDensity fl = true -> tVet fl = true -> first_tree fl k = Panic.
Proof.
  intros fl k Hk Hd Hv. unfold first_tree, choose_target, one_tree. rewrite Hd, Hv. cbn.
  destruct Hk as [-> | ->]; reflexivity.
Qed.

(** *** The out of bag cases *)
Lemma mark_length (cases : list nat) : forall ib ib', foreach cases (fun v ib => set ib v true) ib = Ok ib' -> length ib' = length ib.
Proof.
  induction cases as [|c cases IH]; cbn; intros ib ib' H; [inversion H; auto|].
  apply bind_ok in H as (ib1 & E & H). apply IH in H. rewrite H. unfold set in E.
  destruct (c <? length ib); inversion E. apply upd_length.
Qed.
Definition marked (ib : list bool) : nat := length (filter (fun b => b) ib).
Lemma marked_upd ib c : marked (upd ib c true) <= S (marked ib).
Proof.
  unfold marked. revert c. induction ib as [|b ib IH]; intros [|c]; cbn; auto.
  - destruct b; cbn; lia.
  - specialize (IH c). destruct b; cbn; lia.
Qed.
Lemma mark_count (cases : list nat) : forall ib ib', foreach cases (fun v ib => set ib v true) ib = Ok ib' ->
  marked ib' <= marked ib + length cases.
Proof.
  induction cases as [|c cases IH]; cbn; intros ib ib' H; [inversion H; subst; lia|].
  apply bind_ok in H as (ib1 & E & H). apply IH in H. unfold set in E.
  destruct (c <? length ib); inversion E; subst. pose proof (marked_upd ib c). lia.
Qed.
Lemma collect_oob (ib : list bool) : forall i acc, exists oob,
  foreach ib (fun v '((i, oob) : nat * list nat) => Ok (S i, if v then oob else oob ++ [i])) (i, acc) = Ok (i + length ib, acc ++ oob)
  /\ length oob = length ib - marked ib
  /\ forall j, In j oob <-> exists k, j = i + k /\ nth_error ib k = Some false.
Proof.
  unfold marked. induction ib as [|b ib IH]; intros i acc; cbn [foreach bind].
  - exists []. rewrite app_nil_r. split; [f_equal; f_equal; cbn; lia|]. split; [reflexivity|].
    intros j; split; [intros []|]. intros (k & _ & H). destruct k; discriminate.
  - destruct (IH (S i) (if b then acc else acc ++ [i])) as (oob & E & L & H). rewrite E.
    assert (Hm : length (filter (fun b => b) ib) <= length ib) by (clear; induction ib as [|[|] ib IHb]; cbn; lia).
    destruct b.
    + exists oob. split; [f_equal; f_equal; cbn; lia|]. split; [cbn; lia|]. intros j. rewrite H. split.
      * intros (k & -> & Hk). exists (S k). split; [lia|auto].
      * intros ([|k] & -> & Hk); [discriminate|]. exists k. split; [lia|auto].
    + exists (i :: oob). split; [rewrite <- app_assoc; cbn [app length]; do 2 f_equal; lia|]. split; [cbn [length filter]; lia|]. intros j. split.
      * intros [<-|Hj]; [exists 0; split; [lia|reflexivity]|]. apply H in Hj as (k & -> & Hk). exists (S k). split; [lia|auto].
      * intros ([|k] & -> & Hk); [left; lia|]. right. apply H. exists k. split; [lia|auto].
Qed.

(** The out of bag cases are the cases not drawn. *)
Lemma foreach_set cases : forall ib, Forall (fun c => c < length ib) cases ->
  exists ib', foreach cases (fun v ib => set ib v true) ib = Ok ib' /\
    forall j, nth_error ib' j = if existsb (Nat.eqb j) cases then (if j <? length ib then Some true else None) else nth_error ib j.
Proof.
  induction cases as [|c cases IH]; intros ib H; cbn [foreach existsb].
  - exists ib. auto.
  - inversion H; subst. rewrite set_ok by auto. cbn [bind].
    destruct (IH (upd ib c true)) as (ib' & E & Hn); [rewrite upd_length; auto|].
    exists ib'. split; [exact E|]. intros j. rewrite Hn, upd_length.
    destruct (Nat.eqb_spec j c) as [->|Hne]; cbn [orb].
    + rewrite nth_error_upd_eq by auto. destruct (Nat.ltb_spec c (length ib)); [|lia]. destruct (existsb _ _); reflexivity.
    + rewrite nth_error_upd_neq by auto. reflexivity.
Qed.
Theorem C101_out_of_bag_cases : forall nCases cases, Forall (fun c => c < nCases) cases ->
  exists oob, oob_cases nCases cases = Ok oob /\ (forall j, In j oob <-> j < nCases /\ ~ In j cases)
    /\ nCases - length cases <= length oob.
Proof.
  intros n cases H. unfold oob_cases.
  destruct (foreach_set cases (repeat false n)) as (ib & E & Hn); [rewrite repeat_length; auto|].
  pose proof (mark_length _ _ _ E) as L. pose proof (mark_count _ _ _ E) as M. rewrite E. cbn [bind].
  rewrite repeat_length in L.
  assert (M0 : marked (repeat false n) = 0) by (unfold marked; clear; induction n; cbn; auto).
  destruct (collect_oob ib 0 []) as (oob & Eo & Lo & Ho). rewrite Eo. cbn [bind app]. exists oob. split; [reflexivity|]. split; [|lia].
  intros j. rewrite Ho. split.
  - intros (k & -> & Hk). cbn. rewrite Hn in Hk. destruct (existsb (Nat.eqb k) cases) eqn:Ex.
    + destruct (k <? length (repeat false n)); discriminate.
    + pose proof (nth_error_some_lt _ _ Hk) as Hlt. rewrite repeat_length in Hlt. split; auto. intros Hin.
      assert (existsb (Nat.eqb k) cases = true) by (apply existsb_exists; exists k; rewrite Nat.eqb_refl; auto). congruence.
  - intros [Hj Hin]. exists j. split; auto. rewrite Hn. destruct (existsb (Nat.eqb j) cases) eqn:Ex.
    + apply existsb_exists in Ex as (k & Hk & Ek). apply Nat.eqb_eq in Ek. subst. contradiction.
    + apply nth_error_repeat; auto.
Qed.

(** Room for the sampled cases there is: searches over the sample never run out of it. *)
Theorem C101_sample_fits_partial : forall (St : Type) nSamples (tg : St) d n, n <= nSamples -> roomy (new_allocs nSamples tg d) n.
Proof. intros St nSamples tg d n H. split; cbn; rewrite repeat_length; auto. Qed.

(** Not for the out of bag cases.  With -vet and -evaloob, when more than half of the cases
    stay out of the bag, vetting any promising split of a numerical feature without missing
    values panics: the buffer the values are sorted in has nSamples places. *)
Lemma load_panics data : forall cases vals, Forall (fun c => c < length data) cases -> length vals < length cases ->
  load data cases vals = Panic.
Proof.
  intros cases vals. unfold load.
  assert (G : forall cases i vals, Forall (fun c => c < length data) cases -> i <= length vals -> length vals - i < length cases ->
    foreach cases (fun p '((i, vals) : nat * list f64) => let* x := get data p in let* vals := set vals i x in Ok (S i, vals)) (i, vals) = Panic).
  { clear. induction cases as [|c cases IH]; intros i vals H Hi Hl; cbn in Hl; [lia|]. inversion H; subst. cbn [foreach].
    destruct (@get_ok _ data c H2) as (x & -> & _). cbn [bind].
    destruct (lt_dec i (length vals)).
    - rewrite set_ok by auto. cbn [bind]. apply IH; auto; rewrite upd_length; lia.
    - unfold set. destruct (Nat.ltb_spec i (length vals)); [lia|]. reflexivity. }
  intros H Hl. rewrite G; auto; lia.
Qed.
Theorem C101_vet_oob_panics_refuted : forall A St rnd K kShuffleCases kTarget (p : params) (f : numF) parent dec inner
    cases nCases nSamples oob tg d (k : K),
  pVet p = true -> pEvalOob p = true -> nltb A dec inner = true ->
  nHas f = false -> length (nData f) = nCases ->
  length cases = nSamples -> Forall (fun c => c < nCases) cases -> oob_cases nCases cases = Ok oob ->
  2 * nSamples < nCases -> 2 * pLeaf p <= length oob ->
  (forall r l k, kShuffleCases r l k <> Spin) ->
  vet_split A St rnd K kShuffleCases kTarget p (FNum f) parent dec inner cases oob (new_allocs nSamples tg d) k = Panic.
Proof.
  intros A St rnd K sh kt p f parent dec inner cases nCases nSamples oob tg d k Hv He Hd Hh Hl Hc Hr Ho Hn Hleaf Hs.
  destruct (C101_out_of_bag_cases nCases cases Hr) as (oob' & Eo & Hin & Hlen). assert (oob' = oob) by congruence. subst oob'.
  unfold vet_split. rewrite Hv, He, Hd. cbn [andb].
  destruct (sh _ oob k) as [k'| |] eqn:Ek; [|reflexivity|exfalso; eapply Hs; eauto]. cbn [bind].
  unfold BestSplit, nBestSplit, with_missing. rewrite Hh. unfold BestNumSplit.
  destruct (Nat.leb_spec (2 * pLeaf p) (length oob)); [|lia].
  cbn [aVals new_allocs]. rewrite load_panics; [reflexivity| |].
  - rewrite Forall_forall. intros c Hc'. apply Hin in Hc'. rewrite Hl. tauto.
  - rewrite repeat_length. lia.
Qed.

Example C101_example :
  oob_cases 5 [1; 3] = Ok [0; 2; 4]
  /\ load [f0; f1; f2; f1; f0] [0; 2; 4] (aVals (new_allocs 2 0 0)) = Panic
  /\ (exists t, choose_target (mkTF false false false f0 false false "" "" "" "" true false "" true) KCat = Ok (t, t) /\ copied t = KCat /\ t <> KCat).
Proof. vm_compute. repeat split; auto. eexists. split; [reflexivity|]. split; [reflexivity|discriminate]. Qed.

Print Assumptions C100_sum_partial.
Print Assumptions C100_categorical_intercept_refuted.
Print Assumptions C100_votes_file_refuted.
Print Assumptions C100_intercept_without_sum_refuted.
Print Assumptions C100_test_box_refuted.
Print Assumptions C101_contrast_kind_refuted.
Print Assumptions C101_entropy_vet_refuted.
Print Assumptions C101_density_vet_refuted.
Print Assumptions C101_out_of_bag_cases.
Print Assumptions C101_sample_fits_partial.
Print Assumptions C101_vet_oob_panics_refuted.
