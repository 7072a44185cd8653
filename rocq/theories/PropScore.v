(** C119: splits found with targets that score a split instead of measuring impurity
    (gradient boosting and Hellinger trees), with and without missing values. *)
From Verif Require Import Go GoLemmas F64 F64Order F64Round ModelFeature ModelSplit SplitSpec SplitProofs
  ModelSearch SearchSpec SearchProofs CatSearchProofs GrowSpec TotalSearch ModelTargets TargetProofs
  ModelImpurity ImpuritySpec ImpurityProofs Exact PropImpurity PropImpurity2 ModelTargets2.
From Verif Require PropSearch PropCatSearch PropFeatureSearch PropTargets2.
Import PropCatSearch.
Local Open Scope nat_scope.
Local Open Scope list_scope.

(** ** What a search over one feature reports, for any target *)
Section Reported.
  Variables (A : arith) (St : Type) (T : target A St) (ok : nat -> Prop) (imp : list nat -> A)
    (cost : list nat -> list nat -> A) (ready : St -> Prop) (holds : list nat -> list nat -> St -> Prop).
  Hypothesis Hon : honest T ok imp cost ready holds.
  Hypothesis Hsym : symmetric cost.
  Hypothesis Hsane : sane A.

  (** The decrease after the cases without a value are charged. *)
  Definition charged (np nm : nat) (whole known lost dec : A) : A :=
    nadd A whole (ndiv A (nsub A (nmul A (nofZ A (Z.of_nat np)) (nsub A dec known))
                                 (nmul A (nofZ A (Z.of_nat nm)) lost))
                         (nofZ A (Z.of_nat (np + nm)))).

  Lemma reported rnd f cases leaf rs al :
    1 <= leaf -> Forall ok cases -> searchable f cases -> faithful f cases ->
    roomy al (length cases) -> ready (aTgt al) ->
    exists r, BestSplit A St T rnd f cases (imp cases) leaf rs al = Ok r /\
      (nltb A (least A) (fDec r) = true ->
       admissible leaf (coded_left f (fCode r)) (present f cases) /\
       nltb A (least A) (worth A (imp (present f cases)) cost (coded_left f (fCode r)) (present f cases)) = true /\
       fDec r = match absent f cases with
                | [] => worth A (imp cases) cost (coded_left f (fCode r)) cases
                | m => charged (length (present f cases)) (length m) (imp cases) (imp (present f cases)) (imp m)
                         (worth A (imp (present f cases)) cost (coded_left f (fCode r)) (present f cases))
                end).
  Proof.
    intros Hleaf Hok Hs Hfa [Hl1 Hl2] Hr.
    pose proof Hs as (Hf & Hh & Hn).
    pose proof (length_present f cases) as Lp.
    assert (Ok' : Forall ok (present f cases)) by (apply Forall_filter; auto).
    assert (Hh' : Forall (has_case f) (present f cases)) by (apply Forall_filter; auto).
    assert (Main : exists search has mask,
      (forall al, BestSplit A St T rnd f cases (imp cases) leaf rs al =
         with_missing A St T has mask search cases (imp cases) al) /\
      fMissingVals f = has /\ (forall c, In c cases -> get mask c = Ok (fmissing f c)) /\
      forall p al', ready (aTgt al') -> length (aVals al') = length (aVals al) ->
        length (aCat al') = length (aCat al) ->
        exists r, search (present f cases) p al' = Ok r /\
          PropFeatureSearch.valued A St cost f (present f cases) leaf p r).
    { rewrite Forall_forall in Hh. destruct f as [f|f]; cbn [BestSplit]; [unfold nBestSplit|unfold cBestSplit].
      - eexists _, _, _. split; [reflexivity|]. split; [reflexivity|]. split.
        { intros c Hin. apply (get_default (nMissing f) c false). apply (Hh c Hin). }
        intros p al' R L1 L2. destruct Hfa as [F1 F2].
        eapply PropFeatureSearch.num_valued; eauto; try lia.
        apply Forall_forall. intros c Hin. rewrite Forall_forall in Hh'. split; [apply (Hh' c Hin)|auto].
      - eexists _, _, _. split; [reflexivity|]. split; [reflexivity|]. split.
        { intros c Hin. apply (get_default (cMissing f) c false). apply (Hh c Hin). }
        intros p al' R L1 L2. eapply PropFeatureSearch.cat_valued; eauto; lia. }
    destruct Main as (search & has & mask & EB & Eh & Em & Hsearch). rewrite EB. clear EB.
    pose proof (set_aside f has mask cases Hf Eh Em) as Ha.
    assert (Tot : length (absent f cases) + length (present f cases) = length cases)
      by apply PropFeatureSearch.filter_split_length.
    assert (All : absent f cases = [] -> present f cases = cases).
    { intros Ea. apply present_all. intros c Hin. destruct (fmissing f c) eqn:E; auto. exfalso.
      assert (In c (absent f cases)) by (apply filter_In; auto). rewrite Ea in H. destruct H. }
    unfold with_missing. destruct has.
    - rewrite Ha. cbn [bind].
      destruct (Nat.eqb_spec (length (present f cases)) 0) as [E0|N0].
      { eexists. split; [reflexivity|]. cbn [fDec]. intros H. exfalso.
        pose proof (proj2 Hsane) as Z. congruence. }
      destruct (h_imp _ _ _ _ _ _ Hon (present f cases) (aTgt al)) as (s1 & -> & R1); auto. cbn [bind].
      destruct (Nat.ltb_spec 0 (length (absent f cases))) as [Hm|Hm].
      + assert (Okm : Forall ok (absent f cases)) by (apply Forall_filter; auto).
        destruct (h_imp _ _ _ _ _ _ Hon (absent f cases) s1) as (s2 & -> & R2); auto. cbn [bind].
        destruct (Hsearch (imp (present f cases)) (mkAl (aVals al) (aCat al) s2 (aDraw al)) R2 eq_refl eq_refl)
          as (r & -> & V). cbn [bind].
        eexists. split; [reflexivity|]. cbn [fDec fCode andb]. change (minImp A) with (least A).
        destruct (nltb A (least A) (fDec r)) eqn:L.
        2:{ intros H. rewrite L in H. discriminate. }
        intros _. destruct (V L) as [Ad Ev]. split; [exact Ad|]. split; [rewrite <- Ev; exact L|].
        destruct (absent f cases) as [|m0 m] eqn:Em'; [cbn in Hm; lia|].
        rewrite <- Em' in *. unfold charged. rewrite <- Ev.
        replace (length cases - length (absent f cases)) with (length (present f cases)) by lia.
        replace (length (present f cases) + length (absent f cases)) with (length cases) by lia.
        reflexivity.
      + cbn [bind].
        assert (Ea : absent f cases = []) by (apply length_zero_iff_nil; lia).
        destruct (Hsearch (imp (present f cases)) (mkAl (aVals al) (aCat al) s1 (aDraw al)) R1 eq_refl eq_refl)
          as (r & -> & V). cbn [bind].
        eexists. split; [reflexivity|]. cbn [fDec fCode andb]. intros L.
        destruct (V L) as [Ad Ev]. split; [exact Ad|]. split; [rewrite <- Ev; exact L|].
        rewrite Ea. rewrite (All Ea) in Ev. exact Ev.
    - destruct (Hsearch (imp cases) al Hr eq_refl eq_refl) as (r & E & V). rewrite Ha in *.
      exists r. split; auto. intros L. destruct (V L) as [Ad Ev].
      assert (Ea : absent f cases = []) by (apply length_zero_iff_nil; lia).
      split; [exact Ad|]. split; [rewrite <- Ev; exact L|]. rewrite Ea. exact Ev.
  Qed.
End Reported.

(** ** Gradient boosting *)

(** What a gradient boosting target answers, without rounding. *)
Definition grad_imp (xs : list R) (l : list nat) : XR :=
  if nleb XR (sse_imp xs l) (minImp XR) then sse_imp xs l else nofZ XR (-1).
Definition grad_cost (xs : list R) (l r : list nat) : XR :=
  FriedmanScore XR (Some (Rsum (values xs l))) (Some (Rsum (values xs r))) l r.

Lemma values_perm xs l l' : Permutation l l' -> Rsum (values xs l) = Rsum (values xs l').
Proof. intros P. pose proof (rsums_perm xs l l' P) as H. unfold rsums in H. congruence. Qed.

Lemma grad_honest xs :
  honest (grad_target XR (numeric xs)) (fun c => c < length xs) (grad_imp xs) (grad_cost xs)
    (fun _ => True) (fun l r s => inside xs l /\ inside xs r /\ s = (Some (Rsum (values xs l)), Some (Rsum (values xs r)))).
Proof.
  constructor.
  - intros l s Hl _. cbn [tImp grad_target]. unfold NumImpurity. rewrite (sums_value xs l Hl). cbn [bind].
    eexists. split; [reflexivity|auto].
  - intros l r s Hl Hr _. cbn [tSplit grad_target]. unfold GBSplit. rewrite !gbsum_value by assumption. cbn [bind].
    eexists. split; [reflexivity|auto].
  - intros l r l' r' moved s Hl Hr _ (I1 & I2 & ->) P1 P2. cbn [tUpdate grad_target]. unfold GBUpdate.
    assert (Im : inside xs moved).
    { apply (inside_perm _ _ _ P2) in I2. apply inside_app in I2. tauto. }
    rewrite gbsum_value by assumption. cbn [bind fst snd nadd nsub XR lift2].
    pose proof (values_perm xs _ _ P1) as E1. pose proof (values_perm xs _ _ P2) as E2.
    rewrite values_app, Rsum_app in E1, E2.
    replace (Rsum (values xs l) + Rsum (values xs moved))%R with (Rsum (values xs l')) by lra.
    replace (Rsum (values xs r) - Rsum (values xs moved))%R with (Rsum (values xs r')) by lra.
    eexists. split; [reflexivity|auto].
  - intros l r l' r' P1 P2. unfold grad_cost, FriedmanScore, len.
    rewrite (values_perm xs l l' P1), (values_perm xs r r' P2), (Permutation_length P1), (Permutation_length P2).
    reflexivity.
Qed.

Lemma grad_symmetric xs : @symmetric XR (grad_cost xs).
Proof.
  intros l r. unfold grad_cost, FriedmanScore, len. cbn [nadd nsub nmul ndiv nofZ XR lift2].
  set (a := Rsum (values xs l)). set (b := Rsum (values xs r)).
  set (p := IZR (Z.of_nat (length l))). set (q := IZR (Z.of_nat (length r))).
  destruct (Req_EM_T p 0) as [Ep|Ep].
  { rewrite Ep. replace (xdiv (Some a) (Some 0%R)) with (@None R); [|symmetry].
    2:{ unfold xdiv, lift2. destruct (Req_EM_T 0 0); congruence. }
    destruct (xdiv (Some b) (Some q)); reflexivity. }
  destruct (Req_EM_T q 0) as [Eq|Eq].
  { rewrite Eq. replace (xdiv (Some b) (Some 0%R)) with (@None R); [|symmetry].
    2:{ unfold xdiv, lift2. destruct (Req_EM_T 0 0); congruence. }
    destruct (xdiv (Some a) (Some p)); reflexivity. }
  rewrite !xdiv_some by assumption. cbn [lift2].
  replace (q + p)%R with (p + q)%R by ring. f_equal. f_equal. ring.
Qed.

(** The squared error a split removes. *)
Definition removed (xs : list R) (l r : list nat) : R :=
  (sse (values xs (l ++ r)) - (sse (values xs l) + sse (values xs r)))%R.

Lemma grad_cost_value xs l r : l <> [] -> r <> [] -> inside xs l -> inside xs r ->
  grad_cost xs l r = Some (removed xs l r).
Proof.
  intros Nl Nr Il Ir. destruct (C76_friedman_score_is_error_reduction xs l r Nl Nr Il Ir) as (st & E).
  unfold GBSplit in E. rewrite !gbsum_value in E by assumption. cbn [bind] in E.
  assert (G : forall (a b : XR * (XR * XR)), Ok a = Ok b -> fst a = fst b) by congruence.
  apply G in E. exact E.
Qed.

Lemma removed_nonneg xs l r : l <> [] -> r <> [] -> inside xs l -> inside xs r -> (0 <= removed xs l r)%R.
Proof.
  intros Nl Nr Il Ir. pose proof (grad_cost_value xs l r Nl Nr Il Ir) as E.
  pose proof (len_pos l Nl) as Pl. pose proof (len_pos r Nr) as Pr.
  unfold grad_cost, FriedmanScore, len in E. cbn [nadd nsub nmul ndiv nofZ XR lift2] in E.
  rewrite !IZR_of_nat in E. rewrite !xdiv_some in E by lra. cbn [lift2] in E. rewrite xdiv_some in E by lra.
  assert (G : forall a b : R, Some a = Some b -> a = b) by congruence. apply G in E. rewrite <- E.
  apply Rmult_le_pos; [|left; apply Rinv_0_lt_compat; lra].
  apply Rmult_le_pos; [|lra]. apply Rmult_le_pos; [|lra]. apply Rle_0_sqr.
Qed.

Lemma sse_imp_value xs l : l <> [] -> inside xs l -> sse_imp xs l = Some (sse (values xs l)).
Proof.
  intros Nl Il. pose proof (sse_term xs l Il Nl) as E. unfold sse_imp, rsums. cbn [fst snd]. exact E.
Qed.
Lemma sse_perm xs l l' : Permutation l l' -> sse (values xs l) = sse (values xs l').
Proof.
  intros P. destruct l as [|a l].
  { apply Permutation_nil in P. subst. reflexivity. }
  assert (N : l' <> []). { intros ->. apply Permutation_sym in P. apply Permutation_nil in P. discriminate. }
  pose proof (rsums_perm xs _ _ P) as E. unfold rsums in E.
  assert (G : forall p q p' q' : R, (p, q) = (p', q') -> p = p' /\ q = q') by (intros; split; congruence).
  apply G in E as [E1 E2].
  rewrite !sse_alt by (apply values_nonnil; auto; discriminate).
  assert (Ln : forall c, length (values xs c) = length c) by (intros; apply map_length).
  rewrite E1, E2, !Ln, (Permutation_length P). reflexivity.
Qed.

Lemma present_absent f cases : Permutation cases (present f cases ++ absent f cases).
Proof.
  unfold present, absent. induction cases as [|c l IH]; [constructor|]. cbn [filter].
  destruct (fmissing f c); cbn [negb].
  - eapply perm_trans; [apply perm_skip; exact IH|]. apply Permutation_middle.
  - cbn [app]. apply perm_skip. exact IH.
Qed.
Lemma sides goes cases : Permutation cases (side goes cases ++ other goes cases).
Proof.
  unfold side, other. induction cases as [|c l IH]; [constructor|]. cbn [filter].
  destruct (goes c); cbn [negb].
  - cbn [app]. apply perm_skip. exact IH.
  - eapply perm_trans; [apply perm_skip; exact IH|]. apply Permutation_middle.
Qed.

Local Notation tiny := (1 / 10000000)%R.
Lemma grad_imp_value xs l : l <> [] -> inside xs l ->
  grad_imp xs l = Some (if Rle_dec (sse (values xs l)) tiny then sse (values xs l) else -1)%R.
Proof.
  intros Nl Il. unfold grad_imp. rewrite (sse_imp_value xs l Nl Il). unfold minImp.
  cbn [nleb ndiv nofZ XR]. rewrite xdiv_some by lra. cbn [xcmp].
  destruct (Rle_dec (sse (values xs l)) tiny) as [H|H].
  - replace (Rleb (sse (values xs l)) tiny) with true; [reflexivity|]. symmetry. apply Rleb_true. exact H.
  - replace (Rleb (sse (values xs l)) tiny) with false; [reflexivity|]. symmetry. unfold Rleb.
    destruct (Rle_dec (sse (values xs l)) tiny); [contradiction|reflexivity].
Qed.

(** C119, gradient boosting: the number reported for a split of the cases is the squared
    error the split removes, scaled to the share of the cases that have a value; unless
    the cases without a value agree, see below. *)
Theorem C119_boosting_scores_partial :
  forall (xs : list R) rnd f cases leaf rs al parent s,
  1 <= leaf -> inside xs cases -> searchable f cases -> faithful f cases -> roomy al (length cases) ->
  tImp (grad_target XR (numeric xs)) cases (aTgt al) = Ok (parent, s) ->
  exists r, BestSplit XR _ (grad_target XR (numeric xs)) rnd f cases parent leaf rs al = Ok r /\
    (nltb XR (least XR) (fDec r) = true ->
     let l := side (coded_left f (fCode r)) (present f cases) in
     let rt := other (coded_left f (fCode r)) (present f cases) in
     let m := absent f cases in
     leaf <= length l /\ leaf <= length rt /\ length l + length rt + length m = length cases /\
     (m = [] -> fDec r = Some (removed xs l rt)) /\
     (m <> [] -> (tiny < sse (values xs m))%R ->
      fDec r = Some (removed xs l rt * INR (length (l ++ rt)) / INR (length cases))%R) /\
     (m <> [] -> (sse (values xs m) <= tiny)%R ->
      fDec r = Some ((removed xs l rt * INR (length (l ++ rt)) - (1 + sse (values xs m)) * INR (length m))
                     / INR (length cases))%R)).
Proof.
  intros xs rnd f cases leaf rs al parent s Hleaf Hin Hs Hf Hroom Hp.
  assert (Ep : parent = grad_imp xs cases).
  { destruct (h_imp _ _ _ _ _ _ (grad_honest xs) cases (aTgt al) Hin I) as (s' & E & _). congruence. }
  subst parent. clear Hp s.
  destruct (reported XR _ _ _ _ _ _ _ (grad_honest xs) (grad_symmetric xs) PropFeatureSearch.sane_XR
    rnd f cases leaf rs al Hleaf Hin Hs Hf Hroom I) as (r & E & H).
  exists r. split; [exact E|]. intros L. destruct (H L) as (Ad & Lw & Ed). clear H E.
  cbv zeta. destruct Ad as [A1 A2]. split; [exact A1|]. split; [exact A2|].
  set (P := present f cases) in *. set (m := absent f cases) in *.
  pose proof (sides (coded_left f (fCode r)) P) as Ps.
  pose proof (present_absent f cases) as Pc. fold P m in Pc.
  unfold worth, gain in *.
  set (l := side (coded_left f (fCode r)) P) in *. set (o := other (coded_left f (fCode r)) P) in *.
  assert (Nl : l <> []) by (intros E; rewrite E in A1; cbn in A1; lia).
  assert (No : o <> []) by (intros E; rewrite E in A2; cbn in A2; lia).
  assert (IP : inside xs P) by (apply Forall_filter; exact Hin).
  assert (Im : inside xs m) by (apply Forall_filter; exact Hin).
  assert (Il : inside xs l) by (apply Forall_filter; exact IP).
  assert (Io : inside xs o) by (apply Forall_filter; exact IP).
  assert (NP : P <> []).
  { intros E. rewrite E in Ps. apply Permutation_nil in Ps. apply app_eq_nil in Ps. tauto. }
  assert (Nc : cases <> []).
  { intros E. rewrite E in Pc. apply Permutation_nil in Pc. apply app_eq_nil in Pc. tauto. }
  assert (Lc : length l + length o + length m = length cases).
  { rewrite (Permutation_length Pc), app_length, (Permutation_length Ps), app_length. reflexivity. }
  split; [exact Lc|].
  assert (LP : length P = length (l ++ o)) by (apply Permutation_length; exact Ps).
  pose proof (removed_nonneg xs l o Nl No Il Io) as Rn.
  assert (Lst : least XR = Some tiny). { unfold least. cbn [ndiv nofZ XR]. apply xdiv_some. lra. }
  (* the cases with a value do not agree, otherwise nothing is reported *)
  assert (BP : (tiny < sse (values xs P))%R).
  { destruct (Rlt_le_dec tiny (sse (values xs P))) as [B|B]; auto. exfalso.
    rewrite (grad_imp_value xs P NP IP) in Lw. destruct (Rle_dec (sse (values xs P)) tiny) as [_|C]; [|lra].
    rewrite (grad_cost_value xs l o) in Lw by assumption. rewrite Lst in Lw.
    assert (S0 : (0 <= sse (values xs P))%R).
    { apply Rsum_nonneg. intros v _. apply Rle_0_sqr. }
    cbn [nltb nofZ nsub XR xcmp lift2] in Lw.
    replace (Rltb (sse (values xs P)) 0) with false in Lw by (symmetry; apply Rltb_false; lra).
    apply Rltb_true in Lw. lra. }
  assert (EP : grad_imp xs P = Some (-1)%R).
  { rewrite (grad_imp_value xs P NP IP). destruct (Rle_dec (sse (values xs P)) tiny); [lra|reflexivity]. }
  rewrite EP in Ed. 
  assert (Neg : nltb XR (Some (-1)%R) (nofZ XR 0) = true).
  { cbn [nltb nofZ XR xcmp]. apply Rltb_true. lra. }
  assert (Ec : m <> [] -> grad_imp xs cases = Some (-1)%R).
  { intros Nm. rewrite (grad_imp_value xs cases Nc Hin). destruct (Rle_dec (sse (values xs cases)) tiny) as [B|B]; [|reflexivity].
    exfalso. rewrite (sse_perm xs _ _ Pc) in B. pose proof (removed_nonneg xs P m NP Nm IP Im) as Q. unfold removed in Q.
    assert (S0 : (0 <= sse (values xs m))%R).
    { apply Rsum_nonneg. intros v _. apply Rle_0_sqr. }
    lra. }
  rewrite Neg, (grad_cost_value xs l o) in Ed by assumption.
  split; [|split].
  - intros Em. rewrite Em in Ed, Pc. rewrite app_nil_r in Pc.
    assert (EPc : P = cases).
    { apply present_all. intros c Hc. destruct (fmissing f c) eqn:Efm; auto. exfalso.
      assert (Hi : In c m) by (apply filter_In; auto). rewrite Em in Hi. destruct Hi. }
    rewrite <- EPc in Ed. fold P in Ed. rewrite EP, Neg in Ed. fold l o in Ed.
    rewrite (grad_cost_value xs l o) in Ed by assumption. exact Ed.
  - intros Nm Bm. specialize (Ec Nm). destruct m as [|m0 m1] eqn:Em; [congruence|]. rewrite <- Em in *.
    rewrite Ec in Ed. rewrite Ed. rewrite (grad_imp_value xs m Nm Im).
    destruct (Rle_dec (sse (values xs m)) tiny); [lra|].
    unfold charged. rewrite LP. cbn [nadd nsub nmul ndiv nofZ XR lift2].
    replace (length (l ++ o) + length m) with (length cases) by (rewrite app_length; lia).
    rewrite !IZR_of_nat. pose proof (len_pos cases Nc) as Pn. rewrite xdiv_some by lra. cbn [lift2]. f_equal.
    assert (Ln : INR (length cases) = (INR (length (l ++ o)) + INR (length m))%R).
    { rewrite <- plus_INR. f_equal. rewrite app_length. lia. }
    apply (Rmult_eq_reg_r (INR (length cases))); [|lra]. field_simplify; [|lra|lra]. rewrite Ln. ring.
  - intros Nm Bm. specialize (Ec Nm). destruct m as [|m0 m1] eqn:Em; [congruence|]. rewrite <- Em in *.
    rewrite Ec in Ed. rewrite Ed. rewrite (grad_imp_value xs m Nm Im).
    destruct (Rle_dec (sse (values xs m)) tiny); [|lra].
    unfold charged. rewrite LP. cbn [nadd nsub nmul ndiv nofZ XR lift2].
    replace (length (l ++ o) + length m) with (length cases) by (rewrite app_length; lia).
    rewrite !IZR_of_nat. pose proof (len_pos cases Nc) as Pn. rewrite xdiv_some by lra. cbn [lift2]. f_equal.
    assert (Ln : INR (length cases) = (INR (length (l ++ o)) + INR (length m))%R).
    { rewrite <- plus_INR. f_equal. rewrite app_length. lia. }
    apply (Rmult_eq_reg_r (INR (length cases))); [|lra]. field_simplify; [|lra|lra]. rewrite Ln. ring.
Qed.

(** The search itself is exhaustive: no admissible cut of a numerical feature that leaves
    more than [leaf] cases on its right removes more error than the number reported. *)
Theorem C119_boosting_exhaustive_partial :
  forall (xs : list R) rnd f cases leaf al parent s,
  1 <= leaf -> inside xs cases -> length cases <= length (aVals al) ->
  Forall (fun c => c < length (nData f) /\ nn (nvalue f c)) cases ->
  cases <> [] -> (tiny < sse (values xs cases))%R ->
  tImp (grad_target XR (numeric xs)) cases (aTgt al) = Ok (parent, s) ->
  exists r v, BestNumSplit XR _ (grad_target XR (numeric xs)) rnd f cases parent leaf false al = Ok r /\
    fDec r = Some v /\
    forall x, wide_cut f cases x ->
      leaf <= length (side (upto f x) cases) -> leaf < length (other (upto f x) cases) ->
      (removed xs (side (upto f x) cases) (other (upto f x) cases) <= v)%R.
Proof.
  intros xs rnd f cases leaf al parent s Hleaf Hin Hl Hv Nc Hb Hp.
  assert (Ep : parent = Some (-1)%R).
  { destruct (h_imp _ _ _ _ _ _ (grad_honest xs) cases (aTgt al) Hin I) as (s' & E & _).
    rewrite (grad_imp_value xs cases Nc Hin) in E. destruct (Rle_dec (sse (values xs cases)) tiny); [lra|]. congruence. }
  subst parent. clear Hp s.
  destruct (PropSearch.C29_exhaustive_partial XR _ _ _ _ _ _ _ (grad_honest xs) ordered_XR rnd f cases
    (Some (-1)%R) leaf al Hleaf Hin I Hl Hv) as (r & E & _ & H).
  destruct (BestNumSplit_ok XR _ _ _ _ _ _ _ (grad_honest xs) ordered_XR rnd f cases (Some (-1)%R) leaf false al
    Hleaf Hin Hv Hl I) as (r' & E' & _ & _ & _ & _ & Out).
  assert (Er : r' = r) by congruence. subst r'. clear E'.
  assert (Lst : least XR = Some tiny). { unfold least. cbn [ndiv nofZ XR]. apply xdiv_some. lra. }
  assert (D : exists v, fDec r = Some v).
  { destruct Out as [(_ & _ & -> & _)|[(_ & _ & -> & _)|(_ & _ & cs & lo & stop & x & _ & _ & _ & _ & _ & _ & B & _)]];
      [rewrite Lst; eauto|rewrite Lst; eauto|].
    destruct B as [(-> & _)|(i & j & _ & _ & _ & _ & B & _)]; [rewrite Lst; eauto|].
    destruct (fDec r) as [v|]; [eauto|]. rewrite Lst in B. discriminate. }
  destruct D as (v & D). exists r, v. split; [exact E|]. split; [exact D|].
  intros x Hx H1 H2. specialize (H x Hx H1 H2). rewrite D in H. unfold gain in H.
  assert (Neg : nltb XR (Some (-1)%R) (nofZ XR 0) = true).
  { cbn [nltb nofZ XR xcmp]. apply Rltb_true. lra. }
  rewrite Neg in H. rewrite grad_cost_value in H.
  - cbn [nltb XR xcmp] in H. apply Rltb_false in H. lra.
  - intros E0. rewrite E0 in H1. cbn in H1. lia.
  - intros E0. rewrite E0 in H2. cbn in H2. lia.
  - apply Forall_filter. exact Hin.
  - apply Forall_filter. exact Hin.
Qed.

(** A single case without a value is charged a whole unit of score, because its squared
    error is 0 and not -1: on a feature with one missing case only splits that remove more
    than 1/(n-1) are reported, whatever the scale of the residuals.  Two missing cases with
    different residuals are charged nothing. *)
Theorem C119_lone_missing_refuted :
  forall (xs : list R) rnd f cases leaf rs al parent s c,
  1 <= leaf -> inside xs cases -> searchable f cases -> faithful f cases -> roomy al (length cases) ->
  tImp (grad_target XR (numeric xs)) cases (aTgt al) = Ok (parent, s) ->
  absent f cases = [c] ->
  exists r, BestSplit XR _ (grad_target XR (numeric xs)) rnd f cases parent leaf rs al = Ok r /\
    (nltb XR (least XR) (fDec r) = true ->
     (1 / INR (length cases - 1) <
      removed xs (side (coded_left f (fCode r)) (present f cases)) (other (coded_left f (fCode r)) (present f cases)))%R).
Proof.
  intros xs rnd f cases leaf rs al parent s c Hleaf Hin Hs Hf Hroom Hp Ha.
  destruct (C119_boosting_scores_partial xs rnd f cases leaf rs al parent s Hleaf Hin Hs Hf Hroom Hp) as (r & E & H).
  exists r. split; [exact E|]. intros L. specialize (H L). cbv zeta in H.
  set (l := side (coded_left f (fCode r)) (present f cases)) in *.
  set (o := other (coded_left f (fCode r)) (present f cases)) in *.
  destruct H as (H1 & H2 & H3 & _ & _ & H).
  assert (Sm : sse (values xs (absent f cases)) = 0%R).
  { rewrite Ha. unfold sse, mean, values. cbn [map Rsum length INR]. field. }
  rewrite Sm in H. rewrite Ha in *. cbn [length] in *.
  rewrite H in L by (try discriminate; lra).
  assert (Lst : least XR = Some tiny). { unfold least. cbn [ndiv nofZ XR]. apply xdiv_some. lra. }
  rewrite Lst in L. cbn [nltb XR xcmp] in L. apply Rltb_true in L.
  assert (Ln : length (l ++ o) = length cases - 1) by (rewrite app_length; lia).
  rewrite Ln in L. cbn [INR] in L.
  assert (P1 : (0 < INR (length cases - 1))%R) by (apply lt_0_INR; lia).
  assert (P2 : (0 < INR (length cases))%R) by (apply lt_0_INR; lia).
  assert (L2 : (0 < removed xs l o * INR (length cases - 1) - 1)%R).
  { apply (Rmult_lt_reg_r (/ INR (length cases))); [apply Rinv_0_lt_compat; exact P2|].
    rewrite Rmult_0_l. unfold Rdiv in L. lra. }
  apply (Rmult_lt_reg_r (INR (length cases - 1))); [exact P1|]. unfold Rdiv. rewrite Rmult_1_l, Rinv_l by lra. lra.
Qed.

(** In float64: residuals of 1/8 and -1/8 that a feature separates.  Without missing values the
    split is found; with one missing case added it is not; with a second missing case it is
    found again. *)
Definition eighth : f64 := fdiv f1 (f_of_Z 8).
Definition boosted (xs : list f64) (f : numF) : option bool :=
  let T := grad_target F64 xs in
  let cases := seq 0 (length xs) in
  match tImp T cases (f0, f0) with
  | Ok (parent, _) =>
      match BestSplit F64 _ T (fun _ => 0) (FNum f) cases parent 1 false
              (mkAl (repeat f0 (length xs)) (repeat 0%Z (length xs)) (f0, f0) 0) with
      | Ok r => Some (nltb F64 (least F64) (fDec r))
      | _ => None
      end
  | _ => None
  end.
Theorem C119_lone_missing_float_refuted :
  let up := eighth in let down := fsub f0 eighth in
  let v := f_of_Z in
  boosted [up; up; down; down] (mkNum (map v [1; 2; 3; 4]%Z) (repeat false 4) "n"%string false) = Some true /\
  boosted [up; up; down; down; up] (mkNum (map v [1; 2; 3; 4; 0]%Z) [false; false; false; false; true] "n"%string true)
    = Some false /\
  boosted [up; up; down; down; up; down]
    (mkNum (map v [1; 2; 3; 4; 0; 0]%Z) [false; false; false; false; true; true] "n"%string true) = Some true.
Proof. cbv zeta. split; [|split]; vm_compute; reflexivity. Qed.

(** ** Hellinger trees *)

Definition hell_cost (A : arith) (data : list nat) (k : nat) (l r : list nat) : A :=
  match HDist A (counts data k l) (counts data k r) with Ok v => v | _ => nofZ A 0 end.
Definition hell_ready (k : nat) (cs : counters) : Prop := length (kL cs) = k /\ length (kR cs) = k.
Definition hell_holds (data : list nat) (k : nat) (l r : list nat) (cs : counters) : Prop :=
  labelled data k l /\ labelled data k r /\ kL cs = counts data k l /\ kR cs = counts data k r.

Lemma hell_value A data k l r : 2 <= k -> HDist A (counts data k l) (counts data k r) = Ok (hell_cost A data k l r).
Proof.
  intros Hk. unfold hell_cost. destruct (PropTargets2.counts_two data k l Hk) as (a & ->).
  destruct (PropTargets2.counts_two data k r Hk) as (b & ->). reflexivity.
Qed.

Lemma hell_honest A data k : 2 <= k ->
  honest (hdist_target A data) (in_data data k) (fun _ => nofZ A (-1)) (hell_cost A data k) (hell_ready k) (hell_holds data k).
Proof.
  intros Hk. constructor.
  - intros l s _ R. exists s. auto.
  - intros l r s Hl Hr [R1 R2]. cbn [tSplit hdist_target].
    rewrite (PropTargets2.hdist_split_counts A data k) by assumption. rewrite hell_value by assumption. cbn [bind].
    eexists. split; [reflexivity|]. unfold hell_ready, hell_holds. cbn [kL kR]. rewrite !counts_length. auto.
  - intros l r l' r' moved s Hl Hr [R1 R2] (L1 & L2 & E1 & E2) P1 P2. cbn [tUpdate hdist_target]. unfold HDistUpdate.
    rewrite E1, E2.
    assert (Lm : labelled data k moved).
    { apply (labelled_perm _ _ _ _ P2) in L2. apply labelled_app in L2. tauto. }
    rewrite (MoveCounts_perm data k moved l r l' r' Lm P1 P2). cbn [bind]. rewrite hell_value by assumption. cbn [bind].
    eexists. split; [reflexivity|]. unfold hell_ready, hell_holds. cbn [kL kR]. rewrite !counts_length. auto.
  - intros l r l' r' P1 P2. unfold hell_cost. rewrite (counts_perm _ _ _ _ P1), (counts_perm _ _ _ _ P2). reflexivity.
Qed.

Lemma hell_cost_value data k l r : 2 <= k -> labelled data k l -> labelled data k r ->
  PropTargets2.present data l r 0 -> PropTargets2.present data l r 1 ->
  hell_cost XR data k l r = Some (2 * (PropTargets2.sent_left data l r 0 - PropTargets2.sent_left data l r 1) ^ 2)%R.
Proof.
  intros Hk Hl Hr P0 P1.
  destruct (PropTargets2.C95_score_partial data k l r (mkK (repeat 0%Z k) (repeat 0%Z k) []) Hk Hl Hr
    (repeat_length _ _) (repeat_length _ _) P0 P1) as (v & cs & E & -> & _).
  rewrite (PropTargets2.hdist_split_counts XR data k) in E by (try assumption; apply repeat_length).
  rewrite hell_value in E by assumption. cbn [bind] in E.
  assert (G : forall (a b : XR * counters), Ok a = Ok b -> fst a = fst b) by congruence.
  apply G in E. exact E.
Qed.

Lemma hell_symmetric data k : 2 <= k -> @symmetric XR (hell_cost XR data k).
Proof.
  intros Hk l r. unfold hell_cost. destruct (PropTargets2.counts_two data k l Hk) as (a & ->).
  destruct (PropTargets2.counts_two data k r Hk) as (b & ->). unfold HDist. cbn [get nth_error bind].
  rewrite (Z.add_comm (Z.of_nat (occurs (labels data r) 0))), (Z.add_comm (Z.of_nat (occurs (labels data r) 1))).
  cbn [nadd XR].
  match goal with |- lift2 Rplus ?x ?y = lift2 Rplus ?y ?x => destruct x, y; cbn [lift2]; auto; f_equal; ring end.
Qed.

(** C119, Hellinger trees: the number reported is the score of the split among the cases that
    have a value, scaled to their share of the cases. *)
Theorem C119_hellinger_scores :
  forall data k rnd f cases leaf rs al parent s,
  2 <= k -> 1 <= leaf -> labelled data k cases -> searchable f cases -> faithful f cases -> roomy al (length cases) ->
  length (kL (aTgt al)) = k -> length (kR (aTgt al)) = k ->
  tImp (hdist_target XR data) cases (aTgt al) = Ok (parent, s) ->
  exists r, BestSplit XR _ (hdist_target XR data) rnd f cases parent leaf rs al = Ok r /\
    (nltb XR (least XR) (fDec r) = true ->
     let l := side (coded_left f (fCode r)) (present f cases) in
     let rt := other (coded_left f (fCode r)) (present f cases) in
     leaf <= length l /\ leaf <= length rt /\
     PropTargets2.present data l rt 0 /\ PropTargets2.present data l rt 1 /\
     fDec r = Some (2 * (PropTargets2.sent_left data l rt 0 - PropTargets2.sent_left data l rt 1) ^ 2
                    * (INR (length (present f cases)) / INR (length cases)))%R).
Proof.
  intros data k rnd f cases leaf rs al parent s Hk Hleaf Hin Hs Hf Hroom K1 K2 Hp.
  assert (Ep : parent = Some (-1)%R).
  { cbn [tImp hdist_target] in Hp. assert (G : forall (a b : XR * counters), Ok a = Ok b -> fst a = fst b) by congruence.
    apply G in Hp. symmetry. exact Hp. }
  subst parent. clear Hp s.
  destruct (reported XR _ _ _ _ _ _ _ (hell_honest XR data k Hk) (hell_symmetric data k Hk) PropFeatureSearch.sane_XR
    rnd f cases leaf rs al Hleaf Hin Hs Hf Hroom (conj K1 K2)) as (r & E & H).
  exists r. split; [exact E|]. intros L. destruct (H L) as (Ad & Lw & Ed). clear H E.
  cbv zeta. destruct Ad as [A1 A2]. split; [exact A1|]. split; [exact A2|].
  set (P := present f cases) in *. set (m := absent f cases) in *.
  pose proof (sides (coded_left f (fCode r)) P) as Ps.
  pose proof (present_absent f cases) as Pc. fold P m in Pc.
  assert (Neg : nltb XR (nofZ XR (-1)) (nofZ XR 0) = true).
  { cbn [nltb nofZ XR xcmp]. apply Rltb_true. lra. }
  unfold worth, gain in *. rewrite Neg in *.
  set (l := side (coded_left f (fCode r)) P) in *. set (o := other (coded_left f (fCode r)) P) in *.
  assert (IP : labelled data k P) by (apply Forall_filter; exact Hin).
  assert (Il : labelled data k l) by (apply Forall_filter; exact IP).
  assert (Io : labelled data k o) by (apply Forall_filter; exact IP).
  assert (Pr : forall c, c < 2 -> PropTargets2.present data l o c).
  { intros c Hc. unfold PropTargets2.present.
    destruct (Nat.eq_dec (occurs (labels data l) c + occurs (labels data o) c) 0) as [Z0|]; [|lia]. exfalso.
    assert (Zn : hell_cost XR data k l o = None).
    { unfold hell_cost. destruct (PropTargets2.counts_two data k l Hk) as (a & ->).
      destruct (PropTargets2.counts_two data k o Hk) as (b & ->). unfold HDist. cbn [get nth_error bind].
      assert (Q1 : occurs (labels data l) c = 0) by lia. assert (Q2 : occurs (labels data o) c = 0) by lia.
      assert (D0 : forall x : R, xdiv (Some x) (Some 0%R) = None).
      { intros x. unfold xdiv. destruct (Req_EM_T 0 0); congruence. }
      assert (Hc2 : c = 0 \/ c = 1) by lia.
      destruct Hc2 as [-> | ->]; rewrite Q1, Q2; unfold ModelImpurity.num; change (Z.of_nat 0) with 0%Z;
        change (0 + 0)%Z with 0%Z; cbn [nofZ ndiv nsub nmul nadd XR].
      - rewrite D0. reflexivity.
      - rewrite D0. match goal with |- context [lift2 Rminus ?x None] => destruct x; reflexivity end. }
    rewrite Zn in Lw. destruct (least XR); discriminate. }
  assert (P0 := Pr 0 ltac:(lia)). assert (P1 := Pr 1 ltac:(lia)). split; [exact P0|]. split; [exact P1|].
  rewrite (hell_cost_value data k l o Hk Il Io P0 P1) in Ed.
  set (v := (2 * (PropTargets2.sent_left data l o 0 - PropTargets2.sent_left data l o 1) ^ 2)%R) in *.
  assert (Nl : l <> []) by (intros E; rewrite E in A1; cbn in A1; lia).
  assert (NP : P <> []).
  { intros E. rewrite E in Ps. apply Permutation_nil in Ps. apply app_eq_nil in Ps. tauto. }
  assert (Nc : cases <> []).
  { intros E. rewrite E in Pc. apply Permutation_nil in Pc. apply app_eq_nil in Pc. tauto. }
  pose proof (len_pos cases Nc) as Pn.
  assert (Ln : (length P + length m)%nat = length cases).
  { rewrite (Permutation_length Pc), app_length. reflexivity. }
  destruct m as [|m0 m1] eqn:Em.
  - assert (EPc : P = cases).
    { apply present_all. intros c Hc. destruct (fmissing f c) eqn:Efm; auto. exfalso.
      assert (Hi : In c m) by (apply filter_In; auto). rewrite Em in Hi. destruct Hi. }
    rewrite <- EPc in Ed. fold P in Ed. fold l o in Ed. rewrite (hell_cost_value data k l o Hk Il Io P0 P1) in Ed.
    rewrite Ed. fold v. f_equal. rewrite EPc. field. lra.
  - rewrite <- Em in *. rewrite Ed. unfold charged. rewrite Ln. cbn [nadd nsub nmul ndiv nofZ XR lift2].
    rewrite !IZR_of_nat, xdiv_some by lra. cbn [lift2]. f_equal.
    assert (Ln' : INR (length cases) = (INR (length P) + INR (length m))%R) by (rewrite <- plus_INR; f_equal; lia).
    apply (Rmult_eq_reg_r (INR (length cases))); [|lra]. field_simplify; [|lra|lra]. rewrite Ln'. ring.
Qed.

(** ** Concrete cases *)

(** The feature of C34 with a missing case, and residuals that fit it. *)
Example ex_boosting_hyps :
  searchable PropFeatureSearch.gappy (seq 0 6) /\ faithful PropFeatureSearch.gappy (seq 0 6) /\
  absent PropFeatureSearch.gappy (seq 0 6) = [3] /\ inside [1; 1; 2; 7; 8; 8]%R (seq 0 6) /\
  labelled [0; 0; 1; 1; 1; 0] 2 (seq 0 6).
Proof.
  destruct PropFeatureSearch.ex_gappy_hyps as (H1 & H2 & _ & H3 & _). split; [exact H1|]. split; [exact H2|].
  split; [exact H3|]. split; [unfold inside; rewrite Forall_forall; intros c Hc; apply in_seq in Hc; cbn; lia|].
  unfold labelled. rewrite Forall_forall. intros c Hc. cbn in Hc.
  destruct Hc as [<-|[<-|[<-|[<-|[<-|[<-|[]]]]]]]; cbn; lia.
Qed.
(** The Hellinger search in float64 on that feature splits between 3 and 5. *)
Example ex_hellinger_found :
  match BestSplit F64 _ (hdist_target F64 [0; 0; 0; 1; 1; 1]) (fun _ => 0) PropFeatureSearch.gappy (seq 0 6)
    (f_of_Z (-1)) 1 false (mkAl (repeat f0 6) (repeat 0%Z 6) (mkK (repeat 0%Z 2) (repeat 0%Z 2) (repeat 0%Z 2)) 0) with
  | Ok r => Some (fCode r, nltb F64 (least F64) (fDec r))
  | _ => None
  end = Some (CNum (f_of_Z 4), true).
Proof. vm_compute. reflexivity. Qed.

Print Assumptions C119_boosting_scores_partial.
Print Assumptions C119_boosting_exhaustive_partial.
Print Assumptions C119_lone_missing_refuted.
Print Assumptions C119_lone_missing_float_refuted.
Print Assumptions C119_hellinger_scores.
