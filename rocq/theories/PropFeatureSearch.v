(** C34, C38: the search over one feature with missing values, and constant features. *)
From Verif Require Import Go GoLemmas F64 F64Order F64Round ModelFeature ModelSplit SplitSpec SplitProofs
  ModelSearch SearchSpec SearchProofs CatSearchProofs GrowSpec TotalSearch ModelTargets TargetProofs
  ModelImpurity ImpurityProofs Exact.
From Verif Require PropSearch PropCatSearch.
Import PropCatSearch.
Local Open Scope nat_scope.
Local Open Scope list_scope.

(** ** The number a search reports is that of the split it returns *)
Section Valued.
  Variables (A : arith) (St : Type) (T : target A St) (ok : nat -> Prop) (imp : list nat -> A)
    (cost : list nat -> list nat -> A) (ready : St -> Prop) (holds : list nat -> list nat -> St -> Prop).
  Hypothesis Hon : honest T ok imp cost ready holds.
  Hypothesis Hsym : symmetric cost.
  Hypothesis Hsane : sane A.
  Variable rnd : nat -> nat.
  Let Hord : ordered A := proj1 Hsane.

  Definition valued (f : feature) (cases : list nat) (leaf : nat) (parent : A) (r : found A St) : Prop :=
    nltb A (least A) (fDec r) = true ->
    admissible leaf (coded_left f (fCode r)) cases /\
    fDec r = worth A parent cost (coded_left f (fCode r)) cases.

  Lemma num_valued f cases parent leaf rs al : 1 <= leaf -> Forall ok cases -> ready (aTgt al) ->
    length cases <= length (aVals al) ->
    Forall (fun c => c < length (nData f) /\ valid (nvalue f c) /\ moderate (nvalue f c)) cases ->
    apart f cases ->
    exists r, BestNumSplit A St T rnd f cases parent leaf rs al = Ok r /\ valued (FNum f) cases leaf parent r.
  Proof.
    intros Hleaf Hok Hr Hl Hv Ha.
    destruct (PropSearch.C30_applied_is_evaluated_partial A St T ok imp cost ready holds Hon Hord rnd f cases
      parent leaf rs al) as (r & E & _ & H & _); auto.
    exists r. split; auto. intros L. destruct (H L) as (x & -> & -> & H1 & H2). repeat split; auto.
  Qed.

  Lemma cat_valued f cases parent leaf al : 1 <= leaf -> Forall ok cases -> ready (aTgt al) ->
    length cases <= length (aCat al) -> Forall (has_case (FCat f)) cases ->
    exists r, (let nCats := NCats (cMap f) in
      if negb (cRandom f) && (maxNonBigCats <? nCats) then BestCatSplitIterBig A St T f cases parent leaf al
      else if negb (cRandom f) && (maxExhaustiveCats <? nCats) then BestCatSplitIter A St T f cases parent leaf al
      else if maxNonBigCats <? nCats then BestCatSplitBig A St T rnd f cases parent maxNonRandomExahustive leaf al
      else if nCats =? 2 then BestBinSplit A St T f cases parent leaf al
      else BestCatSplit A St T rnd f cases parent maxNonRandomExahustive leaf al) = Ok r /\
      valued (FCat f) cases leaf parent r.
  Proof.
    intros Hleaf Hok Hr Hl Hc. cbv zeta.
    assert (Hd : Forall (fun c => c < length (cData f)) cases).
    { eapply Forall_impl; [|exact Hc]. intros c H. apply H. }
    assert (Hk : Forall (fun c => c < length (cData f) /\ nth c (cData f) 0 < NCats (cMap f)) cases).
    { eapply Forall_impl; [|exact Hc]. intros c H. split; apply H. }
    destruct (negb (cRandom f) && (maxNonBigCats <? NCats (cMap f))) eqn:D1.
    { destruct (C32_greedy_local_optimum_big A St T ok imp cost ready holds Hon Hord f cases parent leaf al Hok Hr Hd)
        as (r & E & _ & _ & _ & (H & _)). exists r. split; [exact E|exact H]. }
    destruct (negb (cRandom f) && (maxExhaustiveCats <? NCats (cMap f))) eqn:D2.
    { assert (NCats (cMap f) <= 63).
      { apply andb_true_iff in D2 as [D2 _]. rewrite D2 in D1. cbn [andb] in D1.
        unfold maxNonBigCats in D1. apply Nat.ltb_ge in D1. lia. }
      destruct (C32_greedy_local_optimum A St T ok imp cost ready holds Hon Hord f cases parent leaf al)
        as (r & E & _ & _ & _ & (H' & _)); auto. exists r. split; [exact E|exact H']. }
    destruct (maxNonBigCats <? NCats (cMap f)) eqn:D3.
    { destruct (C77_random_categories_best_drawn_big A St T ok imp cost ready holds Hon Hord rnd f cases parent
        maxNonRandomExahustive leaf al) as (r & E & _ & _ & _ & _ & H & _); auto.
      { unfold maxNonRandomExahustive, maxNonBigCats in *. apply Nat.ltb_lt in D3. lia. }
      exists r. split; [exact E|exact H]. }
    apply Nat.ltb_ge in D3.
    destruct (Nat.eqb_spec (NCats (cMap f)) 2) as [E2|N2].
    { rewrite E2 in Hk.
      destruct (C33_binary_split A St T ok imp cost ready holds Hon Hsym f cases parent leaf al Hok Hr Hk)
        as (r & E & _ & _ & C1 & C2). exists r. split; auto. intros L.
      destruct (fConst r) eqn:Ef.
      { exfalso. unfold BestBinSplit in E. apply bind_ok in E as ([[cs l] q] & _ & E).
        destruct ((l <? leaf) || (length cs - q <? leaf)).
        - inversion E; subst r. cbn [fDec] in L. rewrite (proj2 Hsane) in L. discriminate.
        - apply bind_ok in E as (lm & _ & E). apply bind_ok in E as (rm & _ & E).
          apply bind_ok in E as ([v tg] & _ & E). inversion E; subst r. discriminate. }
      destruct (C2 eq_refl) as (B1 & B2 & _).
      assert (Ec : fCode r = CInt 1).
      { unfold BestBinSplit in E. apply bind_ok in E as ([[cs l] q] & _ & E).
        destruct ((l <? leaf) || (length cs - q <? leaf)).
        - inversion E; subst r. discriminate.
        - apply bind_ok in E as (lm & _ & E). apply bind_ok in E as (rm & _ & E).
          apply bind_ok in E as ([v tg] & _ & E). inversion E; subst r. reflexivity. }
      rewrite Ec in *. split; [|exact B2].
      destruct (admissible_dec leaf (among f (only_cat 0)) cases) as [Ad|Na].
      - unfold admissible in *. destruct (side_ext (coded_left (FCat f) (CInt 1)) (among f (only_cat 0)) cases) as [-> ->]; auto.
      - exfalso. apply C1 in Na. discriminate. }
    destruct (le_lt_dec (NCats (cMap f)) maxNonRandomExahustive) as [Le|Gt].
    - destruct (C31_exhaustive_categories_optimal A St T ok imp cost ready holds Hon Hord Hsym rnd f cases parent
        maxNonRandomExahustive leaf al) as (r & E & _ & _ & _ & H & _); auto.
      { unfold maxNonRandomExahustive. lia. }
      exists r. split; [exact E|exact H].
    - destruct (C77_random_categories_best_drawn A St T ok imp cost ready holds Hon Hord rnd f cases parent
        maxNonRandomExahustive leaf al) as (r & E & _ & _ & _ & H & _); auto.
      { unfold maxNonRandomExahustive. lia. }
      exists r. split; [exact E|exact H].
  Qed.
End Valued.

(** ** C34 *)
(** The impurity of a set of cases as a real number, and the weight of a part. *)
Definition weight (rimp : list nat -> R) (l : list nat) : R := (INR (length l) * rimp l)%R.

(** An impurity computed exactly: a real number, not negative, and the impurity of a
    split is the average of its parts weighted by their sizes. *)
Definition averaging (ok : nat -> Prop) (imp : list nat -> XR) (cost : list nat -> list nat -> XR)
    (rimp : list nat -> R) : Prop :=
  (forall l, l <> [] -> Forall ok l -> imp l = Some (rimp l) /\ (0 <= rimp l)%R) /\
  (forall l r, l <> [] -> r <> [] -> Forall ok l -> Forall ok r ->
     cost l r = Some ((weight rimp l + weight rimp r) / (INR (length l) + INR (length r)))%R).

Lemma filter_split_length {B} (g : B -> bool) l :
  length (filter g l) + length (filter (fun x => negb (g x)) l) = length l.
Proof. induction l as [|a l IH]; cbn; auto. destruct (g a); cbn; lia. Qed.

Lemma sane_XR : sane XR.
Proof.
  split; [apply ordered_XR|]. unfold least. cbn [nltb nofZ ndiv XR xcmp].
  rewrite xdiv_some by lra. cbn. apply Rltb_false. lra.
Qed.

(** C34: with missing values BestSplit reports the impurity of the node minus the
    three way weighted impurity of the split it returns. *)
Theorem C34_missing_charged :
  forall (St : Type) (T : target XR St) ok imp cost ready holds rimp,
  honest T ok imp cost ready holds -> symmetric cost -> averaging ok imp cost rimp ->
  forall rnd f cases leaf rs al,
  1 <= leaf -> Forall ok cases -> searchable f cases -> faithful f cases ->
  roomy al (length cases) -> ready (aTgt al) ->
  exists r, BestSplit XR St T rnd f cases (imp cases) leaf rs al = Ok r /\
    (nltb XR (least XR) (fDec r) = true ->
     let l := side (coded_left f (fCode r)) (present f cases) in
     let rt := other (coded_left f (fCode r)) (present f cases) in
     let m := absent f cases in
     leaf <= length l /\ leaf <= length rt /\ length l + length rt + length m = length cases /\
     fDec r = Some (rimp cases - (weight rimp l + weight rimp rt + weight rimp m) / INR (length cases))%R).
Proof.
  intros St T ok imp cost ready holds rimp Hon Hsym (Hi & Hc) rnd f cases leaf rs al Hleaf Hok Hs Hfa [Hl1 Hl2] Hr.
  pose proof sane_XR as Hsane.
  pose proof Hs as (Hf & Hh & Hn).
  pose proof (length_present f cases) as Lp.
  assert (Ok' : Forall ok (present f cases)) by (apply Forall_filter; auto).
  assert (Hh' : Forall (has_case f) (present f cases)) by (apply Forall_filter; auto).
  assert (Main : exists search has mask,
    (forall al, BestSplit XR St T rnd f cases (imp cases) leaf rs al =
       with_missing XR St T has mask search cases (imp cases) al) /\
    fMissingVals f = has /\ (forall c, In c cases -> get mask c = Ok (fmissing f c)) /\
    forall p al', ready (aTgt al') -> length (aVals al') = length (aVals al) ->
      length (aCat al') = length (aCat al) ->
      exists r, search (present f cases) p al' = Ok r /\ valued XR St cost f (present f cases) leaf p r).
  { rewrite Forall_forall in Hh. destruct f as [f|f]; cbn [BestSplit]; [unfold nBestSplit|unfold cBestSplit].
    - eexists _, _, _. split; [reflexivity|]. split; [reflexivity|]. split.
      { intros c Hin. apply (get_default (nMissing f) c false). apply (Hh c Hin). }
      intros p al' R L1 L2. destruct Hfa as [F1 F2].
      eapply num_valued; eauto; try lia.
      apply Forall_forall. intros c Hin. rewrite Forall_forall in Hh'. split; [apply (Hh' c Hin)|auto].
    - eexists _, _, _. split; [reflexivity|]. split; [reflexivity|]. split.
      { intros c Hin. apply (get_default (cMissing f) c false). apply (Hh c Hin). }
      intros p al' R L1 L2. eapply cat_valued; eauto; lia. }
  destruct Main as (search & has & mask & EB & Eh & Em & Hsearch). rewrite EB. clear EB.
  pose proof (set_aside f has mask cases Hf Eh Em) as Ha.
  assert (Split : forall code, length (side (coded_left f code) (present f cases)) +
      length (other (coded_left f code) (present f cases)) = length (present f cases)).
  { intros code. apply filter_split_length. }
  assert (Tot : length (absent f cases) + length (present f cases) = length cases) by apply filter_split_length.
  (* the decrease without missing cases, on the cases that are present *)
  assert (Plain : forall code p, p = imp (present f cases) -> present f cases <> [] ->
    admissible leaf (coded_left f code) (present f cases) ->
    worth XR p cost (coded_left f code) (present f cases) =
      Some (rimp (present f cases) -
            (weight rimp (side (coded_left f code) (present f cases)) +
             weight rimp (other (coded_left f code) (present f cases))) / INR (length (present f cases)))%R).
  { intros code p -> Ne [A1 A2]. specialize (Split code). unfold worth, gain.
    set (l := side (coded_left f code) (present f cases)) in *.
    set (o := other (coded_left f code) (present f cases)) in *.
    destruct (Hi _ Ne Ok') as [-> Pos]. cbn [nltb nofZ XR xcmp].
    replace (Rltb (rimp (present f cases)) 0) with false by (symmetry; apply Rltb_false; lra).
    rewrite Hc.
    - cbn [nsub XR lift2]. rewrite <- plus_INR. rewrite Split. reflexivity.
    - intros ->. cbn in A1. lia.
    - intros ->. cbn in A2. lia.
    - apply Forall_filter; auto.
    - apply Forall_filter; auto. }
  unfold with_missing. destruct has.
  - rewrite Ha. cbn [bind].
    destruct (Nat.eqb_spec (length (present f cases)) 0) as [E0|N0].
    { eexists. split; [reflexivity|]. cbn [fDec]. intros H. exfalso.
      pose proof (proj2 Hsane) as Z. cbn [fst] in *. congruence. }
    assert (Ne : present f cases <> []) by (intros E; rewrite E in N0; cbn in N0; lia).
    destruct (h_imp _ _ _ _ _ _ Hon (present f cases) (aTgt al)) as (s1 & -> & R1); auto. cbn [bind].
    destruct (Hi _ Ne Ok') as [Ei Pos].
    destruct (Nat.ltb_spec 0 (length (absent f cases))) as [Hm|Hm].
    + assert (Nm : absent f cases <> []) by (intros E; rewrite E in Hm; cbn in Hm; lia).
      assert (Okm : Forall ok (absent f cases)) by (apply Forall_filter; auto).
      destruct (h_imp _ _ _ _ _ _ Hon (absent f cases) s1) as (s2 & -> & R2); auto. cbn [bind].
      destruct (Hsearch (imp (present f cases)) (mkAl (aVals al) (aCat al) s2 (aDraw al)) R2 eq_refl eq_refl)
        as (r & -> & V). cbn [bind].
      eexists. split; [reflexivity|]. cbn [fDec fCode andb]. change (minImp XR) with (least XR).
      destruct (nltb XR (least XR) (fDec r)) eqn:L.
      2:{ intros H. rewrite L in H. discriminate. }
      intros _. destruct (V L) as [Ad Ev]. cbv zeta. split; [apply Ad|]. split; [apply Ad|].
      split; [rewrite Split; lia|].
      rewrite Ev. rewrite (Plain _ _ eq_refl Ne Ad).
      assert (Nc : cases <> []) by (intros ->; apply Nm; reflexivity).
      destruct (Hi _ Nc Hok) as [-> _]. destruct (Hi _ Nm Okm) as [-> _]. rewrite Ei.
      replace (length cases - length (absent f cases)) with (length (present f cases)) by lia.
      assert (T0 : IZR (Z.of_nat (length cases)) <> 0%R).
      { rewrite <- INR_IZR_INZ. apply not_0_INR. intros Z0. apply length_zero_iff_nil in Z0. auto. }
      assert (P0 : INR (length (present f cases)) <> 0%R) by (apply not_0_INR; auto).
      cbn [nadd nsub nmul ndiv nofZ XR lift2]. rewrite xdiv_some by auto. cbn [lift2]. f_equal.
      rewrite <- !INR_IZR_INZ in *. unfold weight at 5. field. auto.
    + cbn [bind].
      destruct (Hsearch (imp (present f cases)) (mkAl (aVals al) (aCat al) s1 (aDraw al)) R1 eq_refl eq_refl)
        as (r & -> & V). cbn [bind].
      eexists. split; [reflexivity|]. cbn [fDec fCode andb]. intros L.
      destruct (V L) as [Ad Ev]. cbv zeta. split; [apply Ad|]. split; [apply Ad|].
      assert (Ea : absent f cases = []) by (apply length_zero_iff_nil; lia).
      assert (Ep : present f cases = cases).
      { apply present_all. intros c Hin. destruct (fmissing f c) eqn:E; auto. exfalso.
        assert (In c (absent f cases)) by (apply filter_In; auto). rewrite Ea in H. destruct H. }
      split; [rewrite Split; lia|].
      rewrite Ev. rewrite (Plain _ _ eq_refl Ne Ad), Ea. rewrite Ep. f_equal. unfold weight at 5. cbn. f_equal. f_equal. ring.
  - destruct (Hsearch (imp cases) al Hr eq_refl eq_refl) as (r & E & V). rewrite Ha in *.
    exists r. split; auto. intros L. destruct (V L) as [Ad Ev]. cbv zeta.
    split; [apply Ad|]. split; [apply Ad|].
    assert (Ea : absent f cases = []) by (apply length_zero_iff_nil; lia).
    split; [rewrite Split; lia|].
    rewrite Ev. rewrite (Plain _ _ eq_refl); auto.
    + rewrite Ea. f_equal. unfold weight at 5. cbn. f_equal. f_equal. ring.
    + intros ->. destruct Ad as [A1 _]. cbn in A1. lia.
Qed.

(** *** Regression targets *)
Definition sse (xs : list R) (l : list nat) : R :=
  (snd (PropImpurity2.rsums xs l) - fst (PropImpurity2.rsums xs l) * fst (PropImpurity2.rsums xs l) / INR (length l))%R.

Lemma square_sum (vs : list R) (m : R) :
  Rsum (map (fun v => (v - m) * (v - m))%R vs) =
  (Rsum (map (fun v => v * v)%R vs) - 2 * m * Rsum vs + INR (length vs) * (m * m))%R.
Proof. induction vs as [|v vs IH]; [cbn; lra|]. cbn [map Rsum length]. rewrite S_INR, IH. ring. Qed.

Lemma sse_nonneg xs l : l <> [] -> (0 <= sse xs l)%R.
Proof.
  intros Hl. unfold sse, PropImpurity2.rsums. cbn [fst snd].
  set (vs := ImpuritySpec.values xs l).
  assert (Ev : length vs = length l) by (apply map_length).
  assert (N0 : INR (length vs) <> 0%R).
  { apply not_0_INR. rewrite Ev. intros E. apply length_zero_iff_nil in E. auto. }
  pose proof (square_sum vs (Rsum vs / INR (length vs))) as H.
  pose proof (Rsum_nonneg (fun v => (v - Rsum vs / INR (length vs)) * (v - Rsum vs / INR (length vs)))%R vs) as G.
  rewrite H in G. rewrite <- Ev.
  replace (Rsum (map (fun v => v * v)%R vs) - Rsum vs * Rsum vs / INR (length vs))%R
    with (Rsum (map (fun v => v * v)%R vs) - 2 * (Rsum vs / INR (length vs)) * Rsum vs +
          INR (length vs) * (Rsum vs / INR (length vs) * (Rsum vs / INR (length vs))))%R by (field; auto).
  apply G. intros x _. apply Rle_0_sqr.
Qed.

Lemma sse_averaging xs : averaging (fun c => c < length xs) (sse_imp xs) (sse_cost xs) (sse xs).
Proof.
  assert (V : forall l, l <> [] -> sse_imp xs l = Some (sse xs l)).
  { intros l Hl. unfold sse_imp, sse, len. cbn [nsub nmul ndiv nofZ XR lift2].
    rewrite xdiv_some; [cbn [lift2]; rewrite INR_IZR_INZ; reflexivity|].
    rewrite <- INR_IZR_INZ. apply not_0_INR. intros E. apply length_zero_iff_nil in E. auto. }
  split.
  - intros l Hl _. split; [auto|apply sse_nonneg; auto].
  - intros l r Hl Hr _ _. pose proof (V l Hl) as V1. pose proof (V r Hr) as V2. unfold sse_imp in V1, V2.
    unfold sse_cost. rewrite V1, V2. unfold len, weight. cbn [nadd nmul nofZ XR lift2 ndiv].
    assert (Pos : (0 < INR (length l) + INR (length r))%R).
    { apply Rplus_lt_0_compat; apply lt_0_INR; [destruct l|destruct r]; cbn; try congruence; lia. }
    rewrite <- !INR_IZR_INZ. rewrite xdiv_some by lra. f_equal. f_equal. ring.
Qed.
Lemma sse_symmetric xs : @symmetric XR (sse_cost xs).
Proof.
  intros l r. unfold sse_cost. cbn [nadd nofZ XR].
  assert (Comm : forall x y : xr, lift2 Rplus x y = lift2 Rplus y x).
  { intros [x|] [y|]; cbn; auto. f_equal. ring. }
  rewrite (Comm (nmul XR (len XR l) _)), (Comm (len XR l)). reflexivity.
Qed.

(** C34 for the squared error of a numerical target without rounding. *)
Corollary C34_missing_charged_regression :
  forall (xs : list R) rnd f cases leaf rs al,
  1 <= leaf -> Forall (fun c => c < length xs) cases -> searchable f cases -> faithful f cases ->
  roomy al (length cases) ->
  exists r, BestSplit XR _ (num_target XR (PropImpurity.numeric xs)) rnd f cases (sse_imp xs cases) leaf rs al = Ok r /\
    (nltb XR (least XR) (fDec r) = true ->
     let l := side (coded_left f (fCode r)) (present f cases) in
     let rt := other (coded_left f (fCode r)) (present f cases) in
     let m := absent f cases in
     leaf <= length l /\ leaf <= length rt /\ length l + length rt + length m = length cases /\
     fDec r = Some (sse xs cases - (weight (sse xs) l + weight (sse xs) rt + weight (sse xs) m) / INR (length cases))%R).
Proof.
  intros xs rnd f cases leaf rs al H1 H2 H3 H4 H5.
  apply (C34_missing_charged _ (num_target XR (PropImpurity.numeric xs)) _ _ _ (fun _ => True) _ _
    (num_honest_exact xs) (sse_symmetric xs) (sse_averaging xs)); auto.
Qed.

(** *** Classification targets *)
Lemma gini_honest_exact data n :
  honest (gini_target XR data) (in_data data n) (gini_val XR data n) (gini_cost XR data n)
    (cst_ready n) (cst_holds data n).
Proof.
  apply counting_honest with (from := GiniFromCounts XR).
  - intros cases counter. reflexivity.
  - intros l Hl. reflexivity.
  - intros. apply gini_val_perm; auto.
  - intros l r l' r' moved k Lm Ll Lr P1 P2 K1 K2 K3.
    rewrite (update_gini_from XR data _ l r l' r' moved None k n) by (auto; exact I).
    cbn [has_m bind GiniFromCounts].
    assert (Ez : nadd XR (nadd XR (len XR l') (len XR r')) (nofZ XR 0) = nadd XR (len XR l') (len XR r')).
    { unfold len. cbn [nadd nofZ XR lift2]. f_equal. ring. }
    unfold avg_cost. rewrite Ez. reflexivity.
Qed.

Lemma avg_averaging ok val rimp :
  (forall l, l <> [] -> Forall ok l -> val l = Some (rimp l) /\ (0 <= rimp l)%R) ->
  averaging ok val (avg_cost XR val) rimp.
Proof.
  intros V. split; auto. intros l r Hl Hr Ol Or. unfold avg_cost.
  destruct (V l Hl Ol) as [-> _]. destruct (V r Hr Or) as [-> _].
  unfold len, weight. cbn [nadd nmul nofZ XR lift2 ndiv].
  assert (Pos : (0 < INR (length l) + INR (length r))%R).
  { apply Rplus_lt_0_compat; apply lt_0_INR; [destruct l|destruct r]; cbn; try congruence; lia. }
  rewrite <- !INR_IZR_INZ. rewrite xdiv_some by lra. f_equal. f_equal. ring.
Qed.
Lemma avg_symmetric (val : list nat -> XR) : @symmetric XR (avg_cost XR val).
Proof.
  intros l r. unfold avg_cost. cbn [nadd nofZ XR].
  assert (Comm : forall x y : xr, lift2 Rplus x y = lift2 Rplus y x).
  { intros [x|] [y|]; cbn; auto. f_equal. ring. }
  rewrite (Comm (nmul XR (len XR l) _)), (Comm (len XR l)). reflexivity.
Qed.

Definition gini_of (data : list nat) (n : nat) (l : list nat) : R := ImpuritySpec.gini (ImpuritySpec.labels data l) n.
Definition entropy_of (data : list nat) (n : nat) (l : list nat) : R := ImpuritySpec.entropy (ImpuritySpec.labels data l) n.
Lemma labels_nonnil data (l : list nat) : l <> [] -> ImpuritySpec.labels data l <> [].
Proof. destruct l; [congruence|discriminate]. Qed.
Lemma gini_averaging data n : averaging (in_data data n) (gini_val XR data n) (gini_cost XR data n) (gini_of data n).
Proof.
  apply avg_averaging. intros l Hl Ol. split.
  - pose proof (PropImpurity.gini_value data n l (repeat 0%Z n) (repeat_length _ _) Ol Hl) as G.
    unfold GiniWithoutAlocate in G. rewrite CountPerCat_ok in G by (rewrite repeat_length; exact Ol).
    rewrite repeat_length in G. cbn [bind] in G. inversion G as [G1]. exact G1.
  - apply gini_nonneg; [apply labels_nonnil; auto|]. apply (PropImpurity.labels_bound data n l Ol).
Qed.
Lemma entropy_averaging data n :
  averaging (in_data data n) (entropy_val XR PropImpurity.xlog data n)
    (avg_cost XR (entropy_val XR PropImpurity.xlog data n)) (entropy_of data n).
Proof.
  apply avg_averaging. intros l Hl Ol. split.
  - pose proof (PropImpurity.entropy_value data n l (repeat 0%Z n) (repeat_length _ _) Ol Hl) as G.
    unfold EntropyImpurity in G. rewrite CountPerCat_ok in G by (rewrite repeat_length; exact Ol).
    rewrite repeat_length in G. cbn [bind] in G. inversion G as [G1]. exact G1.
  - apply entropy_nonneg. apply labels_nonnil; auto.
Qed.

Corollary C34_missing_charged_gini :
  forall (data : list nat) n rnd f cases leaf rs al,
  1 <= leaf -> Forall (in_data data n) cases -> searchable f cases -> faithful f cases ->
  roomy al (length cases) -> cst_ready n (aTgt al) ->
  exists r, BestSplit XR _ (gini_target XR data) rnd f cases (gini_val XR data n cases) leaf rs al = Ok r /\
    (nltb XR (least XR) (fDec r) = true ->
     let l := side (coded_left f (fCode r)) (present f cases) in
     let rt := other (coded_left f (fCode r)) (present f cases) in
     let m := absent f cases in
     leaf <= length l /\ leaf <= length rt /\ length l + length rt + length m = length cases /\
     fDec r = Some (gini_of data n cases - (weight (gini_of data n) l + weight (gini_of data n) rt
                    + weight (gini_of data n) m) / INR (length cases))%R).
Proof.
  intros data n rnd f cases leaf rs al H1 H2 H3 H4 H5 H6.
  apply (C34_missing_charged _ (gini_target XR data) _ _ _ _ _ _
    (gini_honest_exact data n) (avg_symmetric _) (gini_averaging data n)); auto.
Qed.

Corollary C34_missing_charged_entropy :
  forall (data : list nat) n rnd f cases leaf rs al,
  1 <= leaf -> Forall (in_data data n) cases -> searchable f cases -> faithful f cases ->
  roomy al (length cases) -> cst_ready n (aTgt al) ->
  exists r, BestSplit XR _ (entropy_target XR PropImpurity.xlog data) rnd f cases
      (entropy_val XR PropImpurity.xlog data n cases) leaf rs al = Ok r /\
    (nltb XR (least XR) (fDec r) = true ->
     let l := side (coded_left f (fCode r)) (present f cases) in
     let rt := other (coded_left f (fCode r)) (present f cases) in
     let m := absent f cases in
     leaf <= length l /\ leaf <= length rt /\ length l + length rt + length m = length cases /\
     fDec r = Some (entropy_of data n cases - (weight (entropy_of data n) l + weight (entropy_of data n) rt
                    + weight (entropy_of data n) m) / INR (length cases))%R).
Proof.
  intros data n rnd f cases leaf rs al H1 H2 H3 H4 H5 H6.
  apply (C34_missing_charged _ (entropy_target XR PropImpurity.xlog data) _ _ _ _ _ _
    (entropy_honest XR PropImpurity.xlog data n) (avg_symmetric _) (entropy_averaging data n)); auto.
Qed.

(** ** C38 *)
Definition part_of (sub cases : list nat) : Prop := exists rest, Permutation cases (sub ++ rest).

Lemma filter_perm {B} (g : B -> bool) l l' : Permutation l l' -> Permutation (filter g l) (filter g l').
Proof.
  induction 1; cbn; auto.
  - destruct (g x); auto.
  - destruct (g x), (g y); auto. apply perm_swap.
  - etransitivity; eauto.
Qed.

Lemma hopeless_below f leaf cases sub : part_of sub cases -> hopeless f leaf cases -> hopeless f leaf sub.
Proof.
  intros (rest & P) H. destruct f as [g|g]; cbn [hopeless] in *.
  - intros c d Hc Hd. apply H; apply present_in; rewrite present_in in *; destruct Hc, Hd; split; auto;
      eapply Permutation_in; try (symmetry; exact P); apply in_or_app; auto.
  - intros s [A1 A2]. apply (H s).
    assert (M : forall h : nat -> bool, length (filter h (present (FCat g) sub)) <= length (filter h (present (FCat g) cases))).
    { intros h. unfold present. rewrite (Permutation_length (filter_perm h _ _ (filter_perm _ _ _ P))).
      rewrite !filter_app, app_length. lia. }
    split; [eapply Nat.le_trans; [exact A1|apply M]|eapply Nat.le_trans; [exact A2|apply M]].
Qed.

(** No search finds a split on hopeless cases. *)
Section Hopeless.
  Variables (A : arith) (St : Type) (T : target A St) (ok : nat -> Prop) (ready : St -> Prop).
  Hypothesis Dep : dependable T ok ready.
  Hypothesis Hsane : sane A.
  Variable rnd : nat -> nat.

  Lemma hopeless_num f cases parent leaf rs al r :
    Forall (fun c => c < length (nData f) /\ nn (nvalue f c)) cases -> length cases <= length (aVals al) -> 1 <= leaf ->
    (forall c d, In c cases -> In d cases -> fleb (nvalue f c) (fadd (nvalue f d) f1e_7) = true) ->
    BestNumSplit A St T rnd f cases parent leaf rs al = Ok r -> fDec r = least A.
  Proof.
    intros Hv Hl Hleaf Hh E. unfold BestNumSplit in E.
    destruct (Nat.leb_spec (2 * leaf) (length cases)) as [Hn|Hn].
    2:{ inversion E; subst r. reflexivity. }
    destruct (load_sort f cases (aVals al) Hv Hl) as (cs & vs & Es & P & L & Hget & Hs).
    apply bind_ok in Es as (w & Ew & Es). rewrite Ew in E. cbn [bind] in E. rewrite Es in E.
    cbn [bind aTgt aDraw aCat aVals] in E.
    pose proof (Permutation_length P) as PL.
    rewrite (Hget 0) in E by lia. cbn [bind] in E.
    replace (Z.of_nat (length cases) - 1)%Z with (Z.of_nat (length cases - 1)) in E by lia.
    rewrite getZ_of_nat, Hget in E by lia. cbn [bind] in E.
    rewrite Hh in E.
    - inversion E; subst r. reflexivity.
    - eapply Permutation_in; [symmetry; exact P|apply nth_In; lia].
    - eapply Permutation_in; [symmetry; exact P|apply nth_In; lia].
  Qed.

  Lemma hopeless_search f cases parent leaf rs al :
    1 <= leaf -> Forall ok cases -> searchable f cases -> roomy al (length cases) -> ready (aTgt al) ->
    hopeless f leaf cases ->
    exists r, BestSplit A St T rnd f cases parent leaf rs al = Ok r /\ nltb A (least A) (fDec r) = false.
  Proof.
    intros Hleaf Hok Hs Hl Hr Hh.
    destruct (BestSplit_promise A St T ok ready Dep Hsane rnd f cases parent leaf rs al Hleaf Hok Hs Hl Hr)
      as (r & E & _ & _ & _ & Hg & _).
    exists r. split; auto. destruct (nltb A (least A) (fDec r)) eqn:L; auto. exfalso.
    destruct f as [f|f].
    - cbn [BestSplit] in E. unfold nBestSplit, with_missing in E.
      destruct Hs as (Hf & Hc & Hn). rewrite Forall_forall in Hc. destruct Hl as [Hl _].
      assert (Hv : Forall (fun c => c < length (nData f) /\ nn (nvalue f c)) (present (FNum f) cases)).
      { apply Forall_forall. intros c Hi. split; [apply Hc, (proj1 (proj1 (present_in _ _ _) Hi))|apply Hn; auto]. }
      pose proof (length_present (FNum f) cases) as Lp.
      assert (Irr : nltb A (least A) (least A) = false) by apply (proj1 (proj1 Hsane)).
      pose proof (set_aside (FNum f) (nHas f) (nMissing f) cases Hf eq_refl) as Ha.
      assert (Ha' := Ha ltac:(intros c Hi; apply (get_default (nMissing f) c false); apply (Hc c Hi))). clear Ha.
      destruct (nHas f).
      + rewrite Ha' in E. cbn [bind] in E. destruct (length (present (FNum f) cases) =? 0).
        { inversion E; subst r. cbn [fDec] in L. rewrite (proj2 Hsane) in L. discriminate. }
        apply bind_ok in E as ([p s1] & _ & E). apply bind_ok in E as ([m s2] & _ & E).
        apply bind_ok in E as (q & Eq & E). inversion E; subst r. cbn [fDec] in L.
        apply hopeless_num in Eq; auto; [|cbn [aVals]; lia].
        rewrite Eq in L. change (minImp A) with (least A) in L. rewrite Irr, andb_false_r in L. congruence.
      + rewrite Ha' in Hv. cbn [hopeless] in Hh. rewrite Ha' in Hh. apply hopeless_num in E; auto. congruence.
    - destruct (Hg eq_refl I) as [_ Ad]. apply (Hh (code_set (fCode r))). exact Ad.
  Qed.
End Hopeless.

(** C38: a feature reported constant has no split on any part of the cases, whatever
    target, draws and impurities the search is run with. *)
Theorem C38_constant_stays_constant :
  forall (A : arith) (St : Type) (T : target A St) ok ready, dependable T ok ready -> sane A ->
  forall rnd f cases parent leaf rs al r,
  1 <= leaf -> Forall ok cases -> searchable f cases -> roomy al (length cases) -> ready (aTgt al) ->
  deterministic f ->
  BestSplit A St T rnd f cases parent leaf rs al = Ok r -> fConst r = true ->
  forall sub, part_of sub cases ->
  (* no split leaves [leaf] cases on both sides, or the values are all equal up to 1e-7 *)
  hopeless f leaf sub /\
  (* a categorical feature has no legal split *)
  (forall g s, f = FCat g -> ~ admissible leaf (among g s) (present f sub)) /\
  (* and no later search finds one *)
  (forall (A' : arith) (St' : Type) (T' : target A' St') ok' ready', dependable T' ok' ready' -> sane A' ->
   forall rnd' parent' rs' al',
   Forall ok' sub -> roomy al' (length sub) -> ready' (aTgt al') ->
   exists r', BestSplit A' St' T' rnd' f sub parent' leaf rs' al' = Ok r' /\
     nltb A' (least A') (fDec r') = false).
Proof.
  intros A St T ok ready Dep Hsane rnd f cases parent leaf rs al r Hleaf Hok Hs Hl Hr Hd E Ec sub Hsub.
  destruct (BestSplit_promise A St T ok ready Dep Hsane rnd f cases parent leaf rs al Hleaf Hok Hs Hl Hr)
    as (r' & E' & _ & _ & _ & _ & _ & Hh).
  assert (r' = r) by congruence. subst r'.
  assert (Hb : hopeless f leaf sub) by (eapply hopeless_below; eauto).
  split; auto. split; [intros g s ->; apply Hb|].
  intros A' St' T' ok' ready' Dep' Hsane' rnd' parent' rs' al' Hok' Hl' Hr'.
  apply (hopeless_search A' St' T' ok' ready'); auto.
  destruct Hsub as (rest & P). destruct Hs as (Hf & Hc & Hn). split; auto. split.
  - apply (Permutation_Forall P) in Hc. apply Forall_app in Hc. apply Hc.
  - destruct f as [g|g]; auto. intros c Hi. apply Hn. rewrite present_in in *. destruct Hi; split; auto.
    eapply Permutation_in; [symmetry; exact P|]. apply in_or_app; auto.
Qed.

(** With random draws (eleven categories or more and the random option) a feature is
    reported constant because no drawn set of categories was admissible. *)
Definition eleven : catF :=
  cats ["a"; "b"; "c"; "d"; "e"; "f"; "g"; "h"; "i"; "j"; "k"]%string (seq 0 11 ++ seq 0 11) true.
Definition eleven_classes : list nat := map (fun c => c mod 2) (seq 0 11 ++ seq 0 11).
Definition eleven_run (rnd : nat -> nat) : res (found F64 cst) :=
  BestSplit F64 cst (gini_target F64 eleven_classes) rnd (FCat eleven) (seq 0 22) half 1 false (fresh 22).
Definition constant_and_found {St} (r : res (found F64 St)) : option (bool * bool) :=
  match r with Ok r => Some (fConst r, nltb F64 (least F64) (fDec r)) | _ => None end.
Theorem C38_random_refuted :
  (* draws with which the feature is reported constant *)
  constant_and_found (eleven_run (fun _ => 0)) = Some (true, false) /\
  (* although splits exist, and other draws find one on the same cases *)
  admissible 1 (among eleven (fun c => c mod 2 =? 0)) (present (FCat eleven) (seq 0 22)) /\
  constant_and_found (eleven_run (fun k => k)) = Some (false, true).
Proof. split; [vm_compute; reflexivity|]. split; [split; vm_compute; lia|vm_compute; reflexivity]. Qed.

(** ** Cases meeting the hypotheses *)
(** Values 1, 2, 3, ?, 5, 6 with one missing value, targets 1, 1, 2, 7, 8, 8. *)
Definition gappy : feature :=
  FNum (mkNum (map f_of_Z [1; 2; 3; 0; 5; 6]%Z) [false; false; false; true; false; false] "x"%string true).
Example ex_gappy_hyps :
  searchable gappy (seq 0 6) /\ faithful gappy (seq 0 6) /\
  present gappy (seq 0 6) = [0; 1; 2; 4; 5] /\ absent gappy (seq 0 6) = [3] /\
  Forall (fun c => c < length [1; 1; 2; 7; 8; 8]%R) (seq 0 6) /\
  roomy (mkAl (repeat f0 6) (repeat 0%Z 6) tt 0) 6.
Proof.
  split; [|split; [|split; [reflexivity|split; [reflexivity|split; [repeat constructor; cbn; lia|]]]]].
  - split; [intros c; do 6 (destruct c as [|c]; [reflexivity|]); cbn; destruct c; discriminate|].
    split; [repeat constructor; cbn; lia|].
    intros c Hc. cbn in Hc. destruct Hc as [<-|[<-|[<-|[<-|[<-|[]]]]]]; vm_compute; auto.
  - split.
    + intros c Hc. cbn in Hc. destruct Hc as [<-|[<-|[<-|[<-|[<-|[]]]]]]; vm_compute; auto.
    + intros c d Hc Hd. cbn in Hc, Hd.
      destruct Hc as [<-|[<-|[<-|[<-|[<-|[]]]]]], Hd as [<-|[<-|[<-|[<-|[<-|[]]]]]]; vm_compute; auto; discriminate.
  - split; cbn; lia.
Qed.
(** The same search in float64 splits between 3 and 5. *)
Example ex_gappy_found :
  match BestSplit F64 _ (num_target F64 (map f_of_Z [1; 1; 2; 7; 8; 8]%Z)) (fun _ => 0) gappy (seq 0 6)
    (f_of_Z 62) 1 false (mkAl (repeat f0 6) (repeat 0%Z 6)
      (@mkSums F64 f0 f0 f0 f0 f0 f0) 0) with
  | Ok r => Some (fCode r, nltb F64 (least F64) (fDec r))
  | _ => None
  end = Some (CNum (f_of_Z 4), true).
Proof. vm_compute. reflexivity. Qed.

(** Two cases of each of two categories cannot be split into leaves of three. *)
Example ex_constant :
  constant_and_found (BestSplit F64 cst (gini_target F64 [0; 1; 0; 1]) (fun _ => 0)
    (FCat (cats ["no"; "yes"]%string [0; 1; 0; 1] false)) (seq 0 4) half 3 false (fresh 4)) = Some (true, false).
Proof. vm_compute. reflexivity. Qed.

Print Assumptions C34_missing_charged.
Print Assumptions C34_missing_charged_regression.
Print Assumptions C34_missing_charged_gini.
Print Assumptions C34_missing_charged_entropy.
Print Assumptions C38_constant_stays_constant.
Print Assumptions C38_random_refuted.
