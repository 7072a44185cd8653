(** Properties C98 and C99: what growforest makes of its boosting flags, and its report on
    test data. *)
From Verif Require Import Go GoLemmas F64 F64Order Exact ModelFeature FeatureSpec FeatureProofs ModelSort ModelSearch ModelText ModelMatrix
  ModelBallot BallotSpec BallotProofs PropBallot ModelGrow SearchSpec ModelCommands.
From Coq Require Import Reals Lra.
Local Open Scope string_scope.
Local Open Scope nat_scope.
Local Open Scope list_scope.

(** ** C98.  Boosting.  The claim in full: for every target column and every choice of
    flags, when boosting is asked for the forest is grown with the boosting target asked
    for and its Boost is called after the tree. *)

(** A target as it is read from the file. *)
Definition column (k : kind) : Prop := k = KNum \/ k = KCat.
(** No flag that chooses another categorical target first. *)
Definition undisturbed (fl : tflags) : Prop :=
  tNP fl = false /\ given (tCosts fl) = false /\ given (tDentropy fl) = false /\ given (tAdacosts fl) = false /\
  given (tRfweights fl) = false /\ tEntropy fl = false /\ tAdaboost fl = false /\ tHellinger fl = false /\
  given (tUnlabeled fl) = false.

(** Exactly when a boosted forest can be grown, and by what. *)
Theorem C98_gradient_boosting_partial : forall fl k, column k -> boosts fl = true ->
  forall t b, first_tree fl k = Ok (t, b) <->
    (b = true /\ tDensity fl = false /\ grads fl = true
     /\ (k = KNum /\ t = KWrap WGrad (if tOrdinal fl then KWrap WOrdinal (if tL1 fl then KWrap WL1 KNum else KNum)
                                       else if tL1 fl then KWrap WL1 KNum else KNum)
         \/ k = KCat /\ undisturbed fl /\ t = KGradClass)).
Proof.
  intros [de l1 od gb ad np co dn ac rf en he un ve] k Hk. unfold undisturbed, first_tree, choose_target, wrap_num, wrap_cat, one_tree, boosts, given, grads.
  cbn [tDensity tL1 tOrdinal tGradboost tAdaboost tNP tCosts tDentropy tAdacosts tRfweights tEntropy tHellinger tUnlabeled tVet].
  generalize (negb (feqb gb f0)). generalize (negb (co =? "")%string) (negb (dn =? "")%string) (negb (ac =? "")%string)
    (negb (rf =? "")%string) (negb (un =? "")%string). clear gb co dn ac rf un.
  intros co dn ac rf un g Hb t b. destruct Hk as [-> | ->].
  - destruct de, l1, od, g, ad, ve; try discriminate Hb; cbn;
    (split; [intros H; try discriminate H; inversion H; subst; intuition
            |intros (-> & Hd & Hg & [[_ ->]|[H _]]); try discriminate; reflexivity]).
  - destruct de; [destruct ad, g, ve; try discriminate Hb; cbn; (split; [discriminate|intros (_ & H & _); discriminate])|].
    destruct np, co, dn, ac, rf, en, ad, he, g, un, ve; try discriminate Hb; cbn;
    (split; [intros H; try discriminate H; inversion H; subst; intuition
            |intros (-> & _ & Hg & [[H _]|[_ [(H1 & H2 & H3 & H4 & H5 & H6 & H7 & H8 & H9) ->]]]); try discriminate; reflexivity]).
Qed.

(** Everything else that asks for boosting stops at the first tree: -adaboost with any
    categorical target, -adaboost alone with a numerical one, -density, and -gradboost of a
    categorical target together with any flag that chooses another target. *)
Theorem C98_boosting_panics_refuted : forall fl k, column k -> boosts fl = true ->
  tDensity fl = true \/ grads fl = false \/ (k = KCat /\ ~ undisturbed fl) ->
  first_tree fl k = Panic.
Proof.
  intros [de l1 od gb ad np co dn ac rf en he un ve] k Hk. unfold undisturbed, first_tree, choose_target, wrap_num, wrap_cat, one_tree, boosts, given, grads.
  cbn [tDensity tL1 tOrdinal tGradboost tAdaboost tNP tCosts tDentropy tAdacosts tRfweights tEntropy tHellinger tUnlabeled tVet].
  generalize (negb (feqb gb f0)). generalize (negb (co =? "")%string) (negb (dn =? "")%string) (negb (ac =? "")%string)
    (negb (rf =? "")%string) (negb (un =? "")%string). clear gb co dn ac rf un.
  intros co dn ac rf un g Hb H. destruct Hk as [-> | ->].
  - destruct de, g, ad, l1, od, ve; try discriminate Hb; try reflexivity;
      destruct H as [H|[H|[H _]]]; discriminate H.
  - destruct de; [destruct ad, g, ve; try discriminate Hb; reflexivity|].
    destruct H as [H|[H|[_ H]]]; [discriminate|subst g; destruct ad; [|discriminate Hb]; destruct np, co, dn, ac, rf, en, he, un, ve; reflexivity|].
    destruct np, co, dn, ac, rf, en, ad, he, un; try (exfalso; apply H; tauto);
      destruct g; try discriminate Hb; destruct ve; reflexivity.
Qed.
Corollary C98_adaboost_refuted : forall fl k, column k -> tAdaboost fl = true -> k = KCat \/ grads fl = false ->
  first_tree fl k = Panic.
Proof.
  intros fl k Hk Ha H. apply C98_boosting_panics_refuted; auto.
  - unfold boosts. rewrite Ha. reflexivity.
  - destruct H as [H|H]; auto. right; right. split; auto. intros (_ & _ & _ & _ & _ & _ & Ha' & _). congruence.
Qed.

(** -adacost chooses the target that is made for boosting and never boosts it. *)
Theorem C98_adacosts_refuted : forall fl, boosts fl = false -> tDensity fl = false ->
  tNP fl = false -> given (tCosts fl) = false -> given (tDentropy fl) = false -> given (tAdacosts fl) = true ->
  given (tUnlabeled fl) = false ->
  first_tree fl KCat = Ok (KWrap WAdaCost KCat, false).
Proof.
  intros fl Hb Hd Hn Hc He Ha Hu. unfold first_tree, choose_target, wrap_cat, one_tree.
  rewrite Hd, Hn, Hc, He, Ha. cbn. rewrite Hu. cbn. rewrite andb_false_r, Hb. reflexivity.
Qed.

(** The library's GrowRandomForest boosts a wrapped target only if it is a gradient boosting
    one: none of the three adaptive targets is boosted, silently. *)
Theorem C98_library_refuted : forall w k, forest_boosts (KWrap w k) = true <-> w = WGrad.
Proof. intros w k. destruct w; cbn; split; intros H; try discriminate; reflexivity. Qed.

(** What boosts is what has an intercept to write to the forest file. *)
Theorem C98_intercept : forall k, writes_intercept k = forest_boosts k.
Proof. intros [| |w k| |]; try reflexivity. destruct w; reflexivity. Qed.

Definition flags0 : tflags := mkTF false false false f0 false false "" "" "" "" false false "" false.
Example C98_example :
  first_tree (mkTF false true false f1 false false "" "" "" "" false false "" true) KNum = Ok (KWrap WGrad (KWrap WL1 KNum), true)
  /\ first_tree (mkTF false false false f1 false false "" "" "" "" false false "" false) KCat = Ok (KGradClass, true)
  /\ first_tree (mkTF false false false f0 true false "" "" "" "" false false "" false) KCat = Panic
  /\ first_tree (mkTF false false false f0 true false "" "" "" "" false false "" false) KNum = Panic
  /\ first_tree (mkTF false false false f1 false false "" "" "" "" true false "" false) KCat = Panic
  /\ first_tree flags0 KCat = Ok (KCat, false).
Proof. vm_compute. repeat split; reflexivity. Qed.

(** ** C99.  The report on test data.  The claim in full: for every column of actual values
    and every list of predictions (a category or NA), the counts reported for a category are
    the number of cases with that actual value, with that prediction, with both, and with
    that prediction and another actual value; and the totals those of correct and
    unpredicted cases. *)

(** How many pairs of actual value and prediction satisfy [P]. *)
Definition cnt (l : list (string * string)) (P : string -> string -> bool) : nat :=
  length (filter (fun '(v, p) => P v p) l).
Lemma cnt_snoc l v p P : cnt (l ++ [(v, p)]) P = cnt l P + (if P v p then 1 else 0).
Proof. unfold cnt. rewrite filter_snoc, app_length. destruct (P v p); reflexivity. Qed.

(** A list of counts, one for each category. *)
Definition counts (cats : list string) (l : list nat) (F : nat -> string -> nat) : Prop :=
  length l = length cats /\ forall k c, nth_error cats k = Some c -> nth_error l k = Some (F k c).

Lemma counts_incr cats l F G k0 : counts cats l F -> k0 < length cats ->
  (forall k c, nth_error cats k = Some c -> G k c = F k c + (if k =? k0 then 1 else 0)) ->
  exists l', incr l k0 = Ok l' /\ counts cats l' G.
Proof.
  intros [L H] Hk HG. unfold incr.
  destruct (nth_error cats k0) as [c|] eqn:E; [|apply nth_error_None in E; lia].
  rewrite (get_nth _ _ (H _ _ E)). cbn [bind]. rewrite set_ok by lia.
  eexists. split; [reflexivity|]. split; [rewrite upd_length; auto|].
  intros k c' Hk'. rewrite (HG _ _ Hk'). destruct (Nat.eqb_spec k k0) as [->|Hne].
  - rewrite E in Hk'. inversion Hk'; subst. rewrite nth_error_upd_eq by lia. reflexivity.
  - rewrite nth_error_upd_neq by auto. rewrite Nat.add_0_r. auto.
Qed.
Lemma counts_same cats l F G : counts cats l F ->
  (forall k c, nth_error cats k = Some c -> G k c = F k c) -> counts cats l G.
Proof. intros [L H] HG. split; auto. intros k c Hk. rewrite HG by auto. auto. Qed.
Lemma incr_length l k l' : incr l k = Ok l' -> length l' = length l /\ k < length l.
Proof.
  unfold incr. intros H. apply bind_ok in H as (n & E & H).
  destruct (lt_dec k (length l)) as [Hk|Hk]; [|rewrite get_panic in E by lia; discriminate].
  rewrite set_ok in H by auto. inversion H; subst. rewrite upd_length. auto.
Qed.
Lemma incr_panic l k : length l <= k -> incr l k = Panic.
Proof. intros H. unfold incr. rewrite get_panic by auto. reflexivity. Qed.

Lemma eqb_refl' s : String.eqb s s = true.
Proof. apply String.eqb_refl. Qed.
Lemma cats_plain name vs c : In c (cmBack (cMap (appends (emptyCat name) vs))) -> missing_token c = false /\ In c vs.
Proof.
  rewrite (ho_back _ _ (appends_ok name vs)), in_first_occurrences. intros [[]|H].
  apply filter_In in H as [H1 H2]. apply negb_true_iff in H2. auto.
Qed.

(** What is counted, with missing actual values in their place: a missing value is stored as
    category 0, and is counted among the cases of that category. *)
Theorem C99_report_with_missing : forall name vs preds,
  length preds = length vs ->
  (exists v, In v vs /\ missing_token v = false) ->
  Forall (fun p => p = "NA" \/ (In p vs /\ missing_token p = false)) preds ->
  let f := appends (emptyCat name) vs in
  let cases := combine vs preds in
  exists r, test_report f (fun i => get preds i) = Ok (f, r)
    /\ let of_cats := counts (cmBack (cMap f)) in
       of_cats (rTrue r) (fun k c => cnt cases (fun v p => String.eqb v c) + (if k =? 0 then cnt cases (fun v p => missing_token v) else 0))
    /\ of_cats (rPreds r) (fun _ c => cnt cases (fun v p => String.eqb p c))
    /\ of_cats (rTrueByTrue r) (fun _ c => cnt cases (fun v p => String.eqb v c && String.eqb p c))
    /\ of_cats (rFalses r) (fun _ c => cnt cases (fun v p => negb (String.eqb v c) && String.eqb p c))
    /\ rCorrect r = cnt cases (fun v p => negb (missing_token v) && String.eqb v p)
    /\ rNas r = cnt cases (fun v p => String.eqb p "NA").
Proof.
  intros name vs preds Hlen Hsome Hpreds f cases.
  pose proof (appends_ok name vs) as Ho. fold f in Ho. destruct Ho as [Hcm Hl1 Hl2 Hst Hback Hhas].
  set (cats := cmBack (cMap f)) in *.
  assert (Hcats : forall c, In c cats <-> In c vs /\ missing_token c = false).
  { intros c. rewrite Hback, in_first_occurrences, filter_In, negb_true_iff. cbn. tauto. }
  assert (Hpos : 0 < length cats).
  { destruct Hsome as (v & Hv & Hm). assert (In v cats) by (apply Hcats; auto). destruct cats; [contradiction|cbn; lia]. }
  assert (Huniq : forall k k' c, nth_error cats k = Some c -> nth_error cats k' = Some c -> k = k').
  { intros k k' c H1 H2. pose proof (cm_ok_nodup _ Hcm) as N. rewrite NoDup_nth_error in N. apply N.
    - eapply nth_error_some_lt; eauto.
    - unfold cats in *. congruence. }
  assert (Hplain : forall k c, nth_error cats k = Some c -> missing_token c = false).
  { intros k c H. apply nth_error_In in H. apply Hcats in H. tauto. }
  assert (Hk : forall k c c' k', nth_error cats k = Some c -> nth_error cats k' = Some c' -> (k =? k') = String.eqb c' c).
  { intros k c c' k' H1 H2. destruct (Nat.eqb_spec k k') as [->|Hne], (String.eqb_spec c' c) as [->|Hne']; auto; try congruence.
    exfalso; apply Hne; eauto. }
  assert (Hmiss : forall v c k, missing_token v = true -> nth_error cats k = Some c -> String.eqb v c = false).
  { intros v c k H1 H2. apply Hplain in H2. destruct (String.eqb_spec v c); auto. congruence. }
  set (Inv := fun (i : nat) (s : catF * report) => let '(g, r) := s in g = f
    /\ let l := firstn i cases in
       counts cats (rTrue r) (fun k c => cnt l (fun v p => String.eqb v c) + (if k =? 0 then cnt l (fun v p => missing_token v) else 0))
    /\ counts cats (rPreds r) (fun _ c => cnt l (fun v p => String.eqb p c))
    /\ counts cats (rTrueByTrue r) (fun _ c => cnt l (fun v p => String.eqb v c && String.eqb p c))
    /\ counts cats (rFalses r) (fun _ c => cnt l (fun v p => negb (String.eqb v c) && String.eqb p c))
    /\ rCorrect r = cnt l (fun v p => negb (missing_token v) && String.eqb v p)
    /\ rNas r = cnt l (fun v p => String.eqb p "NA")).
  assert (Hz : forall F, (forall k c, F k c = 0) -> counts cats (repeat 0 (length cats)) F).
  { intros F HF. split; [apply repeat_length|]. intros k c H. rewrite HF. apply nth_error_repeat. eapply nth_error_some_lt; eauto. }
  unfold test_report. change (NCats (cMap f)) with (length cats).
  assert (Hlf : cLength f = length vs) by (unfold cLength; auto). rewrite Hlf.
  assert (T : yields (for_up (length vs) 0 (report_case (fun i => get preds i))
     (f, mkReport (repeat 0 (length cats)) (repeat 0 (length cats)) (repeat 0 (length cats)) (repeat 0 (length cats)) 0 0)) (Inv (0 + length vs))).
  2:{ destruct T as ((g & r) & E & -> & HI). rewrite E. exists r. split; [reflexivity|].
      assert (E' : firstn (0 + length vs) cases = cases).
      { apply firstn_all2. unfold cases. rewrite combine_length. lia. }
      rewrite E' in HI. exact HI. }
  apply (@for_up_total (catF * report)%type Inv).
  2:{ cbn. split; auto. repeat split; try apply repeat_length; intros k c H; rewrite nth_error_repeat by (eapply nth_error_some_lt; eauto);
      f_equal; cbn; destruct (k =? 0); reflexivity. }
  intros i [g r] Hi (-> & HT & HP & HB & HF & HC & HN).
  destruct (nth_error vs i) as [v|] eqn:Ev; [|apply nth_error_None in Ev; lia].
  destruct (nth_error preds i) as [p|] eqn:Ep; [|apply nth_error_None in Ep; lia].
  assert (Es : firstn (S i) cases = firstn i cases ++ [(v, p)]).
  { unfold cases. clear - Ev Ep. revert preds i Ev Ep. induction vs as [|v0 vs' IH]; intros [|p0 ps] [|i] Ev Ep; try discriminate.
    - cbn in *. congruence.
    - cbn [combine firstn app]. f_equal. apply IH; auto. }
  unfold Inv, report_case. cbn beta iota zeta. rewrite Es. clear Es Inv.
  set (l := firstn i cases) in *. clearbody l.
  pose proof (Hst i v Ev) as S. unfold stored in S. unfold cGeti.
  assert (Hp : p = "NA" \/ In p vs /\ missing_token p = false)
    by (rewrite Forall_forall in Hpreds; apply Hpreds; eapply nth_error_In; eauto).
  (* the actual value *)
  assert (A : exists t, nth_error (cData f) i = Some t /\ t < length cats
    /\ (forall k c, nth_error cats k = Some c ->
         (k =? t) = String.eqb v c || (missing_token v && (k =? 0)))
    /\ cGetStr f i = Ok (if missing_token v then "NA" else v)).
  { unfold cGetStr. destruct (missing_token v) eqn:Em.
    - destruct S as [S1 S2]. exists 0. split; auto. split; auto. split.
      + intros k c Hc. rewrite (Hmiss v c k Em Hc). reflexivity.
      + rewrite (get_nth _ _ S1). reflexivity.
    - destruct S as (S1 & t & S2 & S3). exists t. split; auto. split; [eapply nth_error_some_lt; eauto|]. split.
      + intros k c Hc. rewrite orb_false_r. eapply Hk; eauto.
      + rewrite (get_nth _ _ S1). cbn [bind]. rewrite (get_nth _ _ S2). cbn [bind]. apply get_nth; auto. }
  destruct A as (t & A1 & A2 & A3 & A4). rewrite (get_nth _ _ A1). cbn [bind].
  destruct (counts_incr cats (rTrue r) _ (fun k c => cnt (l ++ [(v, p)]) (fun v p => String.eqb v c) + (if k =? 0 then cnt (l ++ [(v, p)]) (fun v p => missing_token v) else 0)) t HT A2)
    as (tot & -> & HT').
  { intros k c Hc. rewrite !cnt_snoc, (A3 k c Hc). destruct (missing_token v) eqn:Em.
    - rewrite (Hmiss v c k Em Hc). cbn [andb orb]. destruct (k =? 0); lia.
    - rewrite andb_false_l, orb_false_r. destruct (k =? 0), (String.eqb v c); lia. }
  cbn [bind]. rewrite (get_nth _ _ Ep). cbn [bind].
  destruct (String.eqb_spec p "NA") as [->|Hna].
  - eexists. split; [reflexivity|]. cbn beta iota zeta. split; [reflexivity|]. cbn [rTrue rPreds rTrueByTrue rFalses rCorrect rNas].
    assert (Hno : forall k c, nth_error cats k = Some c -> String.eqb "NA" c = false).
    { intros k c Hc. eapply Hmiss; eauto. }
    split; [exact HT'|].
    split; [eapply counts_same; [exact HP|]; intros k c Hc; cbn beta; rewrite cnt_snoc, (Hno k c Hc); lia|].
    split; [eapply counts_same; [exact HB|]; intros k c Hc; cbn beta; rewrite cnt_snoc, (Hno k c Hc), andb_false_r; lia|].
    split; [eapply counts_same; [exact HF|]; intros k c Hc; cbn beta; rewrite cnt_snoc, (Hno k c Hc), andb_false_r; lia|].
    rewrite !cnt_snoc, HC, HN. split; [|reflexivity].
    destruct (missing_token v) eqn:Em; cbn [negb andb]; [lia|].
    destruct (String.eqb_spec v "NA") as [->|_]; [discriminate Em|lia].
  - destruct Hp as [Hp|[Hp1 Hp2]]; [contradiction|].
    assert (Hin : In p cats) by (apply Hcats; auto).
    destruct (CatToNum (cMap f) p) as [cm pi] eqn:Ec.
    destruct (CatToNum_ok _ _ _ _ Hcm Ec) as (_ & Hpi & Hsame & _). specialize (Hsame Hin). subst cm. fold cats in Hpi.
    assert (Hpl : pi < length cats) by (eapply nth_error_some_lt; eauto).
    destruct (counts_incr cats (rPreds r) _ (fun _ c => cnt (l ++ [(v, p)]) (fun v p => String.eqb p c)) pi HP Hpl) as (pt & -> & HP').
    { intros k c Hc. rewrite cnt_snoc, (Hk k c p pi Hc Hpi). reflexivity. }
    cbn [bind]. replace (mkCat (cMap f) (cData f) (cMissing f) (cName f) (cRandom f) (cHas f)) with f by (destruct f; reflexivity).
    rewrite A4. cbn [bind].
    destruct (String.eqb_spec p (if missing_token v then "NA" else v)) as [Eq|Ne].
    + destruct (missing_token v) eqn:Em; [congruence|]. subst p.
      destruct (counts_incr cats (rTrueByTrue r) _ (fun _ c => cnt (l ++ [(v, v)]) (fun v p => String.eqb v c && String.eqb p c)) t HB A2) as (bt & -> & HB').
      { intros k c Hc. rewrite cnt_snoc, (A3 k c Hc), andb_false_l, orb_false_r, andb_diag. reflexivity. }
      cbn [bind]. eexists. split; [reflexivity|]. cbn beta iota zeta. split; [reflexivity|]. cbn [rTrue rPreds rTrueByTrue rFalses rCorrect rNas].
      split; [exact HT'|]. split; [exact HP'|]. split; [exact HB'|].
      split; [eapply counts_same; [exact HF|]; intros k c Hc; cbn beta; rewrite cnt_snoc; destruct (String.eqb v c); cbn; lia|].
      rewrite !cnt_snoc, HC, HN, Em, String.eqb_refl. cbn [negb andb]. split; [reflexivity|].
      destruct (String.eqb_spec v "NA"); [congruence|lia].
    + assert (Nv : p <> v) by (intros ->; rewrite Hp2 in Ne; auto).
      destruct (counts_incr cats (rFalses r) _ (fun _ c => cnt (l ++ [(v, p)]) (fun v p => negb (String.eqb v c) && String.eqb p c)) pi HF Hpl) as (fp & -> & HF').
      { intros k c Hc. rewrite cnt_snoc, (Hk k c p pi Hc Hpi). destruct (String.eqb_spec p c) as [->|]; [|rewrite andb_false_r; reflexivity].
        destruct (String.eqb_spec v c); [congruence|reflexivity]. }
      cbn [bind]. eexists. split; [reflexivity|]. cbn beta iota zeta. split; [reflexivity|]. cbn [rTrue rPreds rTrueByTrue rFalses rCorrect rNas].
      split; [exact HT'|]. split; [exact HP'|].
      split; [eapply counts_same; [exact HB|]; intros k c Hc; cbn beta; rewrite cnt_snoc;
              destruct (String.eqb_spec v c), (String.eqb_spec p c); cbn; try lia; congruence|].
      split; [exact HF'|].
      rewrite !cnt_snoc, HC, HN. split.
      * destruct (String.eqb_spec v p); [congruence|]. rewrite andb_false_r. lia.
      * destruct (String.eqb_spec p "NA"); [congruence|lia].
Qed.

(** Without missing actual values every count is the one named in the claim. *)
Theorem C99_report_partial : forall name vs preds,
  length preds = length vs -> vs <> [] ->
  Forall (fun v => missing_token v = false) vs ->
  Forall (fun p => p = "NA" \/ In p vs) preds ->
  let f := appends (emptyCat name) vs in
  let cases := combine vs preds in
  exists r, test_report f (fun i => get preds i) = Ok (f, r)
    /\ let of_cats l F := counts (cmBack (cMap f)) l (fun _ => F) in
       of_cats (rTrue r) (fun c => cnt cases (fun v p => String.eqb v c))
    /\ of_cats (rPreds r) (fun c => cnt cases (fun v p => String.eqb p c))
    /\ of_cats (rTrueByTrue r) (fun c => cnt cases (fun v p => String.eqb v c && String.eqb p c))
    /\ of_cats (rFalses r) (fun c => cnt cases (fun v p => negb (String.eqb v c) && String.eqb p c))
    /\ rCorrect r = cnt cases (fun v p => String.eqb v p)
    /\ rNas r = cnt cases (fun v p => String.eqb p "NA").
Proof.
  intros name vs preds Hlen Hne Hm Hp f cases.
  destruct (C99_report_with_missing name vs preds Hlen) as (r & E & H1 & H2 & H3 & H4 & H5 & H6).
  - destruct vs as [|v vs']; [congruence|]. exists v. inversion Hm; subst. split; [left; auto|auto].
  - rewrite Forall_forall in Hm, Hp |- *. intros p Hin. destruct (Hp p Hin); auto.
  - exists r. split; [exact E|]. cbv zeta. fold f cases in H1, H2, H3, H4, H5, H6.
    assert (Hc : forall P Q, (forall v p, In v vs -> P v p = Q v p) -> cnt cases P = cnt cases Q).
    { intros P Q HPQ. unfold cnt. f_equal. apply filter_ext_in. intros [v p] Hin. apply HPQ. eapply in_combine_l; eauto. }
    rewrite Forall_forall in Hm.
    split.
    + eapply counts_same; [exact H1|]. intros k c _. cbn beta. rewrite (Hc (fun v _ => missing_token v) (fun _ _ => false)).
      * unfold cnt at 3. replace (filter _ cases) with (@nil (string * string)); [destruct (k =? 0); cbn; lia|].
        clear. induction cases as [|[v p] l IH]; auto.
      * intros v p Hv. apply Hm; auto.
    + repeat (split; [first [exact H2|exact H3|exact H4]|]). split; [|exact H6]. rewrite H5. apply Hc.
      intros v p Hv. rewrite (Hm v Hv). reflexivity.
Qed.

(** A missing actual value is counted as a case of the first category. *)
Theorem C99_missing_refuted : forall name vs preds,
  length preds = length vs ->
  (exists v, In v vs /\ missing_token v = true) ->
  Forall (fun p => p = "NA" \/ (In p vs /\ missing_token p = false)) preds ->
  let f := appends (emptyCat name) vs in
  forall c rest, cmBack (cMap f) = c :: rest ->
  exists r n, test_report f (fun i => get preds i) = Ok (f, r)
    /\ nth_error (rTrue r) 0 = Some n /\ cnt (combine vs preds) (fun v p => String.eqb v c) < n.
Proof.
  intros name vs preds Hlen (m & Hin & Hm) Hp f c rest Ec.
  assert (Hc : In c (cmBack (cMap f))) by (rewrite Ec; left; auto). apply cats_plain in Hc as [Hc1 Hc2].
  destruct (C99_report_with_missing name vs preds Hlen) as (r & E & H1 & _); eauto. cbv zeta in H1. fold f in E, H1.
  destruct H1 as [_ H1]. rewrite Ec in H1. specialize (H1 0 c eq_refl). cbn [Nat.eqb] in H1.
  exists r. eexists. split; [exact E|]. split; [exact H1|].
  assert (0 < cnt (combine vs preds) (fun v _ => missing_token v)); [|lia].
  apply In_nth_error in Hin as [i Hi]. destruct (nth_error preds i) as [p|] eqn:Ep.
  2:{ apply nth_error_None in Ep. apply nth_error_some_lt in Hi. lia. }
  assert (Hin : In (m, p) (combine vs preds)).
  { clear - Hi Ep. revert preds i Hi Ep. induction vs as [|v0 vs' IH]; intros [|p0 ps] [|i] Hi Ep; try discriminate; cbn in *.
    - left. congruence.
    - right. eauto. }
  unfold cnt. assert (Hf : In (m, p) (filter (fun '(v, p) => missing_token v) (combine vs preds))) by (apply filter_In; auto).
  destruct (filter _ _); [contradiction|cbn; lia].
Qed.

(** One prediction of a category that the test data does not have stops the report, whatever
    the other predictions are: the tables were sized before. *)
Lemma for_up_panics {St} (Inv : St -> Prop) (body : nat -> St -> res St) i : forall n lo s, lo <= i < lo + n -> Inv s ->
  (forall j s, Inv s -> body j s = Panic \/ yields (body j s) Inv) ->
  (forall s, Inv s -> body i s = Panic) -> for_up n lo body s = Panic.
Proof.
  induction n as [|n IH]; intros lo s Hi Hs Hb Hp; [lia|]. cbn [for_up].
  destruct (Nat.eq_dec lo i) as [->|Hne]; [rewrite Hp by auto; reflexivity|].
  destruct (Hb lo s Hs) as [->|(s' & -> & Hs')]; [reflexivity|]. cbn [bind]. apply IH; auto. lia.
Qed.
Theorem C99_unseen_category_refuted : forall f preds i p,
  cm_ok (cMap f) -> nth_error preds i = Some p -> i < cLength f -> p <> "NA" -> ~ In p (cmBack (cMap f)) ->
  test_report f (fun i => get preds i) = Panic.
Proof.
  intros f preds i p Hcm Hi Hl Hna Hnin. unfold test_report.
  set (n := NCats (cMap f)).
  apply (for_up_panics (fun '(g, r) => g = f /\ length (rTrue r) = n /\ length (rPreds r) = n /\ length (rTrueByTrue r) = n /\ length (rFalses r) = n) _ i).
  - lia.
  - cbn. rewrite repeat_length. auto.
  - intros j [g r] (-> & L1 & L2 & L3 & L4). unfold report_case. cbn beta iota.
    unfold cGeti. destruct (get (cData f) j) as [t| |] eqn:Eg; [|left; reflexivity|exfalso; unfold get in Eg; destruct nth_error in Eg; discriminate].
    cbn [bind]. destruct (lt_dec t n) as [Ht|Ht]; [|left; rewrite incr_panic by lia; reflexivity].
    assert (It : forall l k, length l = n -> k < n -> exists l', incr l k = Ok l' /\ length l' = n).
    { intros l k Hl' Hk. unfold incr. destruct (@get_ok _ l k ltac:(lia)) as (x & -> & _). cbn [bind]. rewrite set_ok by lia.
      eexists. split; [reflexivity|]. rewrite upd_length. auto. }
    destruct (It (rTrue r) t L1 Ht) as (tot & -> & Lt). cbn [bind].
    destruct (get preds j) as [q| |] eqn:Eq; [|left; reflexivity|exfalso; unfold get in Eq; destruct nth_error in Eq; discriminate].
    cbn [bind]. destruct (String.eqb_spec q "NA").
    { right. eexists. split; [reflexivity|]. cbn. auto. }
    destruct (CatToNum (cMap f) q) as [cm pi] eqn:Ec.
    destruct (CatToNum_ok _ _ _ _ Hcm Ec) as (_ & Hpi & Hs & Hn).
    destruct (in_dec string_dec q (cmBack (cMap f))) as [Hin|Hq].
    + specialize (Hs Hin). subst cm. assert (Hpl : pi < n) by (eapply nth_error_some_lt; eauto).
      destruct (It (rPreds r) pi L2 Hpl) as (pt & -> & Lp). cbn [bind].
      replace (mkCat (cMap f) (cData f) (cMissing f) (cName f) (cRandom f) (cHas f)) with f by (destruct f; reflexivity).
      destruct (cGetStr f j) as [a| |] eqn:Ea; [|left; reflexivity|].
      2:{ exfalso. unfold cGetStr in Ea. destruct (get (cMissing f) j) as [[|]| |] eqn:E1; cbn [bind] in Ea; try discriminate;
          [|unfold get in E1; destruct nth_error in E1; discriminate].
          rewrite Eg in Ea. cbn [bind] in Ea. unfold get in Ea. destruct nth_error in Ea; discriminate. }
      cbn [bind]. destruct (String.eqb q a).
      * destruct (It (rTrueByTrue r) t L3 Ht) as (bt & -> & Lb). cbn [bind]. right. eexists. split; [reflexivity|]. cbn. auto.
      * destruct (It (rFalses r) pi L4 Hpl) as (fp & -> & Lf). cbn [bind]. right. eexists. split; [reflexivity|]. cbn. auto.
    + destruct (Hn Hq) as [_ ->]. left. rewrite incr_panic by (unfold n in L2; unfold NCats in L2; lia). reflexivity.
  - intros [g r] (-> & L1 & L2 & L3 & L4). unfold report_case. cbn beta iota.
    unfold cGeti. destruct (get (cData f) i) as [t| |] eqn:Eg; [|reflexivity|exfalso; unfold get in Eg; destruct nth_error in Eg; discriminate].
    cbn [bind]. destruct (lt_dec t n) as [Ht|Ht]; [|rewrite incr_panic by lia; reflexivity].
    unfold incr at 1. destruct (@get_ok _ (rTrue r) t ltac:(lia)) as (x & -> & _). cbn [bind]. rewrite set_ok by lia. cbn [bind].
    rewrite (get_nth _ _ Hi). cbn [bind]. destruct (String.eqb_spec p "NA"); [contradiction|].
    destruct (CatToNum (cMap f) p) as [cm pi] eqn:Ec.
    destruct (CatToNum_ok _ _ _ _ Hcm Ec) as (_ & Hpi & _ & Hn). destruct (Hn Hnin) as [_ ->].
    rewrite incr_panic; [reflexivity|]. rewrite L2. unfold n, NCats. lia.
Qed.

Example C99_example :
  let f := appends (emptyCat "C:t") ["b"; "a"; "b"; "a"; "a"] in
  test_report f (fun i => get ["b"; "b"; "NA"; "a"; "a"] i) = Ok (f, mkReport [1; 0] [2; 2] [1; 2] [2; 3] 3 1)
  /\ (let g := appends (emptyCat "C:t") ["b"; ""; "a"] in
      test_report g (fun i => get ["b"; "a"; "a"] i) = Ok (g, mkReport [0; 1] [1; 2] [1; 1] [2; 1] 2 0))
  /\ test_report f (fun i => get ["b"; "b"; "c"; "a"; "a"] i) = Panic.
Proof. vm_compute. repeat split; reflexivity. Qed.

Print Assumptions C98_gradient_boosting_partial.
Print Assumptions C98_boosting_panics_refuted.
Print Assumptions C98_adaboost_refuted.
Print Assumptions C98_adacosts_refuted.
Print Assumptions C98_library_refuted.
Print Assumptions C98_intercept.
Print Assumptions C99_report_with_missing.
Print Assumptions C99_report_partial.
Print Assumptions C99_missing_refuted.
Print Assumptions C99_unseen_category_refuted.
