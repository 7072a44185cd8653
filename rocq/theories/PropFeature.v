(** C05, C07-C10: the elementary operations on features. *)
From Verif Require Import Go GoLemmas F64 ModelFeature ModelSample FeatureSpec SampleProofs FeatureProofs.
Local Open Scope string_scope.
Local Open Scope nat_scope.
Local Open Scope list_scope.

(** ** C05 *)

(** After the lookups [vs] from an empty map, names and numbers 0..NCats-1 are in
    one to one correspondence, numbered in order of first occurrence; a further
    lookup of [v] answers a number whose name is [v], keeps every earlier
    number, and adds one category exactly if [v] is new. *)
Theorem C05_catmap_bijection : forall vs v,
  let cm := fold_left (fun cm w => fst (CatToNum cm w)) vs emptyCM in
  let cm' := fst (CatToNum cm v) in
  let n := snd (CatToNum cm v) in
  cmBack cm = first_occurrences [] vs
  /\ NoDup (cmBack cm)
  /\ (forall k, k < NCats cm <-> exists w, NumToCat cm k = Ok w)
  /\ (forall w, In w vs <-> exists k, NumToCat cm k = Ok w)
  /\ NumToCat cm' n = Ok v
  /\ (forall k w, NumToCat cm k = Ok w -> NumToCat cm' k = Ok w)
  /\ (In v vs -> cm' = cm)
  /\ (~ In v vs -> n = NCats cm /\ NCats cm' = S (NCats cm)).
Proof.
  intros vs v cm cm' n. fold (lookups emptyCM vs) in cm.
  assert (Hok : cm_ok cm) by (apply lookups_ok, cm_ok_empty).
  assert (Hback : cmBack cm = first_occurrences [] vs).
  { unfold cm. rewrite lookups_back by apply cm_ok_empty. reflexivity. }
  assert (Hin : forall w, In w vs <-> In w (cmBack cm)).
  { intros w. rewrite Hback, in_first_occurrences. cbn; tauto. }
  destruct (CatToNum cm v) as [cm1 n1] eqn:E. cbn [fst snd] in *.
  destruct (CatToNum_ok _ _ _ _ Hok E) as (Hok' & Hn & Hi & Hni).
  destruct (CatToNum_extends _ _ _ _ E) as [ext Hext].
  unfold NumToCat, NCats. subst cm' n.
  split; [auto|]. split; [apply cm_ok_nodup; auto|]. split.
  { intros k. split.
    - intros Hk. destruct (@get_ok _ (cmBack cm) k Hk) as (w & -> & _). eauto.
    - intros [w Hw]. apply get_inv in Hw. eapply nth_error_some_lt; eauto. }
  split.
  { intros w. rewrite Hin. split.
    - intros Hw. apply In_nth_error in Hw as [k Hk]. exists k. apply get_nth; auto.
    - intros [k Hk]. apply get_inv in Hk. eapply nth_error_In; eauto. }
  split; [apply get_nth; auto|]. split.
  { intros k w Hk. apply get_inv in Hk. apply get_nth. rewrite Hext. apply nth_error_app_some; auto. }
  split.
  - rewrite Hin. apply Hi.
  - rewrite Hin. intros H. destruct (Hni H) as [H1 H2]. rewrite H1, app_length. cbn. lia.
Qed.

(** The number answered for a name never changes, whatever is looked up in between. *)
Theorem C05_number_stable : forall vs ws v,
  let cm := fold_left (fun cm w => fst (CatToNum cm w)) vs emptyCM in
  let cm1 := fst (CatToNum cm v) in
  let cm2 := fold_left (fun cm w => fst (CatToNum cm w)) ws cm1 in
  CatToNum cm2 v = (cm2, snd (CatToNum cm v)).
Proof.
  intros vs ws v cm cm1 cm2. fold (lookups emptyCM vs) in cm. fold (lookups cm1 ws) in cm2.
  assert (Hok : cm_ok cm) by (apply lookups_ok, cm_ok_empty).
  subst cm1. destruct (CatToNum cm v) as [cm1 n] eqn:E. cbn [fst snd] in *.
  destruct (CatToNum_ok _ _ _ _ Hok E) as (Hok1 & Hn & _).
  assert (Hok2 : cm_ok cm2) by (apply lookups_ok; auto).
  destruct (lookups_extends ws cm1) as [ext Hext]. fold cm2 in Hext.
  unfold CatToNum.
  assert (Ha : assoc v (cmMap cm2) = Some n).
  { apply (cm_agree _ Hok2). rewrite Hext. apply nth_error_app_some; auto. }
  rewrite Ha. reflexivity.
Qed.
Print Assumptions C05_catmap_bijection.
Print Assumptions C05_number_stable.

Example C05_example :
  cmBack (fold_left (fun cm w => fst (CatToNum cm w)) ["b"; "a"; "b"; "c"; "a"] emptyCM) = ["b"; "a"; "c"].
Proof. reflexivity. Qed.

(** ** C07 *)

(** The operations on a categorical feature (Copy continues with the copy). *)
Inductive cop := CAppend (v : string) | CPutStr (i : nat) (v : string) | CPuti (i v : nat)
  | CPutMissing (i : nat) | CImpute | CShuffle (rnd : nat -> nat) | CCopy.
Definition crun (f : catF) (o : cop) : res catF :=
  match o with
  | CAppend v => Ok (cAppend f v)
  | CPutStr i v => cPutStr f i v
  | CPuti i v => cPuti f i v
  | CPutMissing i => cPutMissing f i
  | CImpute => cImputeMissing f
  | CShuffle rnd => cShuffle rnd f
  | CCopy => Ok (cCopy f)
  end.
(** ... and on a numerical one. *)
Inductive nop := NAppend (v : string) | NPutStr (i : nat) (v : string) | NPut (i : nat) (v : f64)
  | NPutMissing (i : nat) | NImpute | NShuffle (rnd : nat -> nat) | NCopy.
Definition nrun (ParseFloat : string -> option f64) (f : numF) (o : nop) : res numF :=
  match o with
  | NAppend v => Ok (nAppend ParseFloat f v)
  | NPutStr i v => nPutStr ParseFloat f i v
  | NPut i v => nPut f i v
  | NPutMissing i => nPutMissing f i
  | NImpute => nImputeMissing f
  | NShuffle rnd => nShuffle rnd f
  | NCopy => Ok (nCopy f)
  end.
Fixpoint run_all {F O} (step : F -> O -> res F) (f : F) (os : list O) : res F :=
  match os with [] => Ok f | o :: os' => let* f' := step f o in run_all step f' os' end.

Lemma in_repeat_false n i : nth_error (repeat false n) i <> Some true.
Proof. intros H. apply nth_error_In in H. apply repeat_spec in H. discriminate. Qed.

Lemma impute_clears {A} (v : A) n : forall d ms d' ms',
  for_up n 0 (fun i '((d, ms) : list A * list bool) =>
      let* m := get ms i in
      if m then
        let* d' := set d i v in
        let* ms' := set ms i false in Ok (d', ms')
      else Ok (d, ms)) (d, ms) = Ok (d', ms') ->
  n = length ms -> length ms' = length ms /\ forall i, nth_error ms' i <> Some true.
Proof.
  intros d ms d' ms' E Hn.
  apply (for_up_partial (fun k '((_, m) : list A * list bool) =>
    length m = length ms /\ forall i, i < k -> nth_error m i <> Some true)) in E.
  - destruct E as [E1 E2]. split; auto. intros i Hi. apply (E2 i); auto.
    apply nth_error_some_lt in Hi. cbn. lia.
  - intros i [d1 m1] [d2 m2] Hi [H1 H2] Eb. apply bind_ok in Eb as (m & Em & Eb).
    apply get_inv in Em. destruct m.
    + apply bind_ok in Eb as (d3 & _ & Eb). apply bind_ok in Eb as (m3 & Es & Eb).
      apply set_inv in Es as [Hl ->]. inversion Eb; subst. rewrite upd_length. split; auto.
      intros k Hk. rewrite nth_error_upd. destruct (Nat.eqb_spec k i); cbn [andb].
      * apply Nat.ltb_lt in Hl. rewrite Hl. discriminate.
      * apply H2. lia.
    + inversion Eb; subst. split; auto. intros k Hk. destruct (Nat.eq_dec k i); [congruence|].
      apply H2; lia.
  - split; auto. intros; lia.
Qed.

(** Categorical features: the flag stays sound under every sequence of operations. *)
Theorem C07_flag_sound_categorical : forall os f f',
  (forall i, nth_error (cMissing f) i = Some true -> cHas f = true) ->
  run_all crun f os = Ok f' ->
  forall i, nth_error (cMissing f') i = Some true -> cHas f' = true.
Proof.
  induction os as [|o os IH]; intros f f' Hf E; cbn in E.
  - inversion E; subst; auto.
  - apply bind_ok in E as (f1 & E1 & E2). apply (IH f1 f'); auto. clear E2 IH f'.
    fold (flag_ok (cMissing f) (cHas f)) in Hf. fold (flag_ok (cMissing f1) (cHas f1)).
    destruct o; cbn in E1.
    + inversion E1; subst. unfold cAppend. destruct (missing_token v).
      * apply flag_ok_true.
      * destruct (CatToNum (cMap f) v). cbn. apply (flag_ok_snoc _ _ false); auto.
    + unfold cPutStr in E1. apply bind_ok in E1 as (f2 & E2 & E1).
      assert (Hf2 : flag_ok (cMissing f2) (cHas f2)).
      { destruct (missing_token v); [|inversion E2; subst; auto].
        unfold cPutMissing in E2. apply bind_ok in E2 as (ms & _ & E2). inversion E2; apply flag_ok_true. }
      destruct (CatToNum (cMap f2) v). apply bind_ok in E1 as (d & _ & E1).
      apply bind_ok in E1 as (ms & Es & E1). apply set_inv in Es as [_ ->].
      inversion E1; subst; cbn. apply flag_ok_upd_false; auto.
    + unfold cPuti in E1. apply bind_ok in E1 as (d & _ & E1).
      apply bind_ok in E1 as (ms & Es & E1). apply set_inv in Es as [_ ->].
      inversion E1; subst; cbn. apply flag_ok_upd_false; auto.
    + unfold cPutMissing in E1. apply bind_ok in E1 as (ms & _ & E1). inversion E1; apply flag_ok_true.
    + unfold cImputeMissing in E1. apply bind_ok in E1 as (k & _ & E1).
      apply bind_ok in E1 as ([d ms] & E2 & E1). apply impute_clears in E2 as [_ E2]; auto.
      inversion E1; subst; cbn. intros i Hi. exfalso; eapply E2; eauto.
    + unfold cShuffle in E1. apply bind_ok in E1 as ([ms d] & E2 & E1).
      apply shuffle_mask_perm in E2. inversion E1; subst; cbn. eapply flag_ok_perm; eauto.
    + inversion E1; subst; cbn. rewrite copyinto_same by auto. auto.
Qed.

(** Numerical features: the same for every sequence without Copy. *)
Theorem C07_flag_sound_numerical_partial : forall ParseFloat os f f',
  ~ In NCopy os ->
  (forall i, nth_error (nMissing f) i = Some true -> nHas f = true) ->
  run_all (nrun ParseFloat) f os = Ok f' ->
  forall i, nth_error (nMissing f') i = Some true -> nHas f' = true.
Proof.
  intros PF. induction os as [|o os IH]; intros f f' Hno Hf E; cbn in E.
  - inversion E; subst; auto.
  - apply bind_ok in E as (f1 & E1 & E2). apply (IH f1 f'); auto; [intros Hx; apply Hno; right; auto|].
    clear E2 IH f'.
    fold (flag_ok (nMissing f) (nHas f)) in Hf. fold (flag_ok (nMissing f1) (nHas f1)).
    destruct o; cbn in E1.
    + inversion E1; subst. unfold nAppend. destruct (PF v).
      * cbn. apply (flag_ok_snoc _ _ false); auto.
      * apply flag_ok_true.
    + unfold nPutStr in E1. destruct (PF v).
      * apply bind_ok in E1 as (d & _ & E1).
        apply bind_ok in E1 as (ms & Es & E1). apply set_inv in Es as [_ ->].
        inversion E1; subst; cbn. apply flag_ok_upd_false; auto.
      * apply bind_ok in E1 as (ms & _ & E1). inversion E1; apply flag_ok_true.
    + unfold nPut in E1. apply bind_ok in E1 as (d & _ & E1).
      apply bind_ok in E1 as (ms & Es & E1). apply set_inv in Es as [_ ->].
      inversion E1; subst; cbn. apply flag_ok_upd_false; auto.
    + unfold nPutMissing in E1. apply bind_ok in E1 as (ms & _ & E1). inversion E1; apply flag_ok_true.
    + unfold nImputeMissing in E1. apply bind_ok in E1 as (k & _ & E1).
      apply bind_ok in E1 as ([d ms] & E2 & E1). apply impute_clears in E2 as [_ E2]; auto.
      inversion E1; subst; cbn. intros i Hi. exfalso; eapply E2; eauto.
    + unfold nShuffle in E1. apply bind_ok in E1 as ([ms d] & E2 & E1).
      apply shuffle_mask_perm in E2. inversion E1; subst; cbn. eapply flag_ok_perm; eauto.
    + exfalso. apply Hno. left; auto.
Qed.

(** The full claim is false: Copy of a numerical feature forgets the flag. *)
Theorem C07_numerical_copy_refuted : exists f,
  (forall i, nth_error (nMissing f) i = Some true -> nHas f = true)
  /\ exists i, nth_error (nMissing (nCopy f)) i = Some true /\ nHas (nCopy f) = false.
Proof.
  exists (mkNum [f0; f1] [true; false] "N:x" true). split; auto. exists 0. split; reflexivity.
Qed.

(** ... and so is the flag after CopyInTo, for both kinds of feature. *)
Theorem C07_copyInTo_refuted :
  (exists f dst : catF, (forall i, nth_error (cMissing f) i = Some true -> cHas f = true)
    /\ (forall i, nth_error (cMissing dst) i = Some true -> cHas dst = true)
    /\ exists i, nth_error (cMissing (cCopyInTo f dst)) i = Some true /\ cHas (cCopyInTo f dst) = false)
  /\ (exists f dst : numF, (forall i, nth_error (nMissing f) i = Some true -> nHas f = true)
    /\ (forall i, nth_error (nMissing dst) i = Some true -> nHas dst = true)
    /\ exists i, nth_error (nMissing (nCopyInTo f dst)) i = Some true /\ nHas (nCopyInTo f dst) = false).
Proof.
  split.
  - exists (mkCat emptyCM [0] [true] "C" false true), (mkCat emptyCM [0] [false] "C" false false).
    repeat split; auto.
    + intros [|[|i]]; discriminate.
    + exists 0; split; reflexivity.
  - exists (mkNum [f0] [true] "N" true), (mkNum [f0] [false] "N" false).
    repeat split; auto.
    + intros [|[|i]]; discriminate.
    + exists 0; split; reflexivity.
Qed.
Print Assumptions C07_flag_sound_categorical.
Print Assumptions C07_flag_sound_numerical_partial.
Print Assumptions C07_numerical_copy_refuted.
Print Assumptions C07_copyInTo_refuted.

Example C07_example :
  (let* f := run_all crun (emptyCat "C:x") [CAppend "a"; CAppend "NA"; CAppend "b"; CCopy; CShuffle (fun _ => 1)] in
   Ok (cMissing f, cHas f)) = Ok ([true; false; false], true).
Proof. reflexivity. Qed.

(** ** C08 *)

(** Append on a categorical feature. *)
Theorem C08_append_token : forall f v, is_token v -> length (cData f) = length (cMissing f) ->
  let f' := cAppend f v in
  let i := length (cMissing f) in
  cIsMissing f' i = Ok true /\ cGetStr f' i = Ok "NA" /\ cMap f' = cMap f /\ cHas f' = true
  /\ cLength f' = S (cLength f)
  /\ (forall k, k < i -> cGetStr f' k = cGetStr f k /\ cIsMissing f' k = cIsMissing f k).
Proof.
  intros f v Hv Hl f' i. apply missing_token_spec in Hv. subst f' i.
  unfold cAppend, cIsMissing, cGetStr, cLength. rewrite Hv. cbn [cMap cData cMissing cHas].
  assert (Hlast : forall B (l : list B) x, get (l ++ [x]) (length l) = Ok x).
  { intros. apply get_nth, nth_error_snoc_last; auto. }
  rewrite !Hlast. repeat split; auto.
  - rewrite app_length; cbn; lia.
  - unfold get. rewrite !nth_error_app1 by lia. auto.
  - unfold get. rewrite !nth_error_app1 by lia. auto.
Qed.

(** A string that is not a token is stored as such. *)
Theorem C08_append_nontoken : forall f v, ~ is_token v ->
  length (cData f) = length (cMissing f) -> cm_ok (cMap f) ->
  let f' := cAppend f v in
  let i := length (cMissing f) in
  cIsMissing f' i = Ok false /\ cGetStr f' i = Ok v.
Proof.
  intros f v Hv Hl Hok f' i. subst f' i. unfold cAppend, cIsMissing, cGetStr.
  destruct (missing_token v) eqn:E; [exfalso; apply Hv; apply missing_token_spec; auto|].
  destruct (CatToNum (cMap f) v) as [cm n] eqn:En. cbn [cMap cData cMissing cHas].
  destruct (CatToNum_ok _ _ _ _ Hok En) as (_ & Hn & _).
  assert (Hlast : forall B (l : list B) x, get (l ++ [x]) (length l) = Ok x).
  { intros. apply get_nth, nth_error_snoc_last; auto. }
  rewrite Hlast. cbn [bind]. rewrite <- Hl, Hlast. cbn [bind]. split; auto. apply get_nth; auto.
Qed.

(** PutStr on a categorical feature breaks the claim for every token and every position:
    the case is present afterwards, with a category named like the token. *)
Theorem C08_putStr_refuted : forall f i v, is_token v ->
  length (cData f) = length (cMissing f) -> cm_ok (cMap f) -> i < length (cMissing f) ->
  exists f', cPutStr f i v = Ok f' /\ cIsMissing f' i = Ok false /\ cGetStr f' i = Ok v.
Proof.
  intros f i v Hv Hl Hok Hi. apply missing_token_spec in Hv. unfold cPutStr. rewrite Hv.
  unfold cPutMissing. rewrite set_ok by auto. cbn [bind cMap cData cMissing cName cRandom cHas].
  destruct (CatToNum (cMap f) v) as [cm n] eqn:En.
  destruct (CatToNum_ok _ _ _ _ Hok En) as (_ & Hn & _).
  rewrite set_ok by lia. cbn [bind]. rewrite set_ok by (rewrite upd_length; auto). cbn [bind].
  eexists; split; [reflexivity|]. unfold cIsMissing, cGetStr; cbn [cMap cData cMissing].
  assert (Hs : forall B (l : list B) x, i < length l -> get (upd l i x) i = Ok x).
  { intros. apply get_nth, nth_error_upd_eq; auto. }
  rewrite Hs by (rewrite upd_length; auto). cbn [bind]. split; auto.
  rewrite Hs by lia. cbn [bind]. apply get_nth; auto.
Qed.

(** Numerical features follow ParseFloat: what it rejects is missing. *)
Theorem C08_numerical : forall ParseFloat f v, ParseFloat v = None ->
  (nIsMissing (nAppend ParseFloat f v) (length (nMissing f)) = Ok true
   /\ nHas (nAppend ParseFloat f v) = true)
  /\ forall i, i < length (nMissing f) -> exists f', nPutStr ParseFloat f i v = Ok f'
       /\ nIsMissing f' i = Ok true /\ nHas f' = true.
Proof.
  intros PF f v Hv. unfold nAppend, nPutStr, nIsMissing. rewrite Hv. split.
  - cbn. split; auto. apply get_nth, nth_error_snoc_last; auto.
  - intros i Hi. rewrite set_ok by auto. cbn [bind]. eexists; split; [reflexivity|]. cbn.
    split; auto. apply get_nth, nth_error_upd_eq; auto.
Qed.

(** PutMissing makes the case missing and leaves the others alone, for both kinds. *)
Theorem C08_put_missing :
  (forall f i, i < length (cMissing f) -> exists f', cPutMissing f i = Ok f' /\ cHas f' = true /\ cIsMissing f' i = Ok true /\ cGetStr f' i = Ok "NA" /\
     forall j, j <> i -> cIsMissing f' j = cIsMissing f j /\ cGetStr f' j = cGetStr f j) /\
  (forall f i, i < length (nMissing f) -> exists f', nPutMissing f i = Ok f' /\ nHas f' = true /\ nIsMissing f' i = Ok true /\
     forall j, j <> i -> nIsMissing f' j = nIsMissing f j /\ nGet f' j = nGet f j).
Proof.
  assert (G1 : forall T (l : list T) i x, i < length l -> get (upd l i x) i = Ok x) by (intros; apply get_nth, nth_error_upd_eq; auto).
  assert (G2 : forall T (l : list T) i j x, j <> i -> get (upd l i x) j = get l j) by (intros; unfold get; rewrite nth_error_upd_neq by auto; reflexivity).
  split; intros f i Hi; unfold cPutMissing, nPutMissing, cGetStr, cIsMissing, nIsMissing, nGet; rewrite set_ok by auto; cbn [bind]; eexists; (split; [reflexivity|]); (split; [reflexivity|]);
    cbn [cMissing nMissing cData nData cMap]; rewrite G1 by auto.
  - split; [reflexivity|]. split; [reflexivity|]. intros j Hj. rewrite G2 by auto. auto.
  - split; [reflexivity|]. intros j Hj. rewrite G2 by auto. auto.
Qed.
Print Assumptions C08_put_missing.

(** ... but strconv.ParseFloat accepts "nan" in every capitalisation, so that token is
    stored as a present NaN. *)
Theorem C08_numerical_nan_refuted : forall ParseFloat f, ParseFloat "nan" = Some SpecFloat.S754_nan ->
  is_token "nan" /\
  nIsMissing (nAppend ParseFloat f "nan") (length (nMissing f)) = Ok false.
Proof.
  intros PF f H. split; [apply missing_token_spec; reflexivity|].
  unfold nAppend, nIsMissing. rewrite H. cbn. apply get_nth, nth_error_snoc_last; auto.
Qed.
Print Assumptions C08_append_token.
Print Assumptions C08_append_nontoken.
Print Assumptions C08_putStr_refuted.
Print Assumptions C08_numerical.
Print Assumptions C08_numerical_nan_refuted.

Example C08_example : is_token "NuLL" /\ ~ is_token "null " /\
  cGetStr (cAppend (appends (emptyCat "C:x") ["a"; "b"]) "NuLL") 2 = Ok "NA".
Proof. rewrite <- !missing_token_spec. cbn. repeat split; auto. discriminate. Qed.

(** ** C09 *)
Theorem C09_append_read_back : forall name vs,
  let f := fold_left cAppend vs (emptyCat name) in
  cLength f = length vs /\ length (cData f) = length vs /\ length (cMissing f) = length vs
  /\ (forall i v, nth_error vs i = Some v -> is_token v -> cGetStr f i = Ok "NA")
  /\ (forall i v, nth_error vs i = Some v -> ~ is_token v -> cGetStr f i = Ok v)
  /\ (forall i c, nth_error (cMissing f) i = Some false -> nth_error (cData f) i = Some c ->
        c < NCats (cMap f))
  /\ (0 < NCats (cMap f) -> forall c, In c (cData f) -> c < NCats (cMap f))
  /\ (cHas f = true <-> exists v, In v vs /\ is_token v)
  /\ cmBack (cMap f) = first_occurrences [] (filter (fun v => negb (missing_token v)) vs).
Proof.
  intros name vs f. destruct (appends_ok name vs) as [Hcm Hl1 Hl2 Hst Hback Hhas].
  fold (appends (emptyCat name) vs) in f. fold f in Hcm, Hl1, Hl2, Hst, Hback, Hhas.
  split; [exact Hl2|]. split; [exact Hl1|]. split; [exact Hl2|]. split; [|split; [|split; [|split; [|split]]]].
  - intros i v Hi Hv. rewrite (stored_GetStr _ _ _ (Hst i v Hi)).
    apply missing_token_spec in Hv. rewrite Hv. auto.
  - intros i v Hi Hv. rewrite (stored_GetStr _ _ _ (Hst i v Hi)).
    destruct (missing_token v) eqn:E; auto. apply missing_token_spec in E; contradiction.
  - intros i c Hm Hd.
    assert (Hi : i < length vs) by (rewrite <- Hl1; eapply nth_error_some_lt; eauto).
    destruct (nth_error vs i) as [v|] eqn:Ev; [|apply nth_error_None in Ev; lia].
    pose proof (Hst i v Ev) as S. unfold stored in S. destruct (missing_token v).
    + destruct S; congruence.
    + destruct S as (_ & c' & Hc' & Hb). assert (c' = c) by congruence. subst.
      eapply nth_error_some_lt; eauto.
  - intros Hpos c Hc. apply In_nth_error in Hc as [i Hd].
    assert (Hi : i < length vs) by (rewrite <- Hl1; eapply nth_error_some_lt; eauto).
    destruct (nth_error vs i) as [v|] eqn:Ev; [|apply nth_error_None in Ev; lia].
    pose proof (Hst i v Ev) as S. unfold stored in S. destruct (missing_token v).
    + destruct S as [_ S]. assert (c = 0) by congruence. subst; auto.
    + destruct S as (_ & c' & Hc' & Hb). assert (c' = c) by congruence. subst.
      eapply nth_error_some_lt; eauto.
  - rewrite Hhas, existsb_exists. split; intros (v & H1 & H2); exists v; split; auto;
      apply missing_token_spec; auto.
  - exact Hback.
Qed.
Print Assumptions C09_append_read_back.

Example C09_example :
  let f := fold_left cAppend ["x"; "na"; "y"; "x"; "?"] (emptyCat "C:x") in
  map (cGetStr f) [0; 1; 2; 3; 4] = [Ok "x"; Ok "NA"; Ok "y"; Ok "x"; Ok "NA"] /\ NCats (cMap f) = 2.
Proof. split; reflexivity. Qed.

(** ** C10 *)

(** Categorical imputation: holes get the mode of the present values. *)
Theorem C10_impute_categorical : forall f,
  length (cData f) = length (cMissing f) ->
  (forall c, In c (present (cMissing f) (cData f)) -> c < NCats (cMap f)) ->
  exists f' k, cImputeMissing f = Ok f' /\ is_mode k (present (cMissing f) (cData f))
    /\ cHas f' = false /\ cMap f' = cMap f /\ cName f' = cName f
    /\ length (cMissing f') = length (cMissing f) /\ length (cData f') = length (cData f)
    /\ (forall i, i < length (cMissing f) -> nth_error (cMissing f') i = Some false)
    /\ (forall i, nth_error (cMissing f) i = Some false -> nth_error (cData f') i = nth_error (cData f) i)
    /\ (forall i, nth_error (cMissing f) i = Some true -> nth_error (cData f') i = Some k)
    /\ (0 < NCats (cMap f) -> k < NCats (cMap f)).
Proof.
  intros f Hl Hv. destruct (cImpute_ok f Hl) as (k & E & Hk & Hk2); [apply Forall_forall; auto|].
  eexists _, k. split; [exact E|]. cbn [cMap cData cMissing cName cHas].
  assert (Hd : forall i m, nth_error (cMissing f) i = Some m -> exists x, nth_error (cData f) i = Some x).
  { intros i m Hi. destruct (nth_error (cData f) i) eqn:Ed; eauto.
    apply nth_error_None in Ed. apply nth_error_some_lt in Hi. lia. }
  repeat split; auto.
  - apply Hk.
  - apply Hk.
  - apply repeat_length.
  - unfold fill. rewrite map_length, combine_length. lia.
  - intros i Hi. apply nth_error_repeat; auto.
  - intros i Hi. rewrite nth_error_fill by auto. destruct (Hd i _ Hi) as [x Hx].
    rewrite Hi, Hx. auto.
  - intros i Hi. rewrite nth_error_fill by auto. destruct (Hd i _ Hi) as [x Hx].
    rewrite Hi, Hx. auto.
Qed.

(** Numerical imputation: holes get the floating point mean of the present values. *)
Theorem C10_impute_numerical : forall f,
  length (nData f) = length (nMissing f) ->
  exists f', nImputeMissing f = Ok f'
    /\ nHas f' = false /\ nName f' = nName f
    /\ length (nMissing f') = length (nMissing f) /\ length (nData f') = length (nData f)
    /\ (forall i, i < length (nMissing f) -> nth_error (nMissing f') i = Some false)
    /\ (forall i, nth_error (nMissing f) i = Some false -> nth_error (nData f') i = nth_error (nData f) i)
    /\ (forall i, nth_error (nMissing f) i = Some true ->
          nth_error (nData f') i = Some (fmean (present (nMissing f) (nData f)))).
Proof.
  intros f Hl. rewrite (nImpute_ok f Hl). eexists. split; [reflexivity|].
  cbn [nData nMissing nName nHas].
  assert (Hd : forall i m, nth_error (nMissing f) i = Some m -> exists x, nth_error (nData f) i = Some x).
  { intros i m Hi. destruct (nth_error (nData f) i) eqn:Ed; eauto.
    apply nth_error_None in Ed. apply nth_error_some_lt in Hi. lia. }
  repeat split; auto.
  - apply repeat_length.
  - unfold fill. rewrite map_length, combine_length. lia.
  - intros i Hi. apply nth_error_repeat; auto.
  - intros i Hi. rewrite nth_error_fill by auto. destruct (Hd i _ Hi) as [x Hx].
    rewrite Hi, Hx. auto.
  - intros i Hi. rewrite nth_error_fill by auto. destruct (Hd i _ Hi) as [x Hx].
    rewrite Hi, Hx. auto.
Qed.

(** With nothing present there is no mean or mode to impute: a categorical column of
    missing values only ends up with a code that has no name (GetStr panics), a
    numerical one with NaN. *)
Theorem C10_all_missing_refuted :
  (exists f f', f = fold_left cAppend ["NA"] (emptyCat "C:x") /\ cImputeMissing f = Ok f'
     /\ cIsMissing f' 0 = Ok false /\ cGetStr f' 0 = Panic)
  /\ (exists f', nImputeMissing (mkNum [f0] [true] "N:x" true) = Ok f'
     /\ nData f' = [SpecFloat.S754_nan] /\ nIsMissing f' 0 = Ok false).
Proof.
  split.
  - eexists _, _. split; [reflexivity|]. split; [vm_compute; reflexivity|]. split; reflexivity.
  - eexists. split; [vm_compute; reflexivity|]. split; reflexivity.
Qed.
Print Assumptions C10_impute_categorical.
Print Assumptions C10_impute_numerical.
Print Assumptions C10_all_missing_refuted.

Example C10_example :
  let f := fold_left cAppend ["x"; "y"; "na"; "y"; "x"] (emptyCat "C:x") in
  (let* f' := cImputeMissing f in Ok (cData f', cMissing f', cHas f'))
  = Ok ([0; 1; 0; 1; 0], [false; false; false; false; false], false).
Proof. reflexivity. Qed.
