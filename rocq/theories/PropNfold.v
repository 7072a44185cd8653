(** C143: the files nfold writes are the folds, read back case by case. *)
From Coq Require Import Permutation.
From Verif Require Import Go GoLemmas F64 ModelFeature FeatureSpec ModelTargets2 ModelText ModelMatrix MatrixSpec ModelExport ModelSample SampleSpec ModelFold
  PropSample PropMatrix PropToafm PropFold ModelNfold.
Local Open Scope string_scope.
Local Open Scope nat_scope.
Local Open Scope list_scope.

(** ** Spec *)
(** The features nfold keeps: not on the list (unless the target), and not too many categories. *)
Definition keeps (target : string) (ids : list string) (maxcats : Z) (f : feature) : bool :=
  negb (existsb (String.eqb (fName f)) ids && negb (String.eqb (fName f) target)) &&
  ((maxcats =? -1)%Z || (Z.of_nat (fNCats f) <=? maxcats)%Z).
(** Reading [out] gives these cases of these features, with their labels. *)
Definition reads_as (PF : string -> option f64) (itoa : nat -> string) (feats : list feature) (labels : list string) (cases : list nat) (out : bytes) : Prop :=
  exists fm', ParseAFM PF itoa out = Ok fm' /\ names_ok fm' /\
    Forall2 (fun c l => nth_error labels c = Some l) cases (fmLabels fm') /\
    Forall2 (fun f f' => fName f' = fName f /\ is_numerical f' = is_numerical f /\ fLength f' = length cases /\
      forall j c, nth_error cases j = Some c -> value_at f' j = value_at f c) feats (fmData fm').
(** A column all of whose values are in the file as they are *)
Definition writable (PF : string -> option f64) (fmtF : f64 -> string) (n : nat) (f : feature) : Prop :=
  plain (fName f) /\ typed_name f /\ forall c, c < n -> exists v, value_at f c = Some v /\ cell_ok is_token PF fmtF v.

(** ** Selecting *)
Lemma nfold_blacklist_ok target fm ids : names_ok fm -> NoDup (map fName (fmData fm)) ->
  nfold_blacklist target (fmMap fm) ids (length (fmData fm)) = Ok (map (struck [target; target] ids) (fmData fm)).
Proof.
  intros H Hnd. rewrite <- (blacklist_ok target target fm ids H Hnd). unfold nfold_blacklist, toafm_blacklist.
  generalize (repeat false (length (fmData fm))). induction ids as [|id ids IH]; intros bl; cbn [foreach]; [reflexivity|].
  rewrite Bool.orb_diag. destruct (if (id =? target)%string then _ else _); cbn [bind]; auto.
Qed.
Lemma nfold_keep_ok maxcats (P : feature -> bool) fs :
  nfold_keep maxcats (map P fs) fs =
  let kept := filter (fun f => negb (P f) && ((maxcats =? -1)%Z || (Z.of_nat (fNCats f) <=? maxcats)%Z)) fs in (kept, table_of kept).
Proof.
  unfold nfold_keep. change (@nil (string * nat)) with (table_of []). cbv zeta.
  set (Q := fun f => negb (P f) && ((maxcats =? -1)%Z || (Z.of_nat (fNCats f) <=? maxcats)%Z)).
  assert (G : forall fs acc, fold_left (fun (a : list feature * list (string * nat)) (bf : bool * feature) =>
    if negb (fst bf) && ((maxcats =? -1)%Z || (Z.of_nat (fNCats (snd bf)) <=? maxcats)%Z)
    then (fst a ++ [snd bf], (fName (snd bf), length (fst a)) :: snd a)
    else a) (combine (map P fs) fs) (acc, table_of acc) = (acc ++ filter Q fs, table_of (acc ++ filter Q fs))).
  { clear. induction fs as [|f fs IH]; intros acc; cbn [map combine fold_left filter]; [rewrite app_nil_r; reflexivity|].
    cbn [fst snd]. fold (Q f). destruct (Q f); [|apply IH]. rewrite <- table_snoc, IH, <- app_assoc. reflexivity. }
  apply (G fs []).
Qed.
Lemma nfold_kept target ids maxcats fm : names_ok fm -> NoDup (map fName (fmData fm)) ->
  let kept := filter (keeps target ids maxcats) (fmData fm) in
  nfold_prepare target ids maxcats false false false fm = Ok (mkFM kept (table_of kept) (fmLabels fm)).
Proof.
  intros H Hnd kept. unfold nfold_prepare. rewrite nfold_blacklist_ok by auto. cbn [bind]. rewrite nfold_keep_ok. cbv zeta. cbn [bind].
  unfold nfold_encode. cbn [bind]. do 2 f_equal; [|f_equal]; apply filter_ext; intros f; unfold keeps, struck; cbn [existsb];
    rewrite Bool.orb_false_r, Bool.orb_diag; reflexivity.
Qed.

(** ** Writing *)
Section Files.
  Variables (PF : string -> option f64) (itoa : nat -> string) (fmtF : f64 -> string).
  Lemma write_ok feats tbl labels cases n : PF "NA" = None -> length labels = n -> (forall c, In c cases -> c < n) ->
    (forall l, In l labels -> plain l /\ ~ looks_typed l) -> (forall f, In f feats -> writable PF fmtF n f) ->
    exists out, WriteCases fmtF (mkFM feats tbl labels) cases = Ok out /\ (cases <> [] -> reads_as PF itoa feats labels cases out).
  Proof.
    intros HNA Hn Hc Hl Hf. destruct cases as [|c0 cases'].
    - unfold WriteCases. cbn [foreach bind fmData fmLabels]. generalize (tsv_line ["."]). intros o.
      assert (G : forall fs o, exists out, foreach fs (fun (f : feature) (out : bytes) => Ok (out ++ tsv_line [fName f])) o = Ok out).
      { induction fs as [|f fs IH]; intros o'; cbn [foreach]; [eauto|]. cbn [bind]. apply IH. }
      destruct (G feats o) as [out E]. exists out. split; [exact E|congruence].
    - set (cases := c0 :: cases') in *.
      assert (Hlab : forall c, In c cases -> exists l, nth_error labels c = Some l /\ plain l /\ ~ looks_typed l).
      { intros c Hi. destruct (nth_error labels c) as [l|] eqn:E.
        - exists l. split; auto. apply Hl. eapply nth_error_In; eauto.
        - apply nth_error_None in E. specialize (Hc _ Hi). lia. }
      destruct (C55_matrix_files_round_trip PF itoa fmtF (mkFM feats tbl labels) cases) as (out & fm' & Hw & Hp & HL & HF & Hno).
      + discriminate.
      + cbn [fmLabels hd]. intros l E. destruct (Hlab c0) as (l' & E' & _ & Ht); [left; auto|]. unfold cases in E. cbn [hd] in E. congruence.
      + exact HNA.
      + cbn [fmLabels]. intros c Hi. destruct (Hlab c Hi) as (l & E & Hp & _). eauto.
      + cbn [fmData]. intros f Hi. destruct (Hf f Hi) as (A & T & V). split; [auto|]. split; [auto|]. intros c Hi'. apply V. auto.
      + exists out. split; auto. intros _. exists fm'. split; auto. split; auto. split; [exact HL|]. cbn [fmData] in HF.
        clear - HF. induction HF as [|f f' fs fs' Hff HF IH]; constructor; tauto.
  Qed.
  Lemma write_folds feats tbl labels fs n target : PF "NA" = None -> length labels = n -> (forall c, In c (concat fs) -> c < n) -> NoDup (concat fs) ->
    (forall l, In l labels -> plain l /\ ~ looks_typed l) -> (forall f, In f feats -> writable PF fmtF n f) ->
    forall same encoded, exists outs, nfold_write itoa fmtF fs (length fs) target false false false same (mkFM feats tbl labels) (if same then mkFM feats tbl labels else encoded) = Ok outs /\
      length outs = length fs /\
      forall i test, nth_error fs i = Some test -> exists train tr te,
        nth_error outs i = Some (mkFold None (Some (tr, te)) None) /\
        nfold_train fs (length fs) i = Ok train /\ WriteCases fmtF (mkFM feats tbl labels) train = Ok tr /\
        Permutation (test ++ train) (concat fs) /\ (forall x, In x test -> ~ In x train) /\
        (test <> [] -> reads_as PF itoa feats labels test te) /\ (train <> [] -> reads_as PF itoa feats labels train tr).
  Proof.
    intros HNA Hn Hc Hnd Hl Hf same encoded. unfold nfold_write.
    set (data := mkFM feats tbl labels). set (enc := if same then data else encoded).
    set (Inv := fun k (s : fmatrix * fmatrix * list fold_out) => fst s = (data, enc) /\ length (snd s) = k /\
      forall i test, i < k -> nth_error fs i = Some test -> exists train tr te,
        nth_error (snd s) i = Some (mkFold None (Some (tr, te)) None) /\
        nfold_train fs (length fs) i = Ok train /\ WriteCases fmtF (mkFM feats tbl labels) train = Ok tr /\
        Permutation (test ++ train) (concat fs) /\ (forall x, In x test -> ~ In x train) /\
        (test <> [] -> reads_as PF itoa feats labels test te) /\ (train <> [] -> reads_as PF itoa feats labels train tr)).
    match goal with |- exists outs, (let* _ := for_up _ _ ?b _ in _) = _ /\ _ => destruct (for_up_total Inv b (length fs) (lo := 0) (data, enc, [])) as (s & Es & Is) end.
    - intros k [[d e] outs] Hk (E & Hlen & Hall). cbn [fst snd] in *. inversion E; subst d e. clear E.
      destruct (nth_error fs k) as [test|] eqn:Et; [|apply nth_error_None in Et; lia].
      destruct (C63_train_test fs k test Hnd Et) as (train & Etr & Hp & Hdis).
      rewrite Etr. cbn [bind]. rewrite (get_nth _ _ Et). cbn [bind orb negb andb].
      assert (Hin : forall c, In c test \/ In c train -> c < n).
      { intros c Hi. apply Hc. eapply Permutation_in; [exact Hp|]. apply in_or_app. exact Hi. }
      destruct (write_ok feats tbl labels test n HNA Hn) as (te & Ete & Hte); auto.
      destruct (write_ok feats tbl labels train n HNA Hn) as (tr & Etr' & Htr); auto. fold data in Ete, Etr'.
      rewrite Ete, Etr'. cbn [bind]. eexists. split; [reflexivity|]. cbn [fst snd]. split; [|split].
      + cbn. unfold enc. destruct same; reflexivity.
      + cbn. rewrite app_length. cbn. lia.
      + cbn [snd]. intros i test' Hi E'. destruct (Nat.eq_dec i k) as [->|Hne].
        * assert (test' = test) by congruence. subst test'. exists train, tr, te. rewrite nth_error_app2, Hlen, Nat.sub_diag by lia. repeat (split; [solve [auto]|]). auto.
        * destruct (Hall i test') as (train' & tr' & te' & E1 & R); [lia|auto|]. exists train', tr', te'. rewrite nth_error_app1 by lia. auto.
    - split; [reflexivity|]. split; [reflexivity|]. intros i test Hi. lia.
    - destruct s as [[d e] outs]. destruct Is as (_ & Hlen & Hall). rewrite Es. cbn [bind]. exists outs. split; [reflexivity|]. cbn [snd] in *.
      split; [lia|]. intros i test E. apply Hall; auto. apply nth_error_some_lt in E. lia.
  Qed.
End Files.

(** ** C143 *)
Section Main.
  Variables (PF : string -> option f64) (itoa : nat -> string) (fmtF : f64 -> string).
  (** What was selected to be stratified by: a categorical target that is kept. *)
  Definition strata (kept : list feature) (target : string) (unstratified : bool) (t : catF) : Prop :=
    unstratified = false /\ In (FCat t) kept /\ cName t = target.
  Definition target_of (kept : list feature) (target : string) : option feature :=
    match assoc target (table_of kept) with Some i => nth_error kept i | None => None end.
  Lemma nfold_files : forall rnd target ids maxcats folds unstratified fm n,
  names_ok fm -> NoDup (map fName (fmData fm)) -> length (fmLabels fm) = n -> 0 < folds -> PF "NA" = None ->
  let kept := filter (keeps target ids maxcats) (fmData fm) in
  (forall l, In l (fmLabels fm) -> plain l /\ ~ looks_typed l) ->
  (forall f, In f kept -> writable PF fmtF n f) ->
  (forall t, strata kept target unstratified t -> valid_column t /\ length (cData t) = n) ->
  exists outs fs,
    nfold_main itoa fmtF rnd target ids maxcats false false false folds unstratified false false false fm = Ok outs /\
    length outs = folds /\ proper_folds fs folds (seq 0 n) /\ nfold_folds rnd folds n (target_of kept target) unstratified = Ok fs /\
    (forall i test, nth_error fs i = Some test -> exists train tr te,
      nth_error outs i = Some (mkFold None (Some (tr, te)) None) /\
      nfold_train fs folds i = Ok train /\ WriteCases fmtF (mkFM kept (table_of kept) (fmLabels fm)) train = Ok tr /\
      Permutation (test ++ train) (concat fs) /\ (forall x, In x test -> ~ In x train) /\
      (test <> [] -> reads_as PF itoa kept (fmLabels fm) test te) /\
      (train <> [] -> reads_as PF itoa kept (fmLabels fm) train tr)) /\
    (forall t, strata kept target unstratified t -> forall c, c < NCats (cMap t) ->
      forall f g, In f fs -> In g fs ->
        length (filter (has_classb (cMissing t) (cData t) c) f) = length (filter (has_classb (cMissing t) (cData t) c) g)) /\
    ((forall t, ~ strata kept target unstratified t) -> n < length (concat fs) + folds).
  Proof.
    intros rnd target ids maxcats folds unstratified fm n Hno Hnd Hn Hfolds HNA kept Hl Hw Hst.
    unfold nfold_main. rewrite nfold_kept by auto. cbn [bind]. fold kept. cbn [fmMap fmData fmLabels].
    set (data := mkFM kept (table_of kept) (fmLabels fm)).
    assert (Hk : names_ok data) by apply table_names_ok. destruct Hk as [K1 K2]. cbn [fmMap fmData data] in K1, K2.
    assert (Hkn : NoDup (map fName kept)).
    { clear - Hnd. unfold kept. induction (fmData fm) as [|f fs IH]; cbn; [constructor|]. cbn in Hnd. apply NoDup_cons_iff in Hnd as [H1 H2].
      destruct (keeps target ids maxcats f); [|auto]. cbn. constructor; [|auto]. intros X. apply H1. apply in_map_iff in X as (g & E & Hg).
      apply in_map_iff. exists g. split; auto. apply filter_In in Hg. tauto. }
    set (tf := target_of kept target).
    assert (Etf : match assoc target (table_of kept) with Some i => let* f := get kept i in Ok (Some f) | None => Ok None end = Ok tf).
    { unfold tf, target_of. destruct (assoc target (table_of kept)) as [i|] eqn:E; [|reflexivity]. destruct (K1 _ _ E) as (f & Ef & _). rewrite (get_nth _ _ Ef). cbn [bind]. congruence. }
    rewrite Etf. cbn [bind]. clear Etf. rewrite Hn.
    assert (Hstrat : forall t, strata kept target unstratified t <-> unstratified = false /\ tf = Some (FCat t)).
    { intros t. unfold strata. split.
      - intros (-> & Hin & Hnm). split; auto. unfold tf, target_of. destruct (K2 _ Hin) as [k Ek]. cbn [fName] in Ek. rewrite Hnm in Ek. rewrite Ek.
        destruct (K1 _ _ Ek) as (f & Ef & Efn). rewrite Ef. f_equal. apply In_nth_error in Hin as [j Ej].
        assert (j = k); [|subst; congruence]. apply (proj1 (NoDup_nth_error _) Hkn); [rewrite map_length; eapply nth_error_some_lt; eauto|].
        rewrite !nth_error_map, Ej, Ef. cbn. congruence.
      - intros [-> E]. split; auto. unfold tf, target_of in E. destruct (assoc target (table_of kept)) as [i|] eqn:Ea; [|discriminate].
        destruct (K1 _ _ Ea) as (f & Ef & Efn). split; [eapply nth_error_In; eauto|]. rewrite E in Ef. inversion Ef; subst f. exact Efn. }
    assert (HF : exists fs, nfold_folds rnd folds n tf unstratified = Ok fs /\ proper_folds fs folds (seq 0 n) /\
      (forall t, strata kept target unstratified t -> forall c, c < NCats (cMap t) -> forall f g, In f fs -> In g fs ->
        length (filter (has_classb (cMissing t) (cData t) c) f) = length (filter (has_classb (cMissing t) (cData t) c) g)) /\
      ((forall t, ~ strata kept target unstratified t) -> n < length (concat fs) + folds)).
    { assert (D : (exists t, strata kept target unstratified t) \/ (unstratified = true \/ forall t, tf <> Some (FCat t))).
      { destruct unstratified; [right; left; auto|]. destruct tf as [[?|t]|] eqn:E; [right; right; discriminate|left; exists t; apply Hstrat; auto|right; right; discriminate]. }
      destruct D as [[t Ht]|D].
      - destruct (Hst t Ht) as [Hv Hlen]. pose proof Ht as Ht'. apply Hstrat in Ht' as [-> E]. rewrite E.
        destruct (C63_stratified_folds rnd folds n t Hfolds Hv) as (fs & E1 & E2 & _ & E3). rewrite Hlen in E2. exists fs. split; auto. split; auto. split.
        + intros t' Ht'. apply Hstrat in Ht' as [_ Ht']. assert (t' = t) by congruence. subst t'. intros c Hc. apply (E3 c Hc).
        + intros X. destruct (X t Ht).
      - destruct (C63_unstratified_folds rnd folds n tf unstratified Hfolds D) as (fs & E1 & E2 & E3). exists fs. split; auto. split; auto. split; [|lia].
        intros t Ht. apply Hstrat in Ht as [-> E]. destruct D as [D|D]; [discriminate|]. destruct (D t E). }
    destruct HF as (fs & Efs & Hpf & HS & HU). rewrite Efs. cbn [bind orb]. rewrite Bool.andb_false_r. cbn [bind].
    destruct Hpf as (P1 & P2 & P3 & P4).
    destruct (write_folds PF itoa fmtF kept (table_of kept) (fmLabels fm) fs n target HNA Hn) with
      (same := negb (existsb (fun f => 0 <? fNCats f) kept)) (encoded := data) as (outs & Eo & Elen & Hall); auto.
    { intros c Hc. apply P3 in Hc. apply in_seq in Hc. lia. }
    exists outs, fs. rewrite P1 in Eo. split.
    { rewrite <- Eo. fold data. destruct (negb _); reflexivity. }
    split; [congruence|]. split; [repeat split; auto|]. split; [reflexivity|]. split; [rewrite <- P1; exact Hall|]. split; auto.
  Qed.

Theorem C143_fold_files_partial : forall rnd target ids maxcats folds unstratified fm n,
  names_ok fm -> NoDup (map fName (fmData fm)) -> length (fmLabels fm) = n -> 0 < folds -> PF "NA" = None ->
  let kept := filter (keeps target ids maxcats) (fmData fm) in
  (forall l, In l (fmLabels fm) -> plain l /\ ~ looks_typed l) ->
  (forall f, In f kept -> writable PF fmtF n f) ->
  (forall t, strata kept target unstratified t -> valid_column t /\ length (cData t) = n) ->
  exists outs fs,
    nfold_main itoa fmtF rnd target ids maxcats false false false folds unstratified false false false fm = Ok outs /\
    length outs = folds /\ proper_folds fs folds (seq 0 n) /\
    (forall i test, nth_error fs i = Some test -> exists train tr te,
      nth_error outs i = Some (mkFold None (Some (tr, te)) None) /\
      Permutation (test ++ train) (concat fs) /\ (forall x, In x test -> ~ In x train) /\
      (test <> [] -> reads_as PF itoa kept (fmLabels fm) test te) /\
      (train <> [] -> reads_as PF itoa kept (fmLabels fm) train tr)) /\
    (forall t, strata kept target unstratified t -> forall c, c < NCats (cMap t) ->
      forall f g, In f fs -> In g fs ->
        length (filter (has_classb (cMissing t) (cData t) c) f) = length (filter (has_classb (cMissing t) (cData t) c) g)) /\
    ((forall t, ~ strata kept target unstratified t) -> n < length (concat fs) + folds).
  Proof.
    intros. destruct (nfold_files rnd target ids maxcats folds unstratified fm n) as (outs & fs & E1 & E2 & E3 & _ & E4 & E5 & E6); auto.
    exists outs, fs. repeat (split; [solve [auto]|]). split; [|split; auto]. intros i test Ht. destruct (E4 i test Ht) as (train & tr & te & A & _ & _ & R).
    exists train, tr, te. split; [exact A|exact R].
  Qed.
  (** Two matrices of the same shape that agree outside of the cases [test] *)
  Definition agree_outside (test : list nat) (f f' : feature) : Prop :=
    fName f' = fName f /\ fNCats f' = fNCats f /\ is_numerical f' = is_numerical f /\ forall c, ~ In c test -> value_at f' c = value_at f c.
  Lemma agree_kept target ids maxcats test fs fs' : Forall2 (agree_outside test) fs fs' ->
    Forall2 (agree_outside test) (filter (keeps target ids maxcats) fs) (filter (keeps target ids maxcats) fs').
  Proof.
    induction 1 as [|f f' fs fs' H HF IH]; [constructor|]. cbn [filter]. destruct H as (N & C & K).
    assert (E : keeps target ids maxcats f' = keeps target ids maxcats f) by (unfold keeps; rewrite N, C; reflexivity). rewrite E.
    destruct (keeps target ids maxcats f); [constructor; [split; auto|exact IH]|exact IH].
  Qed.
  Lemma agree_table test fs fs' : Forall2 (agree_outside test) fs fs' -> map fName fs' = map fName fs.
  Proof. induction 1 as [|f f' fs fs' H HF IH]; [reflexivity|]. cbn. destruct H as (-> & _). rewrite IH. reflexivity. Qed.
  Lemma table_of_names fs fs' : map fName fs' = map fName fs -> table_of fs' = table_of fs.
  Proof.
    revert fs'. induction fs as [|f fs IH] using rev_ind; intros fs' E.
    - destruct fs'; [reflexivity|discriminate].
    - destruct fs' as [|f' fs' _] using rev_ind; [rewrite map_app in E; cbn in E; destruct (map fName fs); discriminate|].
      rewrite !map_app in E. cbn [map] in E. apply app_inj_tail in E as [E1 E2]. rewrite !table_snoc. rewrite (IH _ E1), E2.
      apply (f_equal (@length _)) in E1. rewrite !map_length in E1. rewrite E1. reflexivity.
  Qed.
  Lemma agree_write test fs fs' tbl tbl' labels cases n : Forall2 (agree_outside test) fs fs' ->
    (forall f, In f fs -> writable PF fmtF n f) -> (forall c, In c cases -> c < n /\ ~ In c test) ->
    WriteCases fmtF (mkFM fs' tbl' labels) cases = WriteCases fmtF (mkFM fs tbl labels) cases.
  Proof.
    intros HF Hw Hc. unfold WriteCases. cbn [fmLabels fmData]. destruct (foreach cases _ ["."]) as [ls| |]; cbn [bind]; auto.
    generalize (tsv_line ls). induction HF as [|f f' fs fs' H HF IH]; intros o; cbn [foreach]; [reflexivity|]. destruct H as (N & _ & _ & V). rewrite N.
    assert (E : forall init, foreach cases (fun c vals => let* v := fGetStr fmtF f' c in Ok (vals ++ [v])) init =
                             foreach cases (fun c vals => let* v := fGetStr fmtF f c in Ok (vals ++ [v])) init).
    { clear IH HF. induction cases as [|c cases IHc]; intros init; cbn [foreach]; [reflexivity|].
      destruct (Hc c) as [Hlt Hni]; [left; auto|]. destruct (Hw f) as (_ & _ & W); [left; auto|]. destruct (W c Hlt) as (v & Ev & _).
      assert (Ev' : value_at f' c = Some v) by (rewrite V by exact Hni; exact Ev).
      rewrite (fGetStr_ok fmtF f c v Ev), (fGetStr_ok fmtF f' c v Ev'). unfold cell_text. rewrite Ev, Ev'. cbn [bind]. apply IHc. intros; apply Hc; right; auto. }
    rewrite E. destruct (foreach cases _ [fName f]) as [vals| |]; cbn [bind]; auto. apply IH. intros g Hg. apply Hw. right; auto.
  Qed.

  (** The training file of a fold is a function of the other cases: two matrices that agree
      outside of the testing cases of a fold, and wholly on the target if the folds are
      stratified by it, have the same folds and the same training file. *)
Theorem C143_training_file_blind_partial : forall rnd target ids maxcats folds unstratified fm fm' n,
  names_ok fm -> names_ok fm' -> NoDup (map fName (fmData fm)) -> length (fmLabels fm) = n -> 0 < folds -> PF "NA" = None ->
  let kept := filter (keeps target ids maxcats) (fmData fm) in
  let kept' := filter (keeps target ids maxcats) (fmData fm') in
  (forall l, In l (fmLabels fm) -> plain l /\ ~ looks_typed l) ->
  (forall f, In f kept \/ In f kept' -> writable PF fmtF n f) ->
  (forall t, strata kept target unstratified t -> valid_column t /\ length (cData t) = n /\ In (FCat t) kept') ->
  fmLabels fm' = fmLabels fm ->
  exists outs outs' fs,
    nfold_main itoa fmtF rnd target ids maxcats false false false folds unstratified false false false fm = Ok outs /\
    proper_folds fs folds (seq 0 n) /\
    forall i test, nth_error fs i = Some test -> Forall2 (agree_outside test) (fmData fm) (fmData fm') ->
      nfold_main itoa fmtF rnd target ids maxcats false false false folds unstratified false false false fm' = Ok outs' /\
      exists tr te te',
        nth_error outs i = Some (mkFold None (Some (tr, te)) None) /\ nth_error outs' i = Some (mkFold None (Some (tr, te')) None).
  Proof.
    intros rnd target ids maxcats folds unstratified fm fm' n Hno Hno' Hnd Hn Hfolds HNA kept kept' Hl Hw Hst Hlab.
    destruct (nfold_files rnd target ids maxcats folds unstratified fm n) as (outs & fs & E1 & E2 & E3 & E4 & E5 & _); auto.
    { intros t Ht. destruct (Hst t Ht) as (A & B & _). auto. }
    exists outs, (match nfold_main itoa fmtF rnd target ids maxcats false false false folds unstratified false false false fm' with Ok o => o | _ => [] end), fs.
    split; [exact E1|]. split; [exact E3|]. intros i test Ht HF.
    assert (Hnames : map fName (fmData fm') = map fName (fmData fm)) by (eapply agree_table; eauto).
    assert (HK : Forall2 (agree_outside test) kept kept') by (apply agree_kept; exact HF).
    assert (Hkn : map fName kept' = map fName kept) by (eapply agree_table; eauto).
    assert (Hnd' : NoDup (map fName kept')).
    { assert (G : NoDup (map fName (fmData fm'))) by congruence. clear - G. unfold kept'. induction (fmData fm') as [|f fs IH]; cbn; [constructor|]. cbn in G. apply NoDup_cons_iff in G as [H1 H2].
      destruct (keeps target ids maxcats f); [|auto]. cbn. constructor; [|auto]. intros X. apply H1. apply in_map_iff in X as (g & E & Hg).
      apply in_map_iff. exists g. split; auto. apply filter_In in Hg. tauto. }
    assert (Hpair : forall f f', In f kept -> In f' kept' -> fName f' = fName f -> agree_outside test f f').
    { intros f f' Hf Hf' E. apply In_nth_error in Hf as [j Ej]. apply In_nth_error in Hf' as [j' Ej'].
      assert (j' = j).
      { apply (proj1 (NoDup_nth_error _) Hnd'); [rewrite map_length; eapply nth_error_some_lt; eauto|]. rewrite nth_error_map, Ej'. cbn. rewrite Hkn, nth_error_map, Ej. cbn. congruence. }
      subst j'. clear - HK Ej Ej'. revert j Ej Ej'. induction HK as [|a b l l' Hab HK IH]; intros [|j] Ej Ej'; try discriminate; cbn in *; [congruence|eauto]. }
    (* the target *)
    assert (Hst' : forall t, strata kept' target unstratified t -> strata kept target unstratified t).
    { intros t' (U & Hin & Hnm). assert (X : In target (map fName kept)).
      { rewrite <- Hkn. apply in_map_iff. exists (FCat t'). auto. }
      apply in_map_iff in X as (f & Ef & Hf). destruct (Hpair f (FCat t') Hf Hin) as (_ & _ & K & _); [cbn; congruence|].
      destruct f as [f|t]; [discriminate|]. assert (S1 : strata kept target unstratified t) by (split; auto).
      destruct (Hst t S1) as (_ & _ & Hin2). assert (t = t'); [|subst; exact S1].
      apply In_nth_error in Hin as [a Ea]. apply In_nth_error in Hin2 as [b Eb].
      assert (a = b); [|subst; congruence]. apply (proj1 (NoDup_nth_error _) Hnd'); [rewrite map_length; eapply nth_error_some_lt; eauto|].
      rewrite !nth_error_map, Ea, Eb. cbn. cbn in Ef. congruence. }
    destruct (nfold_files rnd target ids maxcats folds unstratified fm' n) as (outs' & fs' & E1' & E2' & E3' & E4' & E5' & _); auto; try congruence.
    { rewrite Hlab. exact Hl. } { intros t Hs. destruct (Hst t (Hst' t Hs)) as (A & B & _). auto. }
    fold kept' in E4'.
    assert (Efs : fs' = fs).
    { assert (X : nfold_folds rnd folds n (target_of kept' target) unstratified = nfold_folds rnd folds n (target_of kept target) unstratified).
      { unfold target_of. rewrite (table_of_names kept kept' Hkn). destruct (assoc target (table_of kept)) as [k|] eqn:Ek; [|reflexivity].
        destruct (table_names_ok kept []) as [T1 _]. destruct (T1 _ _ Ek) as (f & Ef & Hfn). cbn [fmData] in Ef. rewrite Ef.
        destruct (nth_error kept' k) as [f'|] eqn:Ef'; [|exfalso; apply nth_error_None in Ef'; apply nth_error_some_lt in Ef; apply (f_equal (@length _)) in Hkn; rewrite !map_length in Hkn; lia].
        assert (Hfn' : fName f' = fName f) by (apply (f_equal (fun l => nth_error l k)) in Hkn; rewrite !nth_error_map, Ef, Ef' in Hkn; cbn in Hkn; congruence).
        destruct (Hpair f f') as (_ & _ & K & _); [eapply nth_error_In; eauto|eapply nth_error_In; eauto|auto|].
        destruct f as [f|t], f' as [f'|t']; try discriminate; [reflexivity|].
        destruct unstratified; [reflexivity|].
        assert (S1 : strata kept' target false t') by (split; [auto|split; [eapply nth_error_In; eauto|cbn in *; congruence]]).
        pose proof (Hst' t' S1) as (_ & Hin & Hnm). assert (t' = t); [|subst; reflexivity].
        apply In_nth_error in Hin as [b Eb]. assert (Hndk : NoDup (map fName kept)) by (rewrite <- Hkn; exact Hnd').
        assert (k = b); [|subst; congruence]. apply (proj1 (NoDup_nth_error _) Hndk); [rewrite map_length; eapply nth_error_some_lt; eauto|].
        rewrite !nth_error_map, Ef, Eb. cbn in *. congruence. }
      fold kept in E4. rewrite X, E4 in E4'. congruence. }
    subst fs'. rewrite E1'. split; [reflexivity|].
    destruct (E5 i test Ht) as (train & tr & te & A1 & A2 & A3 & A4 & A5 & _). destruct (E5' i test Ht) as (train' & tr' & te' & B1 & B2 & B3 & _).
    exists tr, te, te'. split; [exact A1|]. rewrite B1. do 4 f_equal. assert (train' = train) by congruence. subst train'.
    fold kept in A3. fold kept' in B3. rewrite Hlab in B3.
    rewrite (agree_write test kept kept' (table_of kept) (table_of kept') (fmLabels fm) train n HK) in B3.
    - rewrite A3 in B3. congruence.
    - intros f Hf. apply Hw. left. exact Hf.
    - intros c Hc. split; [|intros X; exact (A5 c X Hc)]. destruct E3 as (_ & _ & P & _).
      assert (Hin : In c (concat fs)) by (eapply Permutation_in; [exact A4|apply in_or_app; right; exact Hc]). apply P, in_seq in Hin. lia.
  Qed.
  (** The flag -onehot changes no file. *)
Theorem C143_onehot_ignored_partial : forall rnd target ids maxcats impute num folds unstratified arff svm all fm outs,
  nfold_main itoa fmtF rnd target ids maxcats impute true num folds unstratified arff svm all fm = Ok outs ->
  nfold_main itoa fmtF rnd target ids maxcats impute false num folds unstratified arff svm all fm = Ok outs.
  Proof.
    intros until outs. unfold nfold_main, nfold_prepare. destruct (nfold_blacklist _ _ _ _) as [bl| |]; cbn [bind]; auto.
    destruct (nfold_keep maxcats bl (fmData fm)) as [nd nm]. destruct (if impute then _ else _) as [d| |]; cbn [bind]; auto.
    unfold nfold_encode. destruct (fmOneHot d); cbn [bind]; auto; discriminate.
  Qed.
End Main.
Print Assumptions C143_fold_files_partial.
Print Assumptions C143_training_file_blind_partial.
Print Assumptions C143_onehot_ignored_partial.

(** ** What the other flags do *)
Definition nf_num (name : string) (d : list f64) (ms : list bool) : feature := FNum (mkNum d ms name (existsb (fun b => b) ms)).
Definition nf_fm (x : list f64) (ms : list bool) : fmatrix :=
  mkFM [nf_num "N:x" x ms; nf_num "N:y" [f0; f1; f0; f1] [false; false; false; false]] [("N:y", 1); ("N:x", 0)] ["p"; "q"; "r"; "s"].
Definition nf_run (impute all : bool) (fm : fmatrix) : res (list fold_out) :=
  nfold_main (fun _ => "0") fmt1 (fun _ _ => 0) "N:y" [] (-1) impute false false 2 false false false all fm.
(** Case [j] of the first column in the feature matrix [out] *)
Definition first_value (out : bytes) (j : nat) : option value :=
  match ParseAFM PF1 (fun _ => "0") out with
  | Ok fm => match fmData fm with f :: _ => value_at f j | [] => None end
  | _ => None
  end.

(** With -writeall the libsvm files of one fold fill in the absent values of the feature
    matrices of the next: case [r] is absent in the training file of fold 0 and 1 in the
    testing file of fold 1, while without the flag it is absent in both. *)
Theorem C143_write_all_refuted : exists fm tr0 te0 tr1 te1 a0 a1 s0 s1 tr0' te0' tr1' te1',
  nf_run false false fm = Ok [mkFold None (Some (tr0, te0)) None; mkFold None (Some (tr1, te1)) None] /\
  nf_run false true fm = Ok [mkFold a0 (Some (tr0', te0')) s0; mkFold a1 (Some (tr1', te1')) s1] /\
  first_value tr0 0 = Some VMissing /\ first_value te1 0 = Some VMissing /\
  first_value tr0' 0 = Some VMissing /\ first_value te1' 0 = Some (VNum f1).
Proof.
  exists (nf_fm [f1; f1; f0; f1] [false; false; true; false]). do 12 eexists.
  split; [vm_compute; reflexivity|]. split; [vm_compute; reflexivity|]. repeat split; vm_compute; reflexivity.
Qed.
(** With -impute a training file depends on the cases of its testing file. *)
Theorem C143_impute_leak_refuted : exists x x' ms fs tr te tr' te' o o',
  nfold_folds (fun _ _ => 0) 2 4 (nth_error (fmData (nf_fm x ms)) 1) false = Ok fs /\
  (forall c, ~ In c (hd [] fs) -> nth_error x c = nth_error x' c) /\
  nf_run true false (nf_fm x ms) = Ok [mkFold None (Some (tr, te)) None; o] /\
  nf_run true false (nf_fm x' ms) = Ok [mkFold None (Some (tr', te')) None; o'] /\
  first_value tr 0 = Some (VNum f1) /\ first_value tr' 0 = Some (VNum f0).
Proof.
  exists [f1; f1; f0; f1], [f0; f0; f0; f1], [false; false; true; false], [[0; 1]; [2; 3]]. do 6 eexists.
  split; [vm_compute; reflexivity|]. split.
  { cbn [hd]. intros [|[|c]] H; [destruct H; cbn; auto|destruct H; cbn; auto|reflexivity]. }
  split; [vm_compute; reflexivity|]. split; [vm_compute; reflexivity|]. split; vm_compute; reflexivity.
Qed.
Print Assumptions C143_write_all_refuted.
Print Assumptions C143_impute_leak_refuted.

Definition nf_cat : catF := mkCat (mkCM [("b", 1); ("a", 0)] ["a"; "b"]) [0; 1; 0; 1] [false; false; false; false] "C:t" false false.
Definition nf_fm2 : fmatrix :=
  mkFM [nf_num "N:x" [f1; f1; f0; f1] [false; false; true; false]; nf_num "N:z" [f1; f1; f0; f1] [false; false; true; false]; FCat nf_cat]
    [("C:t", 2); ("N:z", 1); ("N:x", 0)] ["p"; "q"; "r"; "s"].
Example C143_example :
  names_ok nf_fm2 /\ NoDup (map fName (fmData nf_fm2)) /\ PF1 "NA" = None /\
  filter (keeps "C:t" ["N:z"; "C:t"] (-1)) (fmData nf_fm2) = [nf_num "N:x" [f1; f1; f0; f1] [false; false; true; false]; FCat nf_cat] /\
  (forall l, In l (fmLabels nf_fm2) -> plain l /\ ~ looks_typed l) /\
  (forall f, In f (fmData nf_fm2) -> writable PF1 fmt1 4 f) /\ valid_column nf_cat /\
  exists outs, nfold_main (fun _ => "0") fmt1 (fun _ _ => 0) "C:t" ["N:z"; "C:t"] (-1) false false false 2 false false false false nf_fm2 = Ok outs /\
    map (fun o => match foAfm o with Some (tr, te) => (map (first_value tr) [0; 1; 2], map (first_value te) [0; 1; 2]) | None => ([], []) end) outs =
    [([Some VMissing; Some (VNum f1); None], [Some (VNum f1); Some (VNum f1); None]);
     ([Some (VNum f1); Some (VNum f1); None], [Some VMissing; Some (VNum f1); None])].
Proof.
  split; [|split; [|split; [reflexivity|split; [reflexivity|split; [|split; [|split]]]]]].
  - split; cbn [fmMap fmData nf_fm2].
    + intros name k. cbn. destruct (String.eqb_spec name "C:t") as [->|]; [intros E; inversion E; subst; eexists; split; reflexivity|].
      destruct (String.eqb_spec name "N:z") as [->|]; [intros E; inversion E; subst; eexists; split; reflexivity|].
      destruct (String.eqb_spec name "N:x") as [->|]; [intros E; inversion E; subst; eexists; split; reflexivity|discriminate].
    + intros f [<-|[<-|[<-|[]]]]; eexists; reflexivity.
  - cbn. repeat constructor; cbn; intuition discriminate.
  - intros l [<-|[<-|[<-|[<-|[]]]]]; (split; [plainly|intros [[s H]|[[s H]|[s H]]]; discriminate]).
  - intros f Hf. cbn [fmData nf_fm2 In] in Hf. destruct Hf as [<-|[<-|[<-|[]]]].
    1, 2: split; [plainly|]; split; [split; [cbn; lia|]; split; [intros _; eexists; reflexivity|reflexivity]|];
      intros [|[|[|[|c]]]] Hlt; try lia; eexists; (split; [reflexivity|]); cbn; try exact I; (split; [reflexivity|plainly]).
    split; [plainly|]. split; [split; [cbn; lia|]; split; [discriminate|intros [s E]; discriminate]|].
    intros [|[|[|[|c]]]] Hlt; try lia; eexists; (split; [reflexivity|]); (split; [plainly|]);
          intros (w & Hw & Hs); destruct Hw as [<-|[<-|[<-|[<-|[<-|[]]]]]]; cbn in Hs; try tauto;
          unfold same_letter in Hs; cbn in Hs; lia.
  - split; [reflexivity|]. intros [|[|[|[|i]]]] c [H1 H2]; cbn in H1, H2; try discriminate; try (destruct i; discriminate); inversion H2; subst; vm_compute; lia.
  - eexists. split; vm_compute; reflexivity.
Qed.
