(** C118: opening a data file (featurematrix.go:411-439). *)
From Verif Require Import Go GoLemmas F64 ModelFeature ModelSample FeatureSpec ModelText TextProofs ModelMatrix ModelExport MatrixSpec MatrixProofs
  ModelCommands2 PropMatrix PropARFF.
Local Open Scope string_scope.
Local Open Scope nat_scope.
Local Open Scope list_scope.

Definition ends_in (s suffix : string) : Prop := exists base, s = (base ++ suffix)%string.

Lemma has_prefix_spec p s : has_prefix p s = true <-> exists r, s = p ++ r.
Proof.
  revert s. induction p as [|a p IH]; intros s; cbn.
  - split; [exists s; reflexivity|reflexivity].
  - destruct s as [|b s]; [split; [discriminate|intros (r & E); discriminate]|].
    destruct (Ascii.eqb_spec a b) as [->|Hn]; cbn.
    + rewrite IH. split; intros (r & E); exists r; [now rewrite E|now inversion E].
    + split; [discriminate|]. intros (r & E). inversion E. congruence.
Qed.
Lemma HasSuffix_spec s suffix : HasSuffix s suffix = true <-> ends_in s suffix.
Proof.
  unfold HasSuffix, ends_in. rewrite has_prefix_spec. split.
  - intros (r & E). exists (T (rev r)). rewrite <- (TB s). rewrite <- (rev_involutive (B s)), E, rev_app_distr, rev_involutive.
    rewrite <- (TB suffix) at 2. clear. unfold T. generalize (rev r) as a. induction a; cbn; [reflexivity|]. now rewrite IHa.
  - intros (base & ->). exists (rev (B base)). rewrite B_app. apply rev_app_distr.
Qed.
Lemma HasSuffix_no s suffix : ~ ends_in s suffix -> HasSuffix s suffix = false.
Proof. intros H. destruct (HasSuffix s suffix) eqn:E; [|reflexivity]. apply HasSuffix_spec in E. contradiction. Qed.
Lemma one_ending s : ends_in s ".arff" -> ~ ends_in s ".libsvm".
Proof.
  intros (a & ->) (b & E). apply (f_equal (fun x => rev (B x))) in E. rewrite !B_app, !rev_app_distr in E. discriminate.
Qed.

Lemma weaken_forall2 {A C} (P Q : A -> C -> Prop) : (forall a c, P a c -> Q a c) -> forall l m, Forall2 P l m -> Forall2 Q l m.
Proof. intros H l m F. induction F; constructor; auto. Qed.

Section Load.
  Variable PF : string -> option f64.
  Variable itoa : nat -> string.
  Variable Atoi : bytes -> option Z.
  Variable fmtF : f64 -> string.

  (** A file written with WriteCases is read back under every name that ends neither in
      .arff nor in .libsvm, and from a zip archive under every name; a file that is taken for
      an archive, but whose first entry cannot be opened, is read like any other. *)
Theorem C118_matrix_files_partial : forall fm cases,
    cases <> [] ->
    (forall l, nth_error (fmLabels fm) (hd 0 cases) = Some l -> ~ looks_typed l) ->
    PF "NA" = None ->
    (forall c, In c cases -> exists l, nth_error (fmLabels fm) c = Some l /\ plain l) ->
    (forall f, In f (fmData fm) -> plain (fName f) /\ typed_name f /\
       forall c, In c cases -> exists v, value_at f c = Some v /\ cell_ok is_token PF fmtF v) ->
    exists out fm', WriteCases fmtF fm cases = Ok out /\
      (forall name, ~ ends_in name ".arff" -> ~ ends_in name ".libsvm" -> LoadAFM PF itoa Atoi name (FPlain out) = Ok (Some fm')) /\
      (forall name more b, LoadAFM PF itoa Atoi name (FZip (Some out :: more) b) = Ok (Some fm')) /\
      (forall name more, ~ ends_in name ".arff" -> ~ ends_in name ".libsvm" ->
        LoadAFM PF itoa Atoi name (FZip (None :: more) out) = Ok (Some fm')) /\
      Forall2 (fun c l => nth_error (fmLabels fm) c = Some l) cases (fmLabels fm') /\
      Forall2 (fun f f' => fName f' = fName f /\ is_numerical f' = is_numerical f /\ fLength f' = length cases /\
        forall j c, nth_error cases j = Some c -> value_at f' j = value_at f c) (fmData fm) (fmData fm').
  Proof.
    intros fm cases H1 H2 H3 H4 H5.
    destruct (C55_matrix_files_round_trip PF itoa fmtF fm cases H1 H2 H3 H4 H5) as (out & fm' & Ew & Ep & HL & HD & _).
    exists out, fm'. split; [exact Ew|]. split; [|split; [|split; [|split; [exact HL|]]]].
    - intros name Ha Hl. cbn. unfold load_plain. rewrite !HasSuffix_no by assumption. rewrite Ep. reflexivity.
    - intros name more b. cbn. rewrite Ep. reflexivity.
    - intros name more Ha Hl. cbn. unfold load_plain. rewrite !HasSuffix_no by assumption. rewrite Ep. reflexivity.
    - revert HD. apply weaken_forall2. cbn. intros f f' (A & C & D & E & _). auto.
  Qed.

  (** A file written with WriteArffCases is read back under every name that ends in .arff. *)
Theorem C118_arff_files_partial : forall fm cases relation,
    fmData fm <> [] -> PF "?" = None -> no nl (B relation) ->
    (forall f, In f (fmData fm) -> one_word (fName f) /\ Forall (fun s => no nl (B s)) (categories f) /\
       forall c, In c cases -> exists v, value_at f c = Some v /\ arff_value_ok PF fmtF v) ->
    (forall f c v, nth_error (fmData fm) 0 = Some f -> In c cases -> value_at f c = Some v -> ~ like_comment fmtF v) ->
    exists out fm', WriteArffCases fmtF fm cases relation = Ok out /\
      (forall name, ends_in name ".arff" -> LoadAFM PF itoa Atoi name (FPlain out) = Ok (Some fm')) /\
      Forall2 (fun f f' => fName f' = fName f /\ is_numerical f' = is_numerical f /\ fLength f' = length cases /\
        forall j c, nth_error cases j = Some c -> value_at f' j = value_at f c) (fmData fm) (fmData fm').
  Proof.
    intros fm cases relation H1 H2 H3 H4 H5.
    destruct (C102_arff_round_trip_partial PF itoa fmtF fm cases relation H1 H2 H3 H4 H5) as (out & fm' & Ew & Ep & HD & _).
    exists out, fm'. split; [exact Ew|]. split; [|exact HD].
    intros name Hn. cbn. unfold load_plain. apply HasSuffix_spec in Hn. rewrite Hn. exact Ep.
  Qed.

  (** Under a name that ends in .libsvm the file is read as libsvm. *)
Theorem C118_libsvm_files_partial : forall name out fm', ends_in name ".libsvm" -> ParseLibSVM PF itoa Atoi out = Ok fm' ->
    LoadAFM PF itoa Atoi name (FPlain out) = Ok (Some fm').
  Proof.
    intros name out fm' Hn E. cbn. unfold load_plain. rewrite (HasSuffix_no name ".arff"); [|intros X; exact (one_ending _ X Hn)].
    apply HasSuffix_spec in Hn. rewrite Hn, E. reflexivity.
  Qed.

  Lemma one_column c l rest : no nl (c :: l) -> c <> cr -> no tab (c :: l) -> ParseAFM PF itoa ((c :: l) ++ nl :: rest) = Panic.
  Proof.
    intros Hn Hc Ht. unfold ParseAFM, csv_lines. rewrite split_cons by exact Hn. cbn [map filter].
    assert (D : exists l', drop_cr (c :: l) = c :: l' /\ no tab (c :: l')).
    { unfold drop_cr. destruct (rev (c :: l)) as [|d r] eqn:E; [exists l; auto|].
      destruct (Ascii.eqb_spec d cr) as [->|Hd]; [|exists l; auto].
      apply (f_equal (@rev ascii)) in E. rewrite rev_involutive in E. cbn [rev] in E.
      destruct (rev r) as [|c' l'] eqn:Er; cbn [app] in E; [injection E as E1 E2; congruence|]. injection E as E1 E2. subst c'. exists l'. split; [reflexivity|].
      intros X. apply Ht. destruct X as [X|X]; [left; exact X|right]. rewrite E2. apply in_or_app. auto. }
    destruct D as (l' & -> & Hl'). cbn [length Nat.eqb negb]. cbn [csv_read]. unfold csv_record. rewrite split_none by exact Hl'.
    destruct (existsb _ _); [reflexivity|]. cbn. reflexivity.
  Qed.

  (** The name is not looked at for a zip archive: an ARFF file in one is read as a
      matrix, and that panics. *)
Theorem C118_zipped_arff_refuted : forall fm cases relation out name more b,
    no nl (B relation) -> no tab (B relation) -> WriteArffCases fmtF fm cases relation = Ok out ->
    LoadAFM PF itoa Atoi name (FZip (Some out :: more) b) = Panic /\
    (~ ends_in name ".arff" -> ~ ends_in name ".libsvm" -> LoadAFM PF itoa Atoi name (FPlain out) = Panic).
  Proof.
    intros fm cases relation out name more b Hn Ht E.
    assert (P : ParseAFM PF itoa out = Panic).
    { assert (X : exists rest, out = B "@RELATION " ++ B relation ++ nl :: rest).
      { unfold WriteArffCases in E.
        assert (G : forall cs a o, foreach cs (fun i out => let* entries := arff_row fmtF (fmData fm) i in Ok (out ++ csv_write "," (map B entries))) a = Ok o -> exists r, o = a ++ r).
        { induction cs as [|i cs IH]; intros a o Ho; cbn in Ho; [inversion Ho; exists []; now rewrite app_nil_r|].
          destruct (arff_row fmtF (fmData fm) i); cbn in Ho; try discriminate. apply IH in Ho as (r & ->). eexists. rewrite <- app_assoc. reflexivity. }
        apply G in E as (r & ->). unfold arff_head. eexists. rewrite <- !app_assoc. cbn [app]. reflexivity. }
      destruct X as (rest & ->). rewrite app_assoc. change (B "@RELATION " ++ B relation) with ("@"%char :: (B "RELATION " ++ B relation)). apply one_column; [|discriminate|].
      - intros X. cbn in X. repeat (destruct X as [X|X]; [discriminate|]). exact (Hn X).
      - intros X. cbn in X. repeat (destruct X as [X|X]; [discriminate|]). exact (Ht X). }
    split; [cbn; rewrite P; reflexivity|]. intros Ha Hl. cbn. unfold load_plain. rewrite !HasSuffix_no by assumption. rewrite P. reflexivity.
  Qed.

  (** So is a libsvm file, which has no tabs. *)
Theorem C118_zipped_libsvm_refuted : forall c l rest name more b, no nl (c :: l) -> c <> cr -> no tab (c :: l) ->
    LoadAFM PF itoa Atoi name (FZip (Some ((c :: l) ++ nl :: rest) :: more) b) = Panic.
  Proof. intros c l rest name more b H1 H2 H3. cbn [LoadAFM get nth_error bind]. rewrite one_column by assumption. reflexivity. Qed.

  (** An archive without entries panics. *)
Theorem C118_empty_archive_refuted : forall name b, LoadAFM PF itoa Atoi name (FZip [] b) = Panic.
  Proof. reflexivity. Qed.
End Load.
Print Assumptions C118_matrix_files_partial.
Print Assumptions C118_arff_files_partial.
Print Assumptions C118_libsvm_files_partial.
Print Assumptions C118_zipped_arff_refuted.
Print Assumptions C118_zipped_libsvm_refuted.
Print Assumptions C118_empty_archive_refuted.

(** The matrix of the example for C102, read from a file and from an archive. *)
Example C118_example : exists out fm', WriteArffCases arff_fmt arff_fm [0; 2; 0] "test" = Ok out /\
  LoadAFM arff_PF arff_itoa (fun _ => None) "data/test.arff" (FPlain out) = Ok (Some fm') /\ Forall (fun f => fLength f = 3) (fmData fm') /\
  LoadAFM arff_PF arff_itoa (fun _ => None) "data/test.arff.zip" (FZip [Some out] []) = Panic /\
  LoadAFM arff_PF arff_itoa (fun _ => None) "data/test.ARFF" (FPlain out) = Panic.
Proof.
  eexists. eexists. split; [vm_compute; reflexivity|]. split; [vm_compute; reflexivity|].
  split; [repeat (apply Forall_cons; [reflexivity|]); apply Forall_nil|]. split; vm_compute; reflexivity.
Qed.
Example C118_matrix_example : exists out, WriteCases fmt1 ex_fm [2; 0; 2] = Ok out /\
  LoadAFM PF1 (fun _ => "") (fun _ => None) "test.fm" (FPlain out) = LoadAFM PF1 (fun _ => "") (fun _ => None) "test.zip" (FZip [Some out] []) /\
  exists fm', LoadAFM PF1 (fun _ => "") (fun _ => None) "test.fm" (FPlain out) = Ok (Some fm') /\ fmLabels fm' = ["r"; "p"; "r"].
Proof. eexists. split; [vm_compute; reflexivity|]. split; [vm_compute; reflexivity|]. eexists. split; [vm_compute; reflexivity|reflexivity]. Qed.
