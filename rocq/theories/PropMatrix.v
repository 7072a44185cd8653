(** C55, C56, C59: matrices and their files. *)
From Verif Require Import Go GoLemmas F64 ModelFeature FeatureSpec ModelSample FeatureProofs ModelText TextProofs ModelMatrix MatrixSpec MatrixProofs.
Local Open Scope string_scope.
Local Open Scope nat_scope.
Local Open Scope list_scope.

(** ** The name table *)
Definition table_of (data : list feature) : list (string * nat) := rev (combine (map fName data) (seq 0 (length data))).
Lemma combine_app' {A C} : forall (a b : list A) (c d : list C), length a = length c -> combine (a ++ b) (c ++ d) = combine a c ++ combine b d.
Proof. induction a as [|x a IH]; intros b [|y c] d H; cbn in *; try discriminate; auto. f_equal. apply IH. lia. Qed.
Lemma table_snoc data f : table_of (data ++ [f]) = (fName f, length data) :: table_of data.
Proof.
  unfold table_of. rewrite map_app, app_length, seq_app. cbn [map seq length].
  rewrite combine_app' by (rewrite map_length, seq_length; auto). rewrite rev_app_distr. reflexivity.
Qed.
Lemma assoc_names_ok data tbl labels :
  (forall name k, assoc name tbl = Some k -> exists f, nth_error data k = Some f /\ fName f = name) ->
  (forall f, In f data -> exists k, assoc (fName f) tbl = Some k) ->
  names_ok (mkFM data tbl labels).
Proof. intros A C. split; auto. Qed.
Lemma names_ok_snoc data tbl labels f : names_ok (mkFM data tbl labels) ->
  names_ok (mkFM (data ++ [f]) ((fName f, length data) :: tbl) labels).
Proof.
  intros [A C]. cbn in A, C. split; cbn.
  - intros name k. destruct (String.eqb_spec name (fName f)) as [->|Hn].
    + intros E. inversion E; subst. exists f. split; auto. rewrite nth_error_app2, Nat.sub_diag by lia. reflexivity.
    + intros E. destruct (A _ _ E) as (g & Hg & Hm). exists g. split; auto. rewrite nth_error_app1; auto. eapply nth_error_some_lt; eauto.
  - intros g Hg. destruct (String.eqb_spec (fName g) (fName f)) as [E|E]; [eauto|].
    apply in_app_or in Hg as [Hg|[<-|[]]]; [auto|congruence].
Qed.
Lemma table_names_ok data labels : names_ok (mkFM data (table_of data) labels).
Proof.
  induction data as [|f data IH] using rev_ind.
  - split; [intros name k E; discriminate|intros f []].
  - rewrite table_snoc. apply names_ok_snoc. exact IH.
Qed.

Lemma foreach_map {A C} (g : A -> res C) (h : A -> C) (l : list A) (init : list C) :
  (forall a, In a l -> g a = Ok (h a)) ->
  foreach l (fun a vals => let* v := g a in Ok (vals ++ [v])) init = Ok (init ++ map h l).
Proof.
  revert init. induction l as [|a l IH]; intros init H; cbn; [rewrite app_nil_r; auto|].
  rewrite H by (left; auto). cbn. rewrite IH by (intros; apply H; right; auto). rewrite <- app_assoc. reflexivity.
Qed.

(** ** C55 *)
Section RoundTrip.
  Variable PF : string -> option f64.
  Variable itoa : nat -> string.
  Variable fmtF : f64 -> string.

  Definition cell_text (f : feature) (c : nat) : string :=
    match value_at f c with Some (VNum x) => fmtF x | Some (VCat s) => s | _ => "NA" end.
  Lemma fGetStr_ok f c v : value_at f c = Some v -> fGetStr fmtF f c = Ok (cell_text f c).
  Proof.
    intros H. unfold cell_text. rewrite H. revert H. unfold value_at, fGetStr, cGetStr, get. destruct f as [f|f].
    - destruct (nth_error (nMissing f) c) as [[]|]; try discriminate; destruct (nth_error (nData f) c); try discriminate;
        intros E; inversion E; reflexivity.
    - destruct (nth_error (cMissing f) c) as [[]|]; try discriminate; destruct (nth_error (cData f) c) as [k|]; try discriminate;
        cbn [bind]; intros E.
      + inversion E; reflexivity.
      + destruct (nth_error (cmBack (cMap f)) k); inversion E; reflexivity.
  Qed.
  Lemma plain_NA : plain "NA".
  Proof. apply Forall_forall. intros c [<-|[<-|[]]]; repeat split; discriminate. Qed.

Theorem C55_matrix_files_round_trip : forall fm cases,
    cases <> [] ->
    (forall l, nth_error (fmLabels fm) (hd 0 cases) = Some l -> ~ looks_typed l) ->
    PF "NA" = None ->
    (forall c, In c cases -> exists l, nth_error (fmLabels fm) c = Some l /\ plain l) ->
    (forall f, In f (fmData fm) -> plain (fName f) /\ typed_name f /\
       forall c, In c cases -> exists v, value_at f c = Some v /\ cell_ok is_token PF fmtF v) ->
    exists out fm', WriteCases fmtF fm cases = Ok out /\ ParseAFM PF itoa out = Ok fm' /\
      Forall2 (fun c l => nth_error (fmLabels fm) c = Some l) cases (fmLabels fm') /\
      Forall2 (fun f f' =>
        fName f' = fName f /\ is_numerical f' = is_numerical f /\ fLength f' = length cases /\
        (forall j c, nth_error cases j = Some c -> value_at f' j = value_at f c) /\
        (fMissingVals f' = true <-> exists c, In c cases /\ value_at f c = Some VMissing)) (fmData fm) (fmData fm') /\
      names_ok fm'.
  Proof.
    intros fm cases Hne Hl0 HNA Hlab Hf.
    set (lab := fun c => nth c (fmLabels fm) "").
    set (row := fun f => fName f :: map (cell_text f) cases).
    assert (Elab : forall c, In c cases -> get (fmLabels fm) c = Ok (lab c)).
    { intros c Hc. destruct (Hlab c Hc) as (l & E & _). apply get_nth. rewrite E. unfold lab. f_equal. symmetry. apply nth_error_nth. auto. }
    assert (EW : WriteCases fmtF fm cases = Ok (concat (map tsv_line (("." :: map lab cases) :: map row (fmData fm))))).
    { unfold WriteCases. rewrite (foreach_map (get (fmLabels fm)) lab) by exact Elab. cbn [bind map concat].
      change (["."] ++ map lab cases) with ("." :: map lab cases).
      assert (G : forall fs out, (forall f, In f fs -> In f (fmData fm)) ->
        foreach fs (fun f out =>
          let* vals := foreach cases (fun c vals => let* v := fGetStr fmtF f c in Ok (vals ++ [v])) [fName f] in
          Ok (out ++ tsv_line vals)) out = Ok (out ++ concat (map tsv_line (map row fs)))).
      { induction fs as [|f fs IH]; intros out Hin; [cbn; rewrite app_nil_r; auto|].
        cbn [foreach map concat].
        assert (E : foreach cases (fun c vals => let* v := fGetStr fmtF f c in Ok (vals ++ [v])) [fName f] = Ok (row f)).
        { rewrite (foreach_map (fGetStr fmtF f) (cell_text f)); [reflexivity|]. intros c Hc.
          destruct (Hf f (Hin f (or_introl eq_refl))) as (_ & _ & Hv). destruct (Hv c Hc) as (v & Ev & _). eapply fGetStr_ok; eauto. }
        rewrite E. cbn [bind]. rewrite IH by (intros; apply Hin; right; auto). rewrite <- app_assoc. reflexivity. }
      apply G. auto. }
    exists (concat (map tsv_line (("." :: map lab cases) :: map row (fmData fm)))).
    assert (Pcell : forall f c, In f (fmData fm) -> In c cases -> plain (cell_text f c)).
    { intros f c Hin Hc. destruct (Hf f Hin) as (_ & _ & Hv). destruct (Hv c Hc) as (v & Ev & Ok). unfold cell_text. rewrite Ev.
      destruct v; cbn in Ok; [apply plain_NA|tauto|tauto]. }
    assert (EP : ParseAFM PF itoa (concat (map tsv_line (("." :: map lab cases) :: map row (fmData fm)))) =
      Ok (mkFM (map (fun r => filled PF (hd "" r) (tl r)) (map row (fmData fm)))
               (rev (combine (map (hd "") (map row (fmData fm))) (seq 0 (length (map row (fmData fm)))))) (map lab cases))).
    { apply ParseAFM_rows.
      - destruct cases; [congruence|discriminate].
      - constructor; [apply Forall_forall; intros c [<-|[]]; repeat split; discriminate|].
        apply Forall_forall. intros l Hl. apply in_map_iff in Hl as (c & <- & Hc).
        destruct (Hlab c Hc) as (l & E & P). unfold lab. erewrite nth_error_nth; eauto.
      - destruct cases as [|c cases]; [congruence|]. cbn [map hd] in *. apply Hl0.
        destruct (Hlab c (or_introl eq_refl)) as (l & E & P). unfold lab. erewrite nth_error_nth; eauto.
      - apply Forall_forall. intros r Hr. apply in_map_iff in Hr as (f & <- & Hin). destruct (Hf f Hin) as (Pn & [Tn _] & _).
        split; [cbn; rewrite !map_length; reflexivity|]. split; [|exact Tn]. constructor; auto.
        apply Forall_forall. intros s Hs. apply in_map_iff in Hs as (c & <- & Hc). auto. }
    eexists. split; [exact EW|]. split; [exact EP|]. cbn [fmLabels fmData]. split; [|split].
    - clear - Hlab. induction cases as [|c cases IH]; cbn; constructor.
      + destruct (Hlab c (or_introl eq_refl)) as (l & E & P). unfold lab. erewrite nth_error_nth; eauto.
      + apply IH. intros; apply Hlab; right; auto.
    - rewrite map_map.
      assert (G : forall fs, (forall f, In f fs -> In f (fmData fm)) -> Forall2 (fun f f' =>
        fName f' = fName f /\ is_numerical f' = is_numerical f /\ fLength f' = length cases /\
        (forall j c, nth_error cases j = Some c -> value_at f' j = value_at f c) /\
        (fMissingVals f' = true <-> exists c, In c cases /\ value_at f c = Some VMissing)) fs
        (map (fun x => filled PF (hd "" (row x)) (tl (row x))) fs)).
      { induction fs as [|f fs IH]; intros Hin; cbn [map]; constructor; [|apply IH; intros; apply Hin; right; auto].
        destruct (Hf f (Hin f (or_introl eq_refl))) as (Pn & [Tn Tk] & Hv). unfold row. cbn [hd tl].
        assert (Kind : (substring 0 2 (fName f) =? "N:")%string = is_numerical f).
        { destruct (String.eqb_spec (substring 0 2 (fName f)) "N:") as [E|E].
          - symmetry. apply Tk, prefix2_starts; auto.
          - destruct (is_numerical f) eqn:K; auto. exfalso. apply E, prefix2_starts; auto. apply Tk; auto. }
        assert (Val : forall j c, nth_error cases j = Some c -> value_at (filled PF (fName f) (map (cell_text f) cases)) j = value_at f c).
        { intros j c Hj. assert (Hc : In c cases) by (eapply nth_error_In; eauto).
          rewrite (filled_value PF _ _ j (cell_text f c)) by (rewrite nth_error_map, Hj; reflexivity).
          destruct (Hv c Hc) as (v & Ev & Ok). rewrite Ev. f_equal. unfold cell_value. rewrite Kind.
          assert (Kv : match v with VNum _ => is_numerical f = true | VCat _ => is_numerical f = false | VMissing => True end).
          { revert Ev. unfold value_at. destruct f as [g|g].
            - destruct (nth_error (nMissing g) c) as [[]|]; try discriminate; destruct (nth_error (nData g) c); try discriminate;
                intros E; inversion E; reflexivity.
            - destruct (nth_error (cMissing g) c) as [[]|]; try discriminate; destruct (nth_error (cData g) c) as [k|]; try discriminate; intros E.
              + inversion E; reflexivity.
              + destruct (nth_error (cmBack (cMap g)) k); inversion E; reflexivity. }
          unfold cell_text. rewrite Ev. destruct v as [|x|s]; cbn in Ok.
          - destruct (is_numerical f); [rewrite HNA|]; reflexivity.
          - rewrite Kv. destruct Ok as [-> _]. reflexivity.
          - rewrite Kv. destruct Ok as [_ Ok]. destruct (missing_token s) eqn:Em; auto. exfalso. apply Ok, missing_token_spec. auto. }
        split; [apply filled_name|]. split; [rewrite filled_kind; exact Kind|]. split; [rewrite filled_length, map_length; reflexivity|].
        split; [exact Val|]. rewrite filled_flag. split.
        - intros (i & Hi). destruct (nth_error cases i) as [c|] eqn:Ec.
          + exists c. split; [eapply nth_error_In; eauto|]. rewrite <- Hi. symmetry. auto.
          + exfalso. apply nth_error_None in Ec. pose proof (filled_length PF (fName f) (map (cell_text f) cases)) as HL. rewrite map_length in HL.
            destruct (filled PF (fName f) (map (cell_text f) cases)) as [g|g]; cbn in HL, Hi; unfold nLength, cLength in HL.
            * rewrite (proj2 (nth_error_None (nMissing g) i)) in Hi by lia. discriminate.
            * rewrite (proj2 (nth_error_None (cMissing g) i)) in Hi by lia. discriminate.
        - intros (c & Hc & E). apply In_nth_error in Hc as [j Hj]. exists j. rewrite (Val _ _ Hj). exact E. }
      apply G. auto.
    - replace (rev (combine (map (hd "") (map row (fmData fm))) (seq 0 (length (map row (fmData fm))))))
        with (table_of (map (fun r => filled PF (hd "" r) (tl r)) (map row (fmData fm)))).
      + apply table_names_ok.
      + unfold table_of. rewrite !map_map. rewrite !map_length. f_equal. f_equal. apply map_ext. intros f. apply filled_name.
  Qed.
End RoundTrip.
Print Assumptions C55_matrix_files_round_trip.

(** *** Reading, writing and reading again *)
(** Two texts that mean the same to a feature of this name. *)
Lemma filled_ext PF name : forall vs vs', Forall2 (fun v v' => cell_value PF name v' = cell_value PF name v) vs vs' ->
  filled PF name vs' = filled PF name vs.
Proof.
  intros vs vs' H. unfold filled, newF, cell_value in *. destruct (substring 0 2 name =? "N:")%string.
  - unfold newNum. rewrite !fold_num, !fold_nAppend. f_equal.
    assert (E : map (num_val PF) vs' = map (num_val PF) vs /\ map (num_bad PF) vs' = map (num_bad PF) vs /\ existsb (num_bad PF) vs' = existsb (num_bad PF) vs).
    { induction H as [|v v' vs vs' E H (I1 & I2 & I3)]; auto. cbn. rewrite I1, I2, I3. unfold num_val, num_bad.
      destruct (PF v), (PF v'); inversion E; auto. }
    destruct E as (-> & -> & ->). reflexivity.
  - unfold newCat. rewrite !fold_cat. f_equal. generalize (mkCat emptyCM [] [] name false false).
    induction H as [|v v' vs vs' E H IH]; intros f; auto. cbn. rewrite IH. f_equal. unfold cAppend.
    destruct (missing_token v), (missing_token v'); inversion E; auto.
Qed.
Definition table_texts_ok (t : table) : Prop :=
  plain (tCorner t) /\ Forall plain (tLabels t) /\ Forall (fun r => plain (fst r) /\ 2 <= String.length (fst r) /\ Forall plain (snd r)) (tRows t).
Lemma file_of_tsv rs : file_of rs = concat (map tsv_line rs).
Proof. reflexivity. Qed.
Lemma row_file_parsed PF itoa t : rectangular t -> table_texts_ok t -> tLabels t <> [] -> ~ looks_typed (hd "" (tLabels t)) ->
  ParseAFM PF itoa (file_of (row_file t)) =
  Ok (mkFM (map (fun r => filled PF (fst r) (snd r)) (tRows t)) (table_of (map (fun r => filled PF (fst r) (snd r)) (tRows t))) (tLabels t)).
Proof.
  intros Hr (Pc & Pl & Pr) Hn Ht. rewrite file_of_tsv. unfold row_file. rewrite ParseAFM_rows; auto.
  - rewrite !map_map. cbn [hd tl]. unfold table_of. rewrite !map_map, !map_length.
    rewrite (map_ext (fun x : string * list string => fName (filled PF (fst x) (snd x))) (fun x => fst x)) by (intros r; apply filled_name).
    reflexivity.
  - apply Forall_forall. intros x Hx. apply in_map_iff in Hx as (r & <- & Hin). unfold rectangular in Hr. rewrite Forall_forall in Hr, Pr.
    destruct (Pr _ Hin) as (A & C & D). cbn [length hd]. rewrite (Hr _ Hin). auto.
Qed.

Theorem C55_read_write_read : forall PF itoa fmtF t fm,
  rectangular t -> table_texts_ok t -> tLabels t <> [] -> ~ looks_typed (hd "" (tLabels t)) ->
  PF "NA" = None -> (forall s x, PF s = Some x -> PF (fmtF x) = Some x /\ plain (fmtF x)) ->
  ParseAFM PF itoa (file_of (row_file t)) = Ok fm ->
  exists out, WriteCases fmtF fm (seq 0 (length (tLabels t))) = Ok out /\ ParseAFM PF itoa out = Ok fm.
Proof.
  intros PF itoa fmtF t fm Hrect Ht Hn Hl HNA HPF Hparse.
  rewrite row_file_parsed in Hparse by auto. inversion Hparse as [Hfm]. clear Hparse.
  set (n := length (tLabels t)).
  set (rows := map (fun r => (fst r, map (cell_text fmtF (filled PF (fst r) (snd r))) (seq 0 n))) (tRows t)).
  set (t' := mkTable "." (tLabels t) rows).
  assert (Hval : forall r j, In r (tRows t) -> j < n ->
    value_at (filled PF (fst r) (snd r)) j = Some (cell_value PF (fst r) (nth j (snd r) ""))).
  { intros r j Hr Hj. apply filled_value. apply nth_error_nth'. unfold rectangular in Hrect. rewrite Forall_forall in Hrect.
    specialize (Hrect _ Hr). cbn beta in Hrect. fold n in Hrect. lia. }
  assert (Hplain : forall r j, In r (tRows t) -> j < n -> plain (cell_text fmtF (filled PF (fst r) (snd r)) j)).
  { intros r j Hr Hj. unfold cell_text. rewrite (Hval r j Hr Hj). unfold cell_value.
    destruct (substring 0 2 (fst r) =? "N:")%string.
    - destruct (PF (nth j (snd r) "")) eqn:E; [|apply plain_NA]. apply (HPF _ _ E).
    - destruct (missing_token _); [apply plain_NA|]. destruct Ht as (_ & _ & Hr'). rewrite Forall_forall in Hr'.
      destruct (Hr' _ Hr) as (_ & _ & Hp). rewrite Forall_forall in Hp. apply Hp, nth_In. 
      unfold rectangular in Hrect. rewrite Forall_forall in Hrect. specialize (Hrect _ Hr). cbn beta in Hrect. fold n in Hrect. lia. }
  exists (file_of (row_file t')). split.
  - unfold WriteCases. cbn [fmLabels fmData].
    rewrite (foreach_map (get (tLabels t)) (fun c => nth c (tLabels t) "")).
    2:{ intros c Hc. apply in_seq in Hc. apply get_nth, nth_error_nth'. lia. }
    cbn [bind].
    assert (Emap : map (fun c => nth c (tLabels t) "") (seq 0 n) = tLabels t).
    { unfold n. clear. induction (tLabels t) as [|l ls IH]; auto. cbn [length seq map nth]. f_equal. rewrite <- seq_shift, map_map. exact IH. }
    rewrite Emap.
    assert (G : forall rs out, (forall r, In r rs -> In r (tRows t)) ->
      foreach (map (fun r => filled PF (fst r) (snd r)) rs) (fun f out =>
        let* vals := foreach (seq 0 n) (fun c vals => let* v := fGetStr fmtF f c in Ok (vals ++ [v])) [fName f] in
        Ok (out ++ tsv_line vals)) out =
      Ok (out ++ concat (map tsv_line (map (fun r => fst r :: map (cell_text fmtF (filled PF (fst r) (snd r))) (seq 0 n)) rs)))).
    { induction rs as [|r rs IH]; intros out Hin; [cbn; rewrite app_nil_r; auto|]. cbn [map foreach concat].
      rewrite (foreach_map (fGetStr fmtF (filled PF (fst r) (snd r))) (cell_text fmtF (filled PF (fst r) (snd r)))).
      2:{ intros c Hc. apply in_seq in Hc. eapply fGetStr_ok. apply Hval; [apply Hin; left; auto|lia]. }
      cbn [bind]. rewrite filled_name. rewrite IH by (intros; apply Hin; right; auto). rewrite <- app_assoc. reflexivity. }
    rewrite G by auto. unfold t', row_file, rows. cbn [tCorner tLabels tRows]. rewrite file_of_tsv. cbn [map concat]. rewrite !map_map. reflexivity.
  - rewrite row_file_parsed.
    + unfold t', rows. cbn [tRows tLabels]. rewrite map_map. cbn [fst snd].
      assert (E : map (fun r => filled PF (fst r) (map (cell_text fmtF (filled PF (fst r) (snd r))) (seq 0 n))) (tRows t) =
                  map (fun r => filled PF (fst r) (snd r)) (tRows t)).
      { apply map_ext_in. intros r Hr. apply filled_ext.
        assert (Hlen : length (snd r) = n). { unfold rectangular in Hrect. rewrite Forall_forall in Hrect. apply Hrect. auto. }
        assert (G : forall k vs, k + length vs = n -> (forall j, j < length vs -> nth j vs "" = nth (k + j) (snd r) "") ->
          Forall2 (fun v v' => cell_value PF (fst r) v' = cell_value PF (fst r) v) vs (map (cell_text fmtF (filled PF (fst r) (snd r))) (seq k (length vs)))).
        { intros k vs. revert k. induction vs as [|v vs IH]; intros k Hk Hnth; cbn [length seq map]; constructor.
          - pose proof (Hnth 0 ltac:(cbn; lia)) as Hv. cbn in Hv. rewrite Nat.add_0_r in Hv.
            unfold cell_text. rewrite (Hval r k Hr) by (cbn in Hk; lia). rewrite <- Hv. unfold cell_value.
            destruct (substring 0 2 (fst r) =? "N:")%string.
            + destruct (PF v) eqn:E; [destruct (HPF _ _ E) as [-> _]; reflexivity|rewrite HNA; reflexivity].
            + destruct (missing_token v) eqn:E; [reflexivity|rewrite E; reflexivity].
          - apply IH; [cbn in Hk; lia|]. intros j Hj. specialize (Hnth (S j) ltac:(cbn; lia)). cbn in Hnth. rewrite Hnth. f_equal. lia. }
        rewrite <- Hlen. apply (G 0); auto. }
      rewrite E. reflexivity.
    + unfold rectangular, t', rows. cbn. apply Forall_forall. intros x Hx. apply in_map_iff in Hx as (r & <- & _). cbn. rewrite map_length, seq_length. reflexivity.
    + destruct Ht as (Pc & Pl & Pr). split; [|split]; [|exact Pl|].
      * apply Forall_forall; intros c [<-|[]]; repeat split; discriminate.
      * apply Forall_forall. intros x Hx. apply in_map_iff in Hx as (r & <- & Hr). cbn. rewrite Forall_forall in Pr. destruct (Pr _ Hr) as (A & C & D).
        split; auto. split; auto. apply Forall_forall. intros s Hs. apply in_map_iff in Hs as (j & <- & Hj). apply in_seq in Hj. apply Hplain; auto; lia.
    + exact Hn.
    + exact Hl.
Qed.
Print Assumptions C55_read_write_read.

(** ** C56 *)
Lemma cell_value_means PF name v : 2 <= String.length name -> means PF name v (cell_value PF name v).
Proof.
  intros H. unfold cell_value. destruct (String.eqb_spec (substring 0 2 name) "N:") as [E|E].
  - apply prefix2_starts in E; auto. destruct (PF v) eqn:Ep; [apply means_number|apply means_no_number]; auto.
  - assert (E' : ~ starts "N:" name) by (intros X; apply E, prefix2_starts; auto).
    destruct (missing_token v) eqn:Em.
    + apply means_no_category; auto. apply missing_token_spec; auto.
    + apply means_category; auto. intros X. apply missing_token_spec in X. congruence.
Qed.
Theorem C56_orientation_agrees : forall PF itoa t,
  rectangular t -> table_texts_ok t -> tLabels t <> [] -> ~ looks_typed (hd "" (tLabels t)) ->
  tRows t <> [] -> looks_typed (hd "" (map fst (tRows t))) ->
  exists fm, ParseAFM PF itoa (file_of (row_file t)) = Ok fm /\ ParseAFM PF itoa (file_of (col_file t)) = Ok fm /\
    fmLabels fm = tLabels t /\
    Forall2 (fun r f => fName f = fst r /\ fLength f = length (tLabels t) /\
      forall j, j < length (tLabels t) -> exists v, value_at f j = Some v /\ means PF (fst r) (nth j (snd r) "") v) (tRows t) (fmData fm).
Proof.
  intros PF itoa t Hrect Ht Hn Hl Hne Htyped.
  exists (mkFM (map (fun r => filled PF (fst r) (snd r)) (tRows t)) (table_of (map (fun r => filled PF (fst r) (snd r)) (tRows t))) (tLabels t)).
  split; [apply row_file_parsed; auto|]. split; [|split; [reflexivity|]].
  - destruct Ht as (Pc & Pl & Pr). rewrite file_of_tsv. unfold col_file. rewrite ParseAFM_cols; auto.
    + set (n := length (tLabels t)).
      assert (Elab : map (hd "") (map (fun '((j, l) : nat * string) => l :: map (fun r => nth j (snd r) "") (tRows t)) (combine (seq 0 n) (tLabels t))) = tLabels t).
      { rewrite map_map. unfold n. clear. generalize 0. induction (tLabels t) as [|l ls IH]; intros k; auto. cbn. f_equal. apply IH. }
      rewrite Elab. f_equal. f_equal.
      2:{ unfold table_of. rewrite map_map, !map_length.
          rewrite (map_ext (fun x : string * list string => fName (filled PF (fst x) (snd x))) (fun x => fst x)) by (intros r; apply filled_name).
          reflexivity. }
      set (rows := map (fun '((j, l) : nat * string) => l :: map (fun r => nth j (snd r) "") (tRows t)) (combine (seq 0 n) (tLabels t))).
      assert (Hrows : Forall (fun r => length (tl r) = length (map newF (map fst (tRows t)))) rows).
      { apply Forall_forall. intros x Hx. apply in_map_iff in Hx as ((j & l) & <- & _). cbn. rewrite !map_length. reflexivity. }
      apply nth_error_ext'. intros k.
      destruct (nth_error (tRows t) k) as [r|] eqn:Er.
      2:{ rewrite nth_error_map, Er. apply nth_error_None in Er. apply nth_error_None. rewrite columns_length by auto. rewrite !map_length. lia. }
      rewrite (columns_filled PF rows _ Hrows k (newF (fst r))) by (rewrite !nth_error_map, Er; reflexivity).
      rewrite nth_error_map, Er. cbn [option_map]. f_equal. unfold filled. f_equal.
      assert (Hlen : length (snd r) = n). { unfold rectangular in Hrect. rewrite Forall_forall in Hrect. apply Hrect. eapply nth_error_In; eauto. }
      unfold rows. rewrite map_map.
      rewrite (map_ext _ (fun p : nat * string => nth (fst p) (snd r) "")).
      2:{ intros (j & l). cbn. rewrite (nth_indep _ "" (nth j (snd r) "")) by (rewrite map_length; eapply nth_error_some_lt; eauto).
          rewrite (map_nth (fun r => nth j (snd r) "") (tRows t) r k). rewrite (nth_error_nth _ _ _ Er). reflexivity. }
      assert (Ec : forall k (ls : list string) vs, length vs = length ls -> (forall j, j < length vs -> nth j vs "" = nth (k + j) (snd r) "") ->
        map (fun p : nat * string => nth (fst p) (snd r) "") (combine (seq k (length ls)) ls) = vs).
      { clear. intros k ls. revert k. induction ls as [|l ls IH]; intros k [|v vs] E H; try discriminate; auto. cbn [length seq combine map fst].
        f_equal.
        - specialize (H 0 ltac:(cbn; lia)). cbn in H. rewrite Nat.add_0_r in H. auto.
        - apply IH; [cbn in E; lia|]. intros j Hj. specialize (H (S j) ltac:(cbn; lia)). cbn in H. rewrite H. f_equal. lia. }
      apply (Ec 0); auto.
    + constructor; auto. apply Forall_forall. intros s Hs. apply in_map_iff in Hs as (r & <- & Hr). rewrite Forall_forall in Pr. apply (Pr r Hr).
    + apply Forall_forall. intros s Hs. apply in_map_iff in Hs as (r & <- & Hr). rewrite Forall_forall in Pr. apply (Pr r Hr).
    + destruct (tRows t); [congruence|discriminate].
    + apply Forall_forall. intros x Hx. apply in_map_iff in Hx as ((j & l) & <- & Hin). split; [cbn; rewrite !map_length; reflexivity|].
      pose proof (in_combine_l _ _ _ _ Hin) as Hj. apply in_combine_r in Hin. apply in_seq in Hj.
      constructor; [rewrite Forall_forall in Pl; auto|]. apply Forall_forall. intros s Hs. apply in_map_iff in Hs as (r & <- & Hr).
      rewrite Forall_forall in Pr. destruct (Pr r Hr) as (_ & _ & D). rewrite Forall_forall in D. apply D, nth_In.
      unfold rectangular in Hrect. rewrite Forall_forall in Hrect. rewrite (Hrect r Hr). lia.
  - cbn [fmData]. unfold rectangular in Hrect. destruct Ht as (_ & _ & Pr). revert Pr. clear - Hrect. induction Hrect as [|r rs Hr H IH]; intros Pr; cbn [map]; constructor.
    + split; [apply filled_name|]. split; [rewrite filled_length; auto|]. intros j Hj. eexists. split; [apply filled_value, nth_error_nth'; lia|].
      apply cell_value_means. apply Forall_inv in Pr. tauto.
    + apply IH. eapply Forall_inv_tail; eauto.
Qed.
Print Assumptions C56_orientation_agrees.

(** ** C59, parsing *)
Lemma fAppend_name PF f v : fName (fAppend PF f v) = fName f.
Proof.
  destruct f as [f|f]; cbn.
  - unfold nAppend. destruct (PF v); reflexivity.
  - unfold cAppend. destruct (missing_token v); [reflexivity|]. destruct (CatToNum (cMap f) v). reflexivity.
Qed.
Lemma fold_name PF vs : forall f, fName (fold_left (fAppend PF) vs f) = fName f.
Proof. induction vs as [|v vs IH]; intros f; cbn; auto. rewrite IH. apply fAppend_name. Qed.
Lemma map_upd {A C} (g : A -> C) : forall (l : list A) i x, map g (upd l i x) = upd (map g l) i (g x).
Proof. induction l as [|a l IH]; intros [|i] x; cbn; auto. f_equal. auto. Qed.
Lemma append_case_names PF record data data' : append_case PF record data = Ok data' -> map fName data' = map fName data.
Proof.
  unfold append_case. generalize (combine (seq 0 (length record)) record). intros l. revert data.
  induction l as [|(i, v) l IH]; intros data H; cbn in H; [congruence|].
  apply bind_ok in H as (d1 & H1 & H). apply bind_ok in H1 as (f & Hg & Hs). rewrite (IH _ H).
  apply set_inv in Hs as [_ ->]. apply get_inv in Hg. rewrite map_upd, fAppend_name. apply upd_same. rewrite nth_error_map, Hg. reflexivity.
Qed.
Lemma LoadCases_names PF itoa rl : forall ls n count data labels data' labels',
  LoadCases PF itoa n rl count ls data labels = Ok (data', labels') -> map fName data' = map fName data.
Proof.
  induction ls as [|l ls IH]; intros n count data labels data' labels' H; cbn in H; [congruence|].
  destruct (match csv_record l with None => CErr | Some fs => if (n =? 0) || (length fs =? n) then CRec fs ls else CErr end); try congruence.
  apply bind_ok in H as ((lab & rec) & H1 & H). apply bind_ok in H as (d & H2 & H). rewrite (IH _ _ _ _ _ _ H).
  eapply append_case_names; eauto.
Qed.
Lemma parse_rows_table PF : forall ls n data lookup data' lookup',
  lookup = table_of data -> parse_rows PF n ls data lookup = Ok (data', lookup') -> lookup' = table_of data'.
Proof.
  induction ls as [|l ls IH]; intros n data lookup data' lookup' E H; cbn in H; [congruence|].
  destruct (match csv_record l with None => CErr | Some fs => if (n =? 0) || (length fs =? n) then CRec fs ls else CErr end); try congruence.
  apply bind_ok in H as (f & H1 & H). apply bind_ok in H as (name & H2 & H). apply (IH _ _ _ _ _) in H; auto.
  rewrite table_snoc. subst lookup. f_equal. f_equal. unfold ParseFeature in H1. rewrite H2 in H1. cbn [bind] in H1.
  apply bind_ok in H1 as (p & _ & H1). inversion H1. rewrite fold_name. destruct (p =? "N:")%string; reflexivity.
Qed.
Lemma table_of_names data data' : map fName data = map fName data' -> table_of data = table_of data'.
Proof. intros E. unfold table_of. rewrite E. f_equal. f_equal. rewrite <- (map_length fName data), E, map_length. reflexivity. Qed.

(** Whatever the input: when the parser returns, its name table is right. *)
Theorem C59_parsed_names : forall PF itoa input fm, ParseAFM PF itoa input = Ok fm -> names_ok fm.
Proof.
  intros PF itoa input fm H. unfold ParseAFM in H. destruct (csv_read 0 (csv_lines input)) as [| |fs ls]; try discriminate.
  apply bind_ok in H as (h0 & _ & H). apply bind_ok in H as (typed & _ & H). destruct typed.
  - apply bind_ok in H as ((data & lookup) & H1 & H). apply bind_ok in H as ((data' & labels) & H2 & H). inversion H; subst.
    assert (E : lookup = table_of data).
    { revert H1. generalize (tl (map T fs)). intros hs.
      assert (G : forall hs data0 lookup0 data lookup, lookup0 = table_of data0 ->
        foreach (combine (seq (length data0) (length hs)) hs)
            (fun '((i, label) : nat * string) '((data, lookup) : list feature * list (string * nat)) =>
              let* p := prefix2 label in
              Ok (data ++ [if (p =? "N:")%string then newNum label else newCat label], (label, i) :: lookup)) (data0, lookup0) = Ok (data, lookup) ->
        lookup = table_of data).
      { clear. induction hs as [|h hs IH]; intros data0 lookup0 data lookup E H; cbn [length seq combine foreach] in H; [inversion H; subst; auto|].
        apply bind_ok in H as ((d1 & l1) & H1 & H). apply bind_ok in H1 as (p & _ & H1). inversion H1; subst d1 l1. clear H1.
        set (f := if (p =? "N:")%string then newNum h else newCat h) in *.
        apply (IH (data0 ++ [f]) ((h, length data0) :: lookup0)).
        - rewrite table_snoc. subst lookup0. f_equal. f_equal. unfold f. destruct (p =? "N:")%string; reflexivity.
        - rewrite app_length. cbn [length]. rewrite Nat.add_1_r. exact H. }
      apply (G hs [] []). reflexivity. }
    subst lookup. rewrite (table_of_names data data'); [apply table_names_ok|]. symmetry. eapply LoadCases_names; eauto.
  - apply bind_ok in H as ((data & lookup) & H1 & H). inversion H; subst. apply parse_rows_table in H1; auto. subst lookup. apply table_names_ok.
Qed.
Print Assumptions C59_parsed_names.

(** ** Examples and where the claims end *)
Definition PF1 (s : string) : option f64 :=
  if (s =? "0")%string then Some f0 else if (s =? "1")%string then Some f1 else None.
Definition fmt1 (x : f64) : string := if feqb x f1 then "1" else "0".
Definition ex_fm : fmatrix :=
  mkFM [FNum (mkNum [f1; f0; f0] [false; true; false] "N:age" true);
        FCat (mkCat (mkCM [("b", 1); ("a", 0)] ["a"; "b"]) [1; 0; 0] [false; false; true] "C:kind" false true)]
       [("C:kind", 1); ("N:age", 0)] ["p"; "q"; "r"].
Ltac plainly := apply Forall_forall; intros ? Hc; repeat (destruct Hc as [<-|Hc]; [repeat split; discriminate|]); destruct Hc.
Example C55_applies :
  (forall l, nth_error (fmLabels ex_fm) 2 = Some l -> ~ looks_typed l) /\ PF1 "NA" = None /\
  (forall c, In c [2; 0; 2] -> exists l, nth_error (fmLabels ex_fm) c = Some l /\ plain l) /\
  (forall f, In f (fmData ex_fm) -> plain (fName f) /\ typed_name f /\
       forall c, In c [2; 0; 2] -> exists v, value_at f c = Some v /\ cell_ok is_token PF1 fmt1 v).
Proof.
  split; [|split; [reflexivity|split]].
  - intros l E. inversion E. intros [[s H]|[[s H]|[s H]]]; discriminate.
  - intros c [<-|[<-|[<-|[]]]]; eexists; split; try reflexivity; plainly.
  - intros f [<-|[<-|[]]].
    + split; [plainly|]. split.
      * split; [cbn; lia|]. split; auto. intros _. exists "age". reflexivity.
      * intros c [<-|[<-|[<-|[]]]]; eexists; (split; [reflexivity|]); cbn; (split; [reflexivity|plainly]).
    + split; [plainly|]. split.
      * split; [cbn; lia|]. split; [discriminate|]. intros [s E]. discriminate.
      * intros c [<-|[<-|[<-|[]]]]; eexists; (split; [reflexivity|]); cbn; auto; (split; [plainly|]);
          intros (w & Hw & Hs); destruct Hw as [<-|[<-|[<-|[<-|[<-|[]]]]]]; cbn in Hs; try tauto;
          unfold same_letter in Hs; cbn in Hs; lia.
Qed.
Example C55_example :
  (let* out := WriteCases fmt1 ex_fm [2; 0; 2] in ParseAFM PF1 (fun _ => "") out) =
  Ok (mkFM [FNum (mkNum [f0; f1; f0] [false; false; false] "N:age" false);
            FCat (mkCat (mkCM [("b", 0)] ["b"]) [0; 0; 0] [true; false; true] "C:kind" false true)]
           [("C:kind", 1); ("N:age", 0)] ["r"; "p"; "r"]).
Proof. vm_compute. reflexivity. Qed.
Definition ex_table : table := mkTable "." ["p"; "q"] [("N:age", ["1"; "NA"]); ("C:kind", ["b"; "?"]); ("N:k", ["0"; "0"])].
Example C56_example :
  rectangular ex_table /\ table_texts_ok ex_table /\ tLabels ex_table <> [] /\ ~ looks_typed (hd "" (tLabels ex_table)) /\
  tRows ex_table <> [] /\ looks_typed (hd "" (map fst (tRows ex_table))) /\
  file_of (row_file ex_table) <> file_of (col_file ex_table) /\
  ParseAFM PF1 (fun _ => "") (file_of (col_file ex_table)) =
  Ok (mkFM [FNum (mkNum [f1; f0] [false; true] "N:age" true);
            FCat (mkCat (mkCM [("b", 0)] ["b"]) [0; 0] [false; true] "C:kind" false true);
            FNum (mkNum [f0; f0] [false; false] "N:k" false)]
           [("N:k", 2); ("C:kind", 1); ("N:age", 0)] ["p"; "q"]).
Proof.
  split; [repeat (apply Forall_cons; [reflexivity|]); apply Forall_nil|].
  split. { split; [plainly|]. split.
    - repeat (apply Forall_cons; [plainly|]); apply Forall_nil.
    - repeat (apply Forall_cons; [split; [plainly|split; [cbn; lia|repeat (apply Forall_cons; [plainly|]); apply Forall_nil]]|]); apply Forall_nil. }
  split; [discriminate|]. split; [intros [[s H]|[[s H]|[s H]]]; discriminate|]. split; [discriminate|].
  split; [left; exists "age"; reflexivity|]. split; [vm_compute; discriminate|]. vm_compute. reflexivity.
Qed.

(** A matrix made numerical by EncodeToNum keeps the names of the categorical features,
    so its file is read back as categorical. *)
Theorem C55_encoded_matrix_refuted :
  exists fm out fm', fmEncodeToNum ex_fm = Ok fm /\ WriteCases fmt1 fm [0; 1; 2] = Ok out /\ ParseAFM PF1 (fun _ => "") out = Ok fm' /\
    option_map (fun f => value_at f 1) (nth_error (fmData fm) 1) = Some (Some (VNum f0)) /\
    option_map (fun f => value_at f 1) (nth_error (fmData fm') 1) = Some (Some (VCat "0")).
Proof. eexists. eexists. eexists. split; [vm_compute; reflexivity|]. split; [vm_compute; reflexivity|]. split; [vm_compute; reflexivity|]. split; reflexivity. Qed.
Print Assumptions C55_encoded_matrix_refuted.

(** ** C83: lines that cannot be read *)
Lemma csv_lines_line l rest : no nl l -> no cr l -> l <> [] -> csv_lines (l ++ nl :: rest) = l :: csv_lines rest.
Proof.
  intros Hn Hc Hl. unfold csv_lines. rewrite split_cons by exact Hn. cbn [map filter]. rewrite drop_cr_no by auto.
  destruct l; [congruence|]. reflexivity.
Qed.
Lemma csv_lines_records rs rest : Forall rec_ok rs -> csv_lines (concat (map tsv_line rs) ++ rest) = map rec_line rs ++ csv_lines rest.
Proof.
  induction 1 as [|r rs Hr H IH]; [reflexivity|]. cbn [map concat]. unfold tsv_line at 1. fold (rec_line r). rewrite <- !app_assoc.
  change ([nl] ++ concat (map tsv_line rs) ++ rest) with (nl :: (concat (map tsv_line rs) ++ rest)).
  rewrite csv_lines_line; [rewrite IH; reflexivity|apply rec_line_no; auto|apply rec_line_no; auto|].
  pose proof (rec_line_long r Hr) as E. intros X. rewrite X in E. discriminate.
Qed.
Lemma parse_rows_app PF n tail : forall rows data lookup,
  Forall (fun r => rec_ok r /\ length r = n /\ 2 <= String.length (hd "" r)) rows ->
  parse_rows PF n (map rec_line rows ++ tail) data lookup =
  parse_rows PF n tail (data ++ map (fun r => filled PF (hd "" r) (tl r)) rows)
             (rev (combine (map (hd "") rows) (seq (length data) (length rows))) ++ lookup).
Proof.
  induction rows as [|r rows IH]; intros data lookup H.
  - cbn. rewrite app_nil_r. reflexivity.
  - apply Forall_cons_iff in H as [(Hr & Hl & Hn) H].
    assert (E : csv_read n (rec_line r :: map rec_line rows ++ tail) = CRec (map B r) (map rec_line rows ++ tail)).
    { unfold csv_read. rewrite record_of_line by auto. rewrite map_length, Hl, Nat.eqb_refl, orb_true_r. reflexivity. }
    cbn [map app]. cbn [parse_rows]. rewrite E, map_TB.
    destruct r as [|name vs]; [destruct Hr as [Hr _]; cbn in Hr; lia|]. cbn [hd] in Hn.
    rewrite ParseFeature_ok by auto. cbn [bind get nth_error]. rewrite IH by auto.
    cbn [hd tl map combine length seq rev]. rewrite app_length. cbn [length]. rewrite Nat.add_1_r.
    rewrite <- !app_assoc. reflexivity.
Qed.
(** A text without tab, newline and carriage return; quotes allowed. *)
Definition unbroken (s : string) : Prop := Forall (fun c => c <> tab /\ c <> nl /\ c <> ascii_of_nat 13) (B s).
Lemma bare_record r : r <> [] -> Forall unbroken r -> bare_quote r -> csv_record (rec_line r) = None.
Proof.
  intros Hne H (c & s & Hin & _ & Hq). unfold csv_record, rec_line. rewrite split_join.
  - assert (E : existsb (fun f => negb (count_byte quote f =? 0)) (map B r) = true).
    { apply existsb_exists. exists (B (String c s)). split; [apply in_map; auto|]. apply negb_true_iff, Nat.eqb_neq.
      unfold count_byte. intros X. apply length_zero_iff_nil in X.
      assert (Y : In quote (filter (Ascii.eqb quote) (B (String c s)))) by (apply filter_In; split; [right; exact Hq|apply Ascii.eqb_refl]).
      rewrite X in Y. destruct Y. }
    cbv zeta. rewrite E. reflexivity.
  - destruct r; [congruence|discriminate].
  - apply Forall_forall. intros w Hw. apply in_map_iff in Hw as (x & <- & Hx). rewrite Forall_forall in H. specialize (H _ Hx).
    unfold unbroken in H. rewrite Forall_forall in H. intros X. apply H in X. tauto.
Qed.

(** Every matrix file with features in rows, cut at the first line that has a quote inside
    a field or another number of fields than the header: the lines from there on, good ones
    included, are dropped, and a matrix is returned as if the file ended there. *)
Theorem C83_lines_dropped_refuted : forall PF itoa t bad rest,
  rectangular t -> table_texts_ok t -> tLabels t <> [] -> ~ looks_typed (hd "" (tLabels t)) ->
  2 <= length bad -> Forall unbroken bad ->
  (length bad = S (length (tLabels t)) /\ bare_quote bad \/ length bad <> S (length (tLabels t)) /\ Forall plain bad) ->
  exists fm, ParseAFM PF itoa (file_of (row_file t)) = Ok fm /\
             ParseAFM PF itoa (file_of (row_file t) ++ file_of [bad] ++ rest) = Ok fm.
Proof.
  intros PF itoa t bad rest Hrect Ht Hn Hl Hb2 Hunb Hbad. eexists. split; [apply row_file_parsed; auto|].
  destruct Ht as (Pc & Pl & Pr).
  destruct (tLabels t) as [|l0 labels] eqn:El; [congruence|]. cbn [hd] in Hl.
  assert (H0 : rec_ok (tCorner t :: l0 :: labels)) by (split; [cbn; lia|auto]).
  set (rows := map (fun r => fst r :: snd r) (tRows t)).
  assert (Hrows : Forall (fun r => rec_ok r /\ length r = S (length (l0 :: labels)) /\ 2 <= String.length (hd "" r)) rows).
  { apply Forall_forall. intros x Hx. apply in_map_iff in Hx as (r & <- & Hr). unfold rectangular in Hrect. rewrite Forall_forall in Hrect, Pr.
    destruct (Pr _ Hr) as (A & C & D). pose proof (Hrect _ Hr) as HL. cbn beta in HL. rewrite El in HL. cbn [length] in *. split; [split; [cbn; lia|auto]|]. cbn [length]. split; auto. }
  assert (Ebad : exists c, csv_lines (file_of [bad] ++ rest) = c :: csv_lines rest /\ csv_read (S (length (l0 :: labels))) (c :: csv_lines rest) = CErr).
  { exists (rec_line bad). split.
    - unfold file_of. cbn [map concat]. rewrite app_nil_r, <- app_assoc. change ([nl] ++ rest) with (nl :: rest). rewrite Forall_forall in Hunb.
      apply csv_lines_line.
      + apply join_no; [intros [X|[]]; discriminate|]. apply Forall_forall. intros w Hw. apply in_map_iff in Hw as (x & <- & Hx).
        specialize (Hunb _ Hx). unfold unbroken in Hunb. rewrite Forall_forall in Hunb. intros X. apply Hunb in X. tauto.
      + apply join_no; [intros [X|[]]; discriminate|]. apply Forall_forall. intros w Hw. apply in_map_iff in Hw as (x & <- & Hx).
        specialize (Hunb _ Hx). unfold unbroken in Hunb. rewrite Forall_forall in Hunb. intros X. apply Hunb in X. tauto.
      + destruct bad as [|a [|b bad]]; cbn in Hb2; try lia. cbn. intros X. apply app_eq_nil in X as [_ X]. discriminate.
    - unfold csv_read. destruct Hbad as [[Hlen Hq]|[Hlen Hp]].
      + rewrite bare_record; auto. destruct bad; [cbn in Hb2; lia|discriminate].
      + rewrite record_of_line by (split; auto). rewrite map_length. cbn [Nat.eqb orb]. rewrite (proj2 (Nat.eqb_neq _ _)) by exact Hlen. reflexivity. }
  destruct Ebad as (c & Ec & Er).
  unfold ParseAFM. unfold file_of at 1. unfold row_file. rewrite El.
  change (fun r => join [tab] (map B r) ++ [nl]) with tsv_line.
  rewrite csv_lines_records.
  2:{ constructor; auto. eapply Forall_impl; [|exact Hrows]. cbn beta. tauto. }
  fold rows. rewrite Ec. cbn [map app]. unfold csv_read at 1. rewrite record_of_line by auto. cbn [Nat.eqb orb]. rewrite map_TB. cbn [tl get nth_error bind].
  rewrite sniff_false by auto. cbn [bind]. rewrite map_length. change (length (tCorner t :: l0 :: labels)) with (S (length (l0 :: labels))).
  rewrite (parse_rows_app PF (S (length (l0 :: labels))) (c :: csv_lines rest) rows [] []) by exact Hrows.
  cbn [parse_rows]. rewrite Er. cbn [bind]. rewrite app_nil_r. cbn [app length]. unfold rows. rewrite !map_map. cbn [hd tl].
  unfold table_of. rewrite !map_map, !map_length.
  rewrite (map_ext (fun x : string * list string => fName (filled PF (fst x) (snd x))) (fun x => fst x)) by (intros r; apply filled_name).
  reflexivity.
Qed.
Print Assumptions C83_lines_dropped_refuted.
Example C83_example :
  ParseAFM PF1 (fun _ => "") (file_of (row_file ex_table) ++ file_of [["C:size"; "5"""; "6"]; ["N:z"; "1"; "1"]]) =
  ParseAFM PF1 (fun _ => "") (file_of (row_file ex_table)).
Proof. vm_compute. reflexivity. Qed.
