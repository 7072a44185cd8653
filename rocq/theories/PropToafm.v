(** C106: utils/toafm. *)
From Verif Require Import Go GoLemmas F64 ModelFeature FeatureSpec ModelSample FeatureProofs ModelText TextProofs ModelMatrix MatrixSpec MatrixProofs PropMatrix PropEncode PropLibSVM ModelTargets2 ModelExport PropARFF PropLibSVM2.
Local Open Scope string_scope.
Local Open Scope nat_scope.
Local Open Scope list_scope.

(** *** Specification *)
(** A feature that the list strikes out: named on it and not a target *)
Definition struck (targets ids : list string) (f : feature) : bool :=
  existsb (String.eqb (fName f)) ids && negb (existsb (String.eqb (fName f)) targets).
(** The features that remain, in order *)
Definition remaining (targets ids : list string) (fs : list feature) : list feature :=
  filter (fun f => negb (struck targets ids f)) fs.
(** The name with the kind of the feature *)
Definition name_with_kind (f : feature) (s : string) : Prop :=
  if is_numerical f then starts "N:" (fName f) /\ s = fName f \/ ~ starts "N:" (fName f) /\ s = ("N:" ++ fName f)%string
  else (starts "C:" (fName f) \/ starts "B:" (fName f)) /\ s = fName f \/
       ~ starts "C:" (fName f) /\ ~ starts "B:" (fName f) /\ s = ("C:" ++ fName f)%string.

(** *** Lemmas *)
Lemma B_cat a b : B (a ++ b) = B a ++ B b.
Proof. induction a as [|c a IH]; cbn; [reflexivity|]. f_equal. exact IH. Qed.
Lemma prefix_starts p s : has_prefix (B p) (B s) = true <-> starts p s.
Proof.
  unfold starts. revert s. induction p as [|c p IH]; intros s; cbn.
  - split; intros _; [exists s|]; reflexivity.
  - destruct s as [|d s]; cbn; [split; [discriminate|intros [s' X]; discriminate]|]. rewrite Bool.andb_true_iff, IH, Ascii.eqb_eq. split.
    + intros [-> [s' ->]]. exists s'. reflexivity.
    + intros [s' X]. inversion X; subst. split; [reflexivity|]. exists s'. reflexivity.
Qed.
Lemma prefix_not p s : has_prefix (B p) (B s) = false <-> ~ starts p s.
Proof. rewrite <- prefix_starts. destruct (has_prefix (B p) (B s)); split; congruence. Qed.
Lemma annotate_ok f : name_with_kind f (fName (annotate f)) /\ same_values f (annotate f) /\ typed_name (annotate f).
Proof.
  assert (SN : forall s, ~ starts "N:" ("C:" ++ s)) by (intros s [s' X]; cbn in X; inversion X).
  destruct f as [f|f]; unfold annotate, name_with_kind, typed_name; cbn [is_numerical fName].
  - destruct (has_prefix (B "N:") (B (nName f))) eqn:E.
    + apply prefix_starts in E. split; [left; split; [exact E|reflexivity]|]. split; [cbn; auto|]. cbn [fName]. split.
      * destruct E as [s' ->]. cbn. lia.
      * split; auto.
    + apply prefix_not in E. cbn [fRename fName nName is_numerical]. split; [right; auto|]. split; [cbn; auto|]. split; [cbn; lia|].
      split; auto. intros _. exists (nName f). reflexivity.
  - destruct (has_prefix (B "C:") (B (cName f))) eqn:E; [|destruct (has_prefix (B "B:") (B (cName f))) eqn:E2]; cbn [orb].
    + apply prefix_starts in E. split; [left; auto|]. split; [cbn; auto|]. cbn [fName is_numerical]. destruct E as [s' ->]. split; [cbn; lia|]. split; [discriminate|]. intros X. destruct (SN _ X).
    + apply prefix_starts in E2. split; [left; auto|]. split; [cbn; auto|]. cbn [fName is_numerical]. destruct E2 as [s' ->]. split; [cbn; lia|]. split; [discriminate|]. intros [s2 X]. cbn in X. inversion X.
    + apply prefix_not in E, E2. cbn [fRename fName cName is_numerical]. split; [right; auto|]. split; [cbn; auto|]. split; [cbn; lia|]. split; [discriminate|]. intros X. destruct (SN _ X).
Qed.
Lemma same_value_at f g i : same_values f g -> value_at g i = value_at f i.
Proof. destruct f as [f|f], g as [g|g]; cbn; try tauto. - intros (-> & ->). reflexivity. - intros (-> & -> & ->). reflexivity. Qed.
Lemma all_but_In {A} t (l : list A) x : In x (all_but t l) -> In x l.
Proof.
  unfold all_but. intros H. rewrite <- (firstn_skipn t l). apply in_or_app. apply in_app_or in H as [H|H]; [left; exact H|right].
  clear - H. revert l H. induction t as [|t IH]; intros [|a l] H; try destruct H; cbn [skipn] in *; [right; exact H|]. apply IH. exact H.
Qed.
Lemma struck_snoc targets ids id f : struck targets (ids ++ [id]) f = struck targets ids f || (String.eqb (fName f) id && negb (existsb (String.eqb (fName f)) targets)).
Proof. unfold struck. rewrite existsb_app. cbn [existsb]. rewrite Bool.orb_false_r. destruct (existsb (String.eqb (fName f)) ids), (String.eqb (fName f) id), (existsb (String.eqb (fName f)) targets); reflexivity. Qed.
Lemma blacklist_ok anon libsvm fm ids : names_ok fm -> NoDup (map fName (fmData fm)) ->
  toafm_blacklist anon libsvm (fmMap fm) ids (length (fmData fm)) = Ok (map (struck [anon; libsvm] ids) (fmData fm)).
Proof.
  intros [N1 N2] Hnd. unfold toafm_blacklist.
  assert (G : forall ids' pre, foreach ids' (fun id (bl : list bool) =>
      if (id =? anon)%string || (id =? libsvm)%string then Ok bl
      else match assoc id (fmMap fm) with
           | None => Ok bl
           | Some i => let* b := get bl i in (if b then Ok bl else set bl i true)
           end) (map (struck [anon; libsvm] pre) (fmData fm)) = Ok (map (struck [anon; libsvm] (pre ++ ids')) (fmData fm))).
  { induction ids' as [|id ids' IH]; intros pre; cbn [foreach]; [rewrite app_nil_r; reflexivity|].
    assert (E : (if (id =? anon)%string || (id =? libsvm)%string then Ok (map (struck [anon; libsvm] pre) (fmData fm))
      else match assoc id (fmMap fm) with
           | None => Ok (map (struck [anon; libsvm] pre) (fmData fm))
           | Some i => let* b := get (map (struck [anon; libsvm] pre) (fmData fm)) i in (if b then Ok (map (struck [anon; libsvm] pre) (fmData fm)) else set (map (struck [anon; libsvm] pre) (fmData fm)) i true)
           end) = Ok (map (struck [anon; libsvm] (pre ++ [id])) (fmData fm))).
    { assert (Same : (forall f, In f (fmData fm) -> struck [anon; libsvm] (pre ++ [id]) f = struck [anon; libsvm] pre f) ->
        Ok (map (struck [anon; libsvm] pre) (fmData fm)) = Ok (map (struck [anon; libsvm] (pre ++ [id])) (fmData fm))).
      { intros H. f_equal. apply map_ext_in. intros f Hf. symmetry. auto. }
      destruct ((id =? anon)%string || (id =? libsvm)%string) eqn:Et.
      - apply Same. intros f Hf. rewrite struck_snoc. cbn [existsb]. destruct (String.eqb_spec (fName f) id) as [Eid|]; [|apply Bool.orb_false_r]. rewrite Eid, Bool.orb_false_r, Et.
        apply Bool.orb_false_r.
      - destruct (assoc id (fmMap fm)) as [i|] eqn:Ea.
        + destruct (N1 _ _ Ea) as (g & Hg & Hn).
          assert (Eg : nth_error (map (struck [anon; libsvm] pre) (fmData fm)) i = Some (struck [anon; libsvm] pre g)) by (rewrite nth_error_map, Hg; reflexivity).
          rewrite (get_nth _ _ Eg). cbn [bind].
          assert (Only : forall k f, nth_error (fmData fm) k = Some f -> struck [anon; libsvm] (pre ++ [id]) f = if k =? i then true else struck [anon; libsvm] pre f).
          { intros k f Hk. rewrite struck_snoc. cbn [existsb]. rewrite Bool.orb_false_r. destruct (Nat.eqb_spec k i) as [->|Hki].
            - assert (f = g) by congruence. subst f. rewrite Hn, Et, String.eqb_refl. apply Bool.orb_true_r.
            - destruct (String.eqb_spec (fName f) id) as [Eid|]; [|apply Bool.orb_false_r]. exfalso. apply Hki.
              apply (proj1 (NoDup_nth_error _) Hnd); [rewrite map_length; eapply nth_error_some_lt; eauto|]. rewrite !nth_error_map, Hk, Hg. cbn. congruence. }
          destruct (struck [anon; libsvm] pre g) eqn:Es.
          * apply Same. intros f Hf. apply In_nth_error in Hf as [k Hk]. rewrite (Only _ _ Hk). destruct (Nat.eqb_spec k i) as [->|]; [|reflexivity].
            assert (f = g) by congruence. subst f. auto.
          * rewrite set_ok by (rewrite map_length; eapply nth_error_some_lt; eauto). f_equal. apply nth_error_ext'. intros k.
            destruct (Nat.eq_dec k i) as [->|Hki].
            -- rewrite nth_error_upd_eq by (rewrite map_length; eapply nth_error_some_lt; eauto). rewrite nth_error_map, Hg. cbn [option_map]. rewrite (Only _ _ Hg), Nat.eqb_refl. reflexivity.
            -- rewrite nth_error_upd_neq by auto. rewrite !nth_error_map. destruct (nth_error (fmData fm) k) as [f|] eqn:Hk; [|reflexivity]. cbn. rewrite (Only _ _ Hk).
               destruct (Nat.eqb_spec k i); [congruence|reflexivity].
        + apply Same. intros f Hf. rewrite struck_snoc. destruct (String.eqb_spec (fName f) id) as [Eid|]; [|apply Bool.orb_false_r].
          destruct (N2 f Hf) as [k Hk]. congruence. }
    rewrite E. cbn [bind]. rewrite IH, <- app_assoc. reflexivity. }
  etransitivity; [|exact (G ids [])]. f_equal. clear. induction (fmData fm) as [|f fs IH]; cbn; [reflexivity|]. f_equal. exact IH.
Qed.
Lemma keep_ok (P : feature -> bool) fs : toafm_keep (map P fs) fs = (filter (fun f => negb (P f)) fs, table_of (filter (fun f => negb (P f)) fs)).
Proof.
  unfold toafm_keep. change (@nil (string * nat)) with (table_of []).
  assert (G : forall fs acc, fold_left (fun (a : list feature * list (string * nat)) (bf : bool * feature) =>
      if fst bf then a else (fst a ++ [snd bf], (fName (snd bf), length (fst a)) :: snd a)) (combine (map P fs) fs) (acc, table_of acc) =
      (acc ++ filter (fun f => negb (P f)) fs, table_of (acc ++ filter (fun f => negb (P f)) fs))).
  { clear. induction fs as [|f fs IH]; intros acc; cbn [map combine fold_left filter]; [rewrite app_nil_r; reflexivity|].
    cbn [fst snd]. destruct (P f); cbn [negb]; [apply IH|]. rewrite <- table_snoc, IH, <- app_assoc. reflexivity. }
  apply (G fs []).
Qed.

Section Toafm.
  Variables (PF : string -> option f64) (itoa : nat -> string) (Atoi : bytes -> option Z) (fmtF : f64 -> string).
(** The file has the features that the list does not strike out, in order, under names
    that say their kinds, with the values they had. *)
Theorem C106_matrix_rewritten : forall fm ids n,
  names_ok fm -> NoDup (map fName (fmData fm)) ->
  let kept := remaining ["" ; ""] ids (fmData fm) in
  kept <> [] -> 0 < n -> (forall f, In f kept -> fLength f = n) ->
  (forall l, nth_error (fmLabels fm) 0 = Some l -> ~ looks_typed l) -> PF "NA" = None ->
  (forall c, c < n -> exists l, nth_error (fmLabels fm) c = Some l /\ plain l) ->
  (forall f, In f kept -> plain (fName f) /\ forall c, c < n -> exists v, value_at f c = Some v /\ cell_ok is_token PF fmtF v) ->
  exists out fm', toafm itoa fmtF "" "" ids fm = Ok (Some out) /\ ParseAFM PF itoa out = Ok fm' /\
    (forall c, c < n -> nth_error (fmLabels fm') c = nth_error (fmLabels fm) c) /\ length (fmLabels fm') = n /\ names_ok fm' /\
    Forall2 (fun f f' => name_with_kind f (fName f') /\ is_numerical f' = is_numerical f /\ fLength f' = n /\
                         forall c, c < n -> value_at f' c = value_at f c) kept (fmData fm').
Proof.
  intros fm ids n Hno Hnd kept Hne Hn Hlen Hl0 HNA Hlab Hf.
  assert (Hplain : forall f, In f kept -> plain (fName (annotate f))).
  { intros f Hin. destruct (Hf f Hin) as [Hp _]. destruct (annotate_ok f) as [Hk _]. unfold name_with_kind in Hk.
    assert (Hap : forall c, plain (String c ":" ++ fName f) <-> (c <> tab /\ c <> nl /\ c <> ascii_of_nat 13 /\ c <> quote)).
    { intros c. unfold plain. cbn [append B]. split; [intros X; apply Forall_cons_iff in X; tauto|]. intros X. constructor; [exact X|]. constructor; [repeat split; discriminate|exact Hp]. }
    destruct (is_numerical f).
    - destruct Hk as [[_ ->]|[_ ->]]; [exact Hp|]. apply Hap. repeat split; discriminate.
    - destruct Hk as [[_ ->]|(_ & _ & ->)]; [exact Hp|]. apply Hap. repeat split; discriminate. }
  assert (Hann : forall f c, value_at (annotate f) c = value_at f c) by (intros f c; apply same_value_at; apply annotate_ok).
  assert (Elen : forall f, fLength (annotate f) = fLength f).
  { intros f. destruct (annotate_ok f) as (_ & Hs & _). destruct f as [f|f], (annotate _) as [g|g]; cbn in Hs |- *; try tauto; unfold nLength, cLength.
    - destruct Hs as [_ ->]. reflexivity. - destruct Hs as (_ & -> & _). reflexivity. }
  assert (Enum : forall f, is_numerical (annotate f) = is_numerical f).
  { intros f. destruct (annotate_ok f) as (_ & Hs & _). destruct f as [f|f], (annotate _) as [g|g]; cbn in Hs |- *; tauto. }
  set (fm1 := mkFM (map annotate kept) (table_of kept) (fmLabels fm)).
  destruct (C55_matrix_files_round_trip PF itoa fmtF fm1 (seq 0 n)) as (out & fm' & EW & EP & HL & HF & HN).
  { destruct n; [lia|discriminate]. }
  { destruct n; [lia|]. exact Hl0. }
  { exact HNA. }
  { intros c Hc. apply in_seq in Hc. apply Hlab. lia. }
  { intros g Hg. apply in_map_iff in Hg as (f & <- & Hin). split; [auto|]. split; [apply annotate_ok|]. intros c Hc. apply in_seq in Hc. rewrite Hann. apply (Hf f Hin). lia. }
  exists out, fm'. split; [|split; [exact EP|]].
  - unfold toafm. rewrite blacklist_ok by assumption. cbn [bind]. rewrite keep_ok. fold (remaining ["" ; ""] ids (fmData fm)). fold kept. cbn [String.eqb bind fmData fmMap fmLabels].
    assert (E0 : exists f, In f kept /\ get (map annotate kept) 0 = Ok (annotate f)) by (destruct kept as [|f l]; [congruence|]; exists f; split; [left; reflexivity|reflexivity]).
    destruct E0 as (f & Hin & E0). rewrite E0. cbn [bind]. rewrite Elen, (Hlen f Hin). fold fm1. rewrite EW. reflexivity.
  - assert (Hseq : forall i, i < n -> nth_error (seq 0 n) i = Some i).
    { intros i Hi. rewrite (nth_error_nth' _ 0) by (rewrite seq_length; exact Hi). rewrite seq_nth by exact Hi. reflexivity. }
    split; [|split; [|split; [exact HN|]]].
    + intros c Hc. clear - HL Hseq Hc. assert (G : forall (l : list nat) (ls : list string), Forall2 (fun c l => nth_error (fmLabels fm1) c = Some l) l ls -> forall i x, nth_error l i = Some x -> nth_error ls i = nth_error (fmLabels fm1) x).
      { induction 1 as [|a b l ls H1 H2 IH]; intros [|i] x E; cbn in E; try discriminate; [inversion E; subst; symmetry; exact H1|]. apply IH. exact E. }
      apply (G _ _ HL). apply Hseq. exact Hc.
    + rewrite <- (seq_length n 0). clear - HL. induction HL; cbn; congruence.
    + cbn [fm1 fmData] in HF. rewrite seq_length in HF. revert HF. clear - Hann Enum Hseq. generalize (fmData fm'). induction kept as [|f kept IH]; intros l HF; cbn [map] in HF; inversion HF as [|a g b l' H1 H2]; subst; constructor.
      * destruct H1 as (E1 & E2 & E3 & E4 & _). rewrite E1. split; [apply annotate_ok|]. split; [rewrite E2; apply Enum|]. split; [exact E3|]. intros c Hc. rewrite (E4 c c (Hseq c Hc)). apply Hann.
      * apply IH. exact H2.
Qed.

(** With a libsvm target the remaining features are written as WriteLibSvm writes them; the
    target is never struck out and is found by its old name. *)
Theorem C106_libsvm_target : forall fm lib ids n target,
  names_ok fm -> NoDup (map fName (fmData fm)) -> lib <> "" -> In target (fmData fm) -> fName target = lib ->
  let kept := remaining ["" ; lib] ids (fmData fm) in
  Forall (fun f => in_range f /\ fLength f = n) kept ->
  In target kept /\
  exists out, toafm itoa fmtF "" lib ids fm = Ok (Some out) /\ WriteLibSvm itoa fmtF (mkFM kept (table_of kept) (fmLabels fm)) lib = Ok (Some out).
Proof.
  intros fm lib ids n target Hno Hnd Hlib Hin Hname kept Hf.
  assert (Hk : In target kept).
  { apply filter_In. split; [exact Hin|]. unfold struck. rewrite Hname. cbn [existsb]. rewrite String.eqb_refl. rewrite !Bool.orb_true_r. cbn. rewrite Bool.andb_false_r. reflexivity. }
  split; [exact Hk|].
  destruct (table_names_ok kept (fmLabels fm)) as [T1 T2]. cbn [fmMap fmData] in T1, T2.
  destruct (T2 _ Hk) as [t Ht]. rewrite Hname in Ht. destruct (T1 _ _ Ht) as (target' & Ht' & _).
  assert (Hb : Forall in_range (all_but t kept)).
  { apply Forall_forall. intros f X. rewrite Forall_forall in Hf. apply (Hf f). eapply all_but_In; eauto. }
  destruct (C103_columns_exist _ Hb) as [colss Hc].
  rewrite Forall_forall in Hf. destruct (Hf target') as [[Ha _] Hl]; [eapply nth_error_In; eauto|].
  assert (Hboth : Forall (fun f => in_range f /\ fLength f = n) (all_but t kept)).
  { apply Forall_forall. intros f X. apply (Hf f). eapply all_but_In; eauto. }
  eexists. split; [|apply (WriteLibSvm_text itoa fmtF (mkFM kept (table_of kept) (fmLabels fm)) lib t target' colss n); assumption].
  unfold toafm. rewrite blacklist_ok by assumption. cbn [bind]. rewrite keep_ok. fold (remaining ["" ; lib] ids (fmData fm)). fold kept.
  change (("" =? "")%string) with true. cbv iota. cbn [bind fmData fmMap fmLabels].
  assert (E0 : exists f, get (map annotate kept) 0 = Ok f) by (destruct kept as [|f l]; [destruct Hk|]; eexists; reflexivity).
  destruct E0 as (f0' & E0). rewrite E0. cbn [bind]. destruct (String.eqb_spec lib ""); [congruence|].
  assert (Esame : forall f, same_values f (annotate f)) by (intros f; apply annotate_ok).
  assert (Ecol : forall f cols, exported f cols -> exported (annotate f) cols).
  { intros f cols. specialize (Esame f). destruct f as [f|f], (annotate _) as [g|g]; cbn in Esame |- *; try tauto.
    - destruct Esame as (-> & ->). auto. - destruct Esame as (-> & -> & ->). auto. }
  assert (Erng : forall f, in_range f /\ fLength f = n -> in_range (annotate f) /\ fLength (annotate f) = n).
  { intros f. specialize (Esame f). unfold in_range. destruct f as [f|f], (annotate _) as [g|g]; cbn in Esame |- *; try tauto; unfold nLength, cLength.
    - destruct Esame as (-> & ->). auto. - destruct Esame as (-> & -> & ->). auto. }
  assert (Eall : all_but t (map annotate kept) = map annotate (all_but t kept)).
  { unfold all_but. rewrite firstn_map, skipn_map, map_app. reflexivity. }
  rewrite (WriteLibSvm_text itoa fmtF (mkFM (map annotate kept) (table_of kept) (fmLabels fm)) lib t (annotate target') colss n).
  - do 3 f_equal. apply map_ext. intros i. do 3 f_equal. specialize (Esame target').
    assert (Et : target_text itoa fmtF (annotate target') i = target_text itoa fmtF target' i); [|rewrite Et; reflexivity].
    destruct target' as [g|g], (annotate _) as [h|h]; cbn in Esame |- *; try tauto. + destruct Esame as (-> & ->). reflexivity. + destruct Esame as (-> & _). reflexivity.
  - exact Ht.
  - cbn [fmData]. rewrite nth_error_map, Ht'. reflexivity.
  - cbn [fmData]. rewrite Eall. apply Forall_map. eapply Forall_impl; [|exact Hboth]. exact Erng.
  - apply (Erng target'). split; [apply Hf; eapply nth_error_In; eauto|exact Hl].
  - apply (Erng target'). split; [apply Hf; eapply nth_error_In; eauto|exact Hl].
  - cbn [fmData]. rewrite Eall. clear - Hc Ecol. induction Hc; cbn; constructor; auto.
Qed.
(** Without strings: the target first, names and labels by number, categories by number. *)
Theorem C106_anonymous : forall fm anon ids n,
  names_ok fm -> NoDup (map fName (fmData fm)) -> anon <> "" ->
  let kept := remaining [anon; ""] ids (fmData fm) in
  kept <> [] -> 0 < n -> (forall f, In f kept -> aligned f /\ fLength f = n) -> length (fmLabels fm) = n ->
  PF "NA" = None -> (forall k, plain (itoa k) /\ ~ is_token (itoa k) /\ ~ looks_typed (itoa k)) ->
  (forall f, In f kept -> forall c, c < n -> exists v, value_at f c = Some v /\ cell_ok is_token PF fmtF v) ->
  exists data out fm', toafm itoa fmtF anon "" ids fm = Ok (Some out) /\ ParseAFM PF itoa out = Ok fm' /\
    ((forall f, In f kept -> fName f <> anon) /\ data = kept \/
     exists k f, nth_error kept k = Some f /\ fName f = anon /\ exchanged k kept data) /\
    length (fmData fm') = length data /\ (forall c, c < n -> nth_error (fmLabels fm') c = Some (itoa c)) /\
    forall i f, nth_error data i = Some f -> exists g, nth_error (fmData fm') i = Some g /\ is_numerical g = is_numerical f /\ fLength g = n /\
      fName g = ((if is_numerical f then "N:" else "C:") ++ itoa i)%string /\
      forall c, c < n -> match value_at f c, f with
                         | Some (VCat s), FCat h => exists k, nth_error (cData h) c = Some k /\ nth_error (cmBack (cMap h)) k = Some s /\ value_at g c = Some (VCat (itoa k))
                         | v, _ => value_at g c = v
                         end.
Proof.
  intros fm anon ids n Hno Hnd Hanon kept Hne Hn Hal Hlab HNA Hitoa Hcell.
  destruct (C60_data_kept_partial itoa anon (mkFM kept (table_of kept) (fmLabels fm))) as (data & fm0 & ES & Hord & Hl0 & Hren & Hlab0 & _).
  cbn [fmData fmLabels] in Hord, Hlab0.
  assert (Hdl : length data = length kept) by (destruct Hord as [[_ ->]|(k & f & _ & _ & E & _)]; auto).
  assert (Hdin : forall f, In f data -> In f kept).
  { destruct Hord as [[_ ->]|(k & f & Hk & _ & E & HE)]; [auto|]. intros g Hg. apply In_nth_error in Hg as [i Hi].
    rewrite HE in Hi by (rewrite <- E; eapply nth_error_some_lt; eauto). eapply nth_error_In; eauto. }
  assert (Hann : map annotate (fmData fm0) = fmData fm0).
  { rewrite <- map_id. apply map_ext_in. intros g Hg. apply In_nth_error in Hg as [i Hi].
    destruct (nth_error data i) as [f|] eqn:Ef; [|apply nth_error_None in Ef; apply nth_error_some_lt in Hi; lia].
    destruct (Hren _ _ Ef) as (g' & Eg & Hr). assert (g' = g) by congruence. subst g'. unfold annotate.
    destruct f as [f|f], g as [g|g]; cbn in Hr; try tauto; cbn [fName].
    - destruct Hr as (_ & _ & _ & ->). reflexivity. - destruct Hr as (_ & _ & _ & -> & _). reflexivity. }
  assert (Hval : forall i f g, nth_error data i = Some f -> nth_error (fmData fm0) i = Some g ->
    fName g = ((if is_numerical f then "N:" else "C:") ++ itoa i)%string /\ is_numerical g = is_numerical f /\ fLength g = n /\
    forall c, c < n -> (exists v, value_at g c = Some v /\ cell_ok is_token PF fmtF v) /\
      match value_at f c, f with
      | Some (VCat s), FCat h => exists k, nth_error (cData h) c = Some k /\ nth_error (cmBack (cMap h)) k = Some s /\ value_at g c = Some (VCat (itoa k))
      | v, _ => value_at g c = v
      end).
  { intros i f g Hf Hg. destruct (Hren _ _ Hf) as (g' & Eg & Hr). assert (g' = g) by congruence. subst g'.
    assert (Hk : In f kept) by (apply Hdin; eapply nth_error_In; eauto). destruct (Hal f Hk) as [Ha Hlf].
    destruct f as [f|f], g as [g|g]; cbn in Hr; try tauto.
    - destruct Hr as (E1 & E2 & _ & E4). cbn [fName is_numerical]. split; [exact E4|]. split; [reflexivity|]. split; [cbn in Hlf |- *; unfold nLength in *; congruence|].
      intros c Hc. destruct (Hcell _ Hk c Hc) as (v & Hv & Hok). assert (Eg' : value_at (FNum g) c = value_at (FNum f) c) by (cbn; rewrite E1, E2; reflexivity).
      rewrite Eg', Hv. split; [eauto|]. destruct v; reflexivity.
    - destruct Hr as (E1 & E2 & _ & E4 & E5). cbn [fName is_numerical]. split; [exact E4|]. split; [reflexivity|]. split; [cbn in Hlf |- *; unfold cLength in *; congruence|].
      intros c Hc. destruct (Hcell _ Hk c Hc) as (v & Hv & Hok). rewrite Hv.
      apply value_cat in Hv as (k & Hkc & [[Hm ->]|(Hm & s' & Hb & ->)]).
      + assert (Eg' : value_at (FCat g) c = Some VMissing) by (cbn; rewrite E1, E2, Hm, Hkc; reflexivity). rewrite Eg'. split; [exists VMissing; split; [reflexivity|exact I]|reflexivity].
      + assert (Eg' : value_at (FCat g) c = Some (VCat (itoa k))).
        { cbn. rewrite E1, E2, Hm, Hkc, E5. rewrite nth_error_map. rewrite (nth_error_nth' _ 0) by (rewrite seq_length; eapply nth_error_some_lt; eauto).
          rewrite seq_nth by (eapply nth_error_some_lt; eauto). reflexivity. }
        rewrite Eg'. split; [eexists; split; [reflexivity|]; split; [apply Hitoa|apply Hitoa]|]. exists k. auto. }
  destruct (C55_matrix_files_round_trip PF itoa fmtF (mkFM (fmData fm0) (fmMap fm0) (fmLabels fm0)) (seq 0 n)) as (out & fm' & EW & EP & HL & HF & HN).
  { destruct n; [lia|discriminate]. }
  { intros l. cbn [fmLabels]. rewrite Hlab0. intros X. apply nth_error_In in X. apply in_map_iff in X as (k & <- & _). apply Hitoa. }
  { exact HNA. }
  { intros c Hc. apply in_seq in Hc. cbn [fmLabels]. rewrite Hlab0, Hlab. exists (itoa c). split; [|apply Hitoa].
    rewrite nth_error_map, (nth_error_nth' _ 0) by (rewrite seq_length; lia). rewrite seq_nth by lia. reflexivity. }
  { cbn [fmData]. intros g Hg. apply In_nth_error in Hg as [i Hi]. destruct (nth_error data i) as [f|] eqn:Ef; [|apply nth_error_None in Ef; apply nth_error_some_lt in Hi; lia].
    destruct (Hval _ _ _ Ef Hi) as (E1 & E2 & _ & E3). split; [|split].
    - rewrite E1. destruct (Hitoa i) as [Hp _]. unfold plain. destruct (is_numerical f); cbn [append B]; (constructor; [repeat split; discriminate|]); (constructor; [repeat split; discriminate|exact Hp]).
    - unfold typed_name. rewrite E1, E2. destruct (is_numerical f).
      + split; [cbn; lia|]. split; [|auto]. intros _. exists (itoa i). reflexivity.
      + split; [cbn; lia|]. split; [discriminate|]. intros [s' X]. cbn in X. inversion X.
    - intros c Hc. apply in_seq in Hc. apply E3. lia. }
  cbn [fmData fmLabels] in HF, HL.
  assert (Hseq : forall i, i < n -> nth_error (seq 0 n) i = Some i).
  { intros i Hi. rewrite (nth_error_nth' _ 0) by (rewrite seq_length; exact Hi). rewrite seq_nth by exact Hi. reflexivity. }
  exists data, out, fm'. split; [|split; [exact EP|split; [exact Hord|split; [|split]]]].
  - unfold toafm. rewrite blacklist_ok by assumption. cbn [bind]. rewrite keep_ok. fold (remaining [anon; ""] ids (fmData fm)). fold kept.
    destruct (String.eqb_spec anon ""); [congruence|]. rewrite ES. cbn [bind fmData fmMap fmLabels]. rewrite Hann.
    destruct (fmData fm0) as [|g l] eqn:Eg; [destruct kept; [congruence|cbn in *; lia]|]. cbn [get nth_error bind].
    destruct data as [|f data']; [cbn in *; lia|]. destruct (Hval 0 f g eq_refl) as (_ & _ & -> & _); [reflexivity|].
    rewrite EW. reflexivity.
  - rewrite <- Hl0. clear - HF. induction HF; cbn; congruence.
  - intros c Hc. assert (G : forall (l : list nat) (ls : list string), Forall2 (fun c l => nth_error (fmLabels fm0) c = Some l) l ls -> forall i x, nth_error l i = Some x -> nth_error ls i = nth_error (fmLabels fm0) x).
    { clear. induction 1 as [|a b l ls H1 H2 IH]; intros [|i] x E; cbn in E; try discriminate; [inversion E; subst; symmetry; exact H1|]. apply IH. exact E. }
    rewrite (G _ _ HL c c (Hseq c Hc)). rewrite Hlab0, Hlab, nth_error_map, Hseq by exact Hc. reflexivity.
  - intros i f Hi. destruct (Hren _ _ Hi) as (g & Hg & _). destruct (Hval _ _ _ Hi Hg) as (E1 & E2 & E3 & E4). rewrite seq_length in HF.
    assert (G : exists g', nth_error (fmData fm') i = Some g' /\ fName g' = fName g /\ is_numerical g' = is_numerical g /\ fLength g' = n /\ forall c, c < n -> value_at g' c = value_at g c).
    { clear - HF Hg Hseq. revert i Hg. induction HF as [|a b l l' H1 H2 IH]; intros [|i] Hg; cbn in Hg; try discriminate.
      - inversion Hg; subst. exists b. destruct H1 as (A & C & D & E & _). split; [reflexivity|]. split; [exact A|]. split; [exact C|]. split; [exact D|]. intros c Hc. apply E. apply Hseq. exact Hc.
      - apply IH. exact Hg. }
    destruct G as (g' & G1 & G2 & G3 & G4 & G5). exists g'. split; [exact G1|]. split; [congruence|]. split; [exact G4|]. split; [congruence|].
    intros c Hc. rewrite (G5 c Hc). apply E4. exact Hc.
Qed.
(** Both a target for anonymous output and a libsvm target: the names are gone before the
    libsvm target is looked up. *)
Theorem C106_both_targets_refuted : forall fm anon lib ids,
  names_ok fm -> NoDup (map fName (fmData fm)) -> anon <> "" -> lib <> "" ->
  remaining [anon; lib] ids (fmData fm) <> [] -> (forall i, lib <> ("N:" ++ itoa i)%string /\ lib <> ("C:" ++ itoa i)%string) ->
  toafm itoa fmtF anon lib ids fm = Ok None.
Proof.
  intros fm anon lib ids Hno Hnd Hanon Hlib Hne Hi.
  set (kept := remaining [anon; lib] ids (fmData fm)) in *.
  destruct (C60_data_kept_partial itoa anon (mkFM kept (table_of kept) (fmLabels fm))) as (data & fm0 & ES & Hord & Hl0 & Hren & _ & HN & _).
  cbn [fmData] in Hord.
  assert (Hdl : length data = length kept) by (destruct Hord as [[_ ->]|(k & f & _ & _ & E & _)]; auto).
  unfold toafm. rewrite blacklist_ok by assumption. cbn [bind]. rewrite keep_ok. fold (remaining [anon; lib] ids (fmData fm)). fold kept.
  destruct (String.eqb_spec anon ""); [congruence|]. rewrite ES. cbn [bind fmData fmMap fmLabels].
  destruct (fmData fm0) as [|g l] eqn:Eg; [destruct kept; [congruence|cbn in *; lia]|]. cbn [map get nth_error bind].
  destruct (String.eqb_spec lib ""); [congruence|]. unfold WriteLibSvm. cbn [fmMap].
  destruct (assoc lib (fmMap fm0)) as [k|] eqn:Ek; [|reflexivity]. exfalso. destruct (HN _ _ Ek) as (h & Hh & Hn). rewrite <- Eg in *.
  destruct (nth_error data k) as [f|] eqn:Ef; [|apply nth_error_None in Ef; apply nth_error_some_lt in Hh; lia].
  destruct (Hren _ _ Ef) as (h' & Eh & Hr). assert (h' = h) by congruence. subst h'. destruct (Hi k) as [I1 I2].
  destruct f as [f|f], h as [h|h]; cbn in Hr, Hn; try tauto.
  - destruct Hr as (_ & _ & _ & X). apply I1. rewrite <- Hn, X. reflexivity.
  - destruct Hr as (_ & _ & _ & X & _). apply I2. rewrite <- Hn, X. reflexivity.
Qed.
(** A list that strikes out every feature: a panic. *)
Theorem C106_nothing_left_refuted : forall fm lib ids,
  names_ok fm -> NoDup (map fName (fmData fm)) -> remaining ["" ; lib] ids (fmData fm) = [] -> toafm itoa fmtF "" lib ids fm = Panic.
Proof.
  intros fm lib ids Hno Hnd He. unfold toafm. rewrite blacklist_ok by assumption. cbn [bind]. rewrite keep_ok. fold (remaining ["" ; lib] ids (fmData fm)). rewrite He. reflexivity.
Qed.
End Toafm.
Print Assumptions C106_matrix_rewritten.
Print Assumptions C106_libsvm_target.
Print Assumptions C106_anonymous.
Print Assumptions C106_both_targets_refuted.
Print Assumptions C106_nothing_left_refuted.

(** *** Examples *)
Definition toafm_fm : fmatrix :=
  mkFM [FCat (mkCat (mkCM [("b", 1); ("a", 0)] ["a"; "b"]) [0; 1; 0] [false; false; true] "kind" false true);
        FNum (mkNum [f1; f0; f0] (repeat false 3) "age" false); FNum (mkNum [f1; f1; f0] [false; false; true] "N:size" true)]
       [("N:size", 2); ("age", 1); ("kind", 0)] ["x"; "y"; "z"].
Example C106_example :
  names_ok toafm_fm /\ NoDup (map fName (fmData toafm_fm)) /\
  map fName (remaining ["" ; ""] ["age"; "no"] (fmData toafm_fm)) = ["kind"; "N:size"] /\
  option_map T (match toafm svm_itoa svm_fmt "" "" ["age"; "no"] toafm_fm with Ok o => o | _ => None end) =
    Some (T (concat (map tsv_line [["."; "x"; "y"; "z"]; ["C:kind"; "a"; "b"; "NA"]; ["N:size"; "1"; "1"; "NA"]]))) /\
  option_map T (match toafm svm_itoa svm_fmt "" "kind" ["age"; "kind"] toafm_fm with Ok o => o | _ => None end) = Some (T (svm_lines ["0 1:1"; "1 1:1"; "0 1:1"])) /\
  option_map T (match toafm svm_itoa svm_fmt "N:size" "" ["age"] toafm_fm with Ok o => o | _ => None end) =
    Some (T (concat (map tsv_line [["."; "0"; "1"; "2"]; ["N:0"; "1"; "1"; "NA"]; ["C:1"; "0"; "1"; "NA"]]))) /\
  toafm svm_itoa svm_fmt "kind" "kind" [] toafm_fm = Ok None.
Proof.
  split; [exact (table_names_ok (fmData toafm_fm) _)|]. split; [repeat constructor; cbn; intuition discriminate|]. repeat split; vm_compute; reflexivity.
Qed.
(** Two features can get the same name. *)
Theorem C106_names_clash_refuted : exists fs, NoDup (map fName fs) /\ ~ NoDup (map fName (map annotate fs)).
Proof.
  exists [FNum (mkNum [f1] [false] "x" false); FNum (mkNum [f0] [false] "N:x" false)]. split; [repeat constructor; cbn; intuition discriminate|].
  intros H. cbn in H. inversion H as [|a l H1 H2]. apply H1. left. reflexivity.
Qed.
Print Assumptions C106_names_clash_refuted.
