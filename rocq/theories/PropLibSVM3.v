(** C104, C105: libsvm files of some of the cases, and those of nfold. *)
From Verif Require Import Go GoLemmas F64 ModelFeature FeatureSpec ModelSample FeatureProofs ModelText TextProofs ModelMatrix MatrixSpec MatrixProofs PropMatrix PropEncode PropLibSVM ModelTargets2 ModelExport PropARFF PropLibSVM2.
Local Open Scope string_scope.
Local Open Scope nat_scope.
Local Open Scope list_scope.

(** ** C104 *)
(** The text of a target when missing values are ignored *)
Definition target_raw (itoa : nat -> string) (fmtF : f64 -> string) (target : feature) (i : nat) : option string :=
  match target with FNum f => option_map fmtF (nth_error (nData f) i) | FCat f => option_map itoa (nth_error (cData f) i) end.

Lemma same_values_refl f : same_values f f.
Proof. destruct f; cbn; auto. Qed.
Lemma impute_in_place : forall fs colss, Forall in_range fs -> Forall2 exported fs colss -> forall acc,
  exists hs, foreach fs (fun f data => let* g := fImputeMissing f in Ok (data ++ [g])) acc = Ok (acc ++ hs) /\
    Forall aligned hs /\ map numbers (flat_map encoded hs) = concat colss /\ Forall (fun e => is_numerical e = true) (flat_map encoded hs) /\
    Forall2 (fun f h => fImputeMissing f = Ok h) fs hs.
Proof.
  intros fs colss Hr H. induction H as [|f cols fs colss He H IH]; intros acc.
  - exists []. cbn. rewrite app_nil_r. repeat constructor.
  - apply Forall_cons_iff in Hr as [Hf Hr]. destruct (export_one f f cols Hf (same_values_refl f) He) as (h & E & Ha & Ec & En).
    cbn [foreach]. rewrite E. cbn [bind]. destruct (IH Hr (acc ++ [h])) as (hs & E' & Ha' & Ec' & En' & H2). rewrite E'.
    exists (h :: hs). rewrite <- app_assoc. split; [reflexivity|]. split; [constructor; auto|]. cbn [flat_map concat]. rewrite map_app, Ec, Ec'. split; [reflexivity|].
    split; [apply Forall_app; auto|constructor; auto].
Qed.
Lemma imputed_complete f h : in_range f -> fImputeMissing f = Ok h ->
  fName h = fName f /\ is_numerical h = is_numerical f /\ fLength h = fLength f /\ categories h = categories f /\ aligned h /\
  (forall i, value_at h i <> Some VMissing) /\ (forall i v, value_at f i = Some v -> v <> VMissing -> value_at h i = Some v).
Proof.
  intros [Ha Hr] E. destruct f as [f|f]; cbn in Ha, Hr; cbn [fImputeMissing] in E.
  - rewrite nImpute_ok in E by exact Ha. cbn [bind] in E. inversion E; subst h; clear E. cbn [fName is_numerical fLength categories aligned value_at nMissing nData nName].
    unfold nLength. cbn [nMissing nData]. rewrite repeat_length. repeat split; auto.
    + unfold fill. rewrite map_length, combine_length. lia.
    + intros i. destruct (nth_error (repeat false (length (nMissing f))) i) as [m|] eqn:Em; [|discriminate].
      assert (Hi : i < length (nMissing f)) by (apply nth_error_some_lt in Em; rewrite repeat_length in Em; exact Em). rewrite nth_error_repeat in Em by exact Hi. inversion Em; subst m.
      destruct (nth_error (fill _ (nMissing f) (nData f)) i); discriminate.
    + intros i v Hv Hn. destruct (nth_error (nMissing f) i) as [[]|] eqn:Em; try discriminate; destruct (nth_error (nData f) i) as [x|] eqn:Ex; try discriminate; inversion Hv; subst v; [congruence|].
      rewrite nth_error_repeat by (eapply nth_error_some_lt; eauto). rewrite nth_error_fill by exact Ha. rewrite Em, Ex. reflexivity.
  - destruct (cImpute_ok f Ha Hr) as (k & Ek & _). rewrite Ek in E. cbn [bind] in E. inversion E; subst h; clear E.
    cbn [fName is_numerical fLength categories aligned value_at cMissing cData cName cMap]. unfold cLength. cbn [cMissing cData]. rewrite repeat_length. repeat split; auto.
    + unfold fill. rewrite map_length, combine_length. lia.
    + intros i. destruct (nth_error (repeat false (length (cMissing f))) i) as [m|] eqn:Em; [|discriminate].
      assert (Hi : i < length (cMissing f)) by (apply nth_error_some_lt in Em; rewrite repeat_length in Em; exact Em). rewrite nth_error_repeat in Em by exact Hi. inversion Em; subst m.
      destruct (nth_error (fill _ (cMissing f) (cData f)) i) as [c|]; [|discriminate]. destruct (nth_error (cmBack (cMap f)) c); discriminate.
    + intros i v Hv Hn. destruct (nth_error (cMissing f) i) as [[]|] eqn:Em; try discriminate; destruct (nth_error (cData f) i) as [c|] eqn:Ec; try discriminate.
      * inversion Hv; subst v. congruence.
      * rewrite nth_error_repeat by (eapply nth_error_some_lt; eauto). rewrite nth_error_fill by exact Ha. rewrite Em, Ec. exact Hv.
Qed.
Lemma svm_raw_ok itoa fmtF target i : aligned target -> i < fLength target ->
  exists s, target_raw itoa fmtF target i = Some s /\ svm_target_raw itoa fmtF target i = Ok s.
Proof.
  intros Ha Hi. destruct target as [f|f]; cbn in Ha, Hi; unfold nLength, cLength in Hi.
  - destruct (nth_error (nData f) i) as [x|] eqn:Ex; [|apply nth_error_None in Ex; lia].
    cbn [target_raw svm_target_raw]. unfold nGet. rewrite Ex, (get_nth _ _ Ex). cbn [bind option_map]. eauto.
  - destruct (nth_error (cData f) i) as [c|] eqn:Ec; [|apply nth_error_None in Ec; lia].
    cbn [target_raw svm_target_raw]. unfold cGeti. rewrite Ec, (get_nth _ _ Ec). cbn [bind option_map]. eauto.
Qed.
Lemma encoded_numerical hs : Forall (fun h => is_numerical h = true) hs -> flat_map encoded hs = hs.
Proof. induction 1 as [|h hs Hh H IH]; [reflexivity|]. cbn [flat_map]. destruct h; [|discriminate]. cbn. f_equal. exact IH. Qed.
Lemma all_but_nth {A} t : forall (l : list A) x, nth_error l t = Some x -> firstn t (all_but t l) ++ [x] ++ skipn t (all_but t l) = l.
Proof.
  intros l x H. unfold all_but. assert (Hl : t < length l) by (eapply nth_error_some_lt; eauto).
  rewrite firstn_app, firstn_firstn, Nat.min_id, firstn_length, Nat.min_l, Nat.sub_diag by lia. rewrite firstn_O, app_nil_r.
  rewrite skipn_app, firstn_length, Nat.min_l, Nat.sub_diag by lia. rewrite skipn_firstn_comm, Nat.sub_diag, firstn_O. rewrite skipn_O. cbn [app].
  clear Hl. revert l H. induction t as [|t IH]; intros [|a l] H; try discriminate; cbn in H |- *; [congruence|]. f_equal. apply IH. exact H.
Qed.

(** The listed cases are written, with the numbers of all other features, and the target's
    number even where it is missing.  Afterwards no other feature of the caller's matrix has
    a missing value: the holes were filled in place. *)
Theorem C104_cases_written_partial : forall PF itoa Atoi fmtF fm targetn t target colss n cases,
  PF "0" = Some f0 ->
  assoc targetn (fmMap fm) = Some t -> nth_error (fmData fm) t = Some target ->
  Forall (fun f => in_range f /\ fLength f = n) (all_but t (fmData fm)) -> aligned target -> fLength target = n ->
  (** a categorical feature without categories among numerical ones panics *)
  Forall (fun f => is_numerical f = true) (all_but t (fmData fm)) \/ Exists (fun f => categories f <> []) (all_but t (fmData fm)) ->
  cases <> [] -> (forall i, In i cases -> i < n) ->
  Forall2 exported (all_but t (fmData fm)) colss ->
  (forall k, 0 < k <= length (concat colss) -> Atoi (B (itoa k)) = Some (Z.of_nat k) /\ bare (itoa k) /\ no ":" (B (itoa k))) ->
  (forall x, In x (concat (concat colss)) -> PF (fmtF x) = Some x /\ bare (fmtF x) /\ no ":" (B (fmtF x))) ->
  (forall i s, target_raw itoa fmtF target i = Some s -> bare s) ->
  exists out fm1 fm2, WriteLibSvmCases itoa fmtF fm cases targetn = Ok (Some (fm1, out)) /\ ParseLibSVM PF itoa Atoi out = Ok fm2 /\
    Forall (fun f => fLength f = length cases) (fmData fm2) /\
    length (fmData fm2) <= S (length (concat colss)) /\
    (forall j col r i v, nth_error (concat colss) j = Some col -> nth_error cases r = Some i -> nth_error col i = Some v ->
       match nth_error (fmData fm2) (S j) with
       | Some f => is_numerical f = true /\ value_at f r = Some (VNum (if feqb v f0 then f0 else v))
       | None => feqb v f0 = true
       end) /\
    (exists f first, nth_error (fmData fm2) 0 = Some f /\ target_raw itoa fmtF target (hd 0 cases) = Some first /\
       forall r i s, nth_error cases r = Some i -> target_raw itoa fmtF target i = Some s ->
       (In "."%char (B first) -> value_at f r = Some (entry_value PF s)) /\
       (~ In "."%char (B first) -> is_token s /\ value_at f r = Some VMissing \/ ~ is_token s /\ value_at f r = Some (VCat s))) /\
    (** the caller's matrix *)
    fmMap fm1 = fmMap fm /\ fmLabels fm1 = fmLabels fm /\ nth_error (fmData fm1) t = Some target /\
    Forall2 (fun f h => fName h = fName f /\ is_numerical h = is_numerical f /\ (forall i v, value_at f i = Some v -> v <> VMissing -> value_at h i = Some v)) (fmData fm) (fmData fm1) /\
    (forall k h, nth_error (fmData fm1) k = Some h -> k <> t -> forall i, value_at h i <> Some VMissing).
Proof.
  intros PF itoa Atoi fmtF fm targetn t target colss n cases PF0 Ht Htar Hf Ha Hn Hkind Hne Hcases Hex Hk Hx Hbare.
  assert (Hr : Forall in_range (all_but t (fmData fm))) by (eapply Forall_impl; [|exact Hf]; cbn; tauto).
  destruct (impute_in_place _ _ Hr Hex []) as (hs & Ei & Hal & Ecols & Hnum & Himp).
  set (texts := fun i => match target_raw itoa fmtF target i with Some s => s | None => "" end).
  assert (Hlen : Forall (fun c => length c = n) (concat colss)).
  { clear - Hf Hex. induction Hex as [|f cols fs colss He H IH]; cbn [concat]; [constructor|]. apply Forall_cons_iff in Hf as [[Hi Hl] Hf].
    apply Forall_app. split; [eapply exported_length; eauto|auto]. }
  assert (Henc : exists e, (if existsb (fun f => 0 <? fNCats f) (all_but t (fmData fm)) then fmEncodeToNum (mkFM hs (fmMap (without t fm)) (fmLabels fm)) else Ok (mkFM hs (fmMap (without t fm)) (fmLabels fm))) = Ok e /\ fmData e = flat_map encoded hs).
  { destruct (existsb (fun f => 0 <? fNCats f) (all_but t (fmData fm))) eqn:Ee.
    - rewrite fmEncodeToNum_ok by exact Hal. eexists. split; [reflexivity|]. apply (add_columns_data (flat_map encoded hs) (mkFM [] [] (fmLabels fm))).
    - eexists. split; [reflexivity|]. cbn [fmData]. symmetry. apply encoded_numerical.
      destruct Hkind as [Hall|Hsome].
      + clear - Himp Hall Hr. induction Himp as [|f h fs hs E H IH]; [constructor|]. apply Forall_cons_iff in Hall as [A1 A2]. apply Forall_cons_iff in Hr as [R1 R2].
        constructor; [|auto]. destruct (imputed_complete f h R1 E) as (_ & X & _). congruence.
      + exfalso. apply Exists_exists in Hsome as (f & Hin & Hc). assert (X : existsb (fun f => 0 <? fNCats f) (all_but t (fmData fm)) = true); [|congruence].
        apply existsb_exists. exists f. split; [exact Hin|]. apply Nat.ltb_lt. destruct f as [f|f]; cbn in Hc |- *; [congruence|]. unfold NCats. destruct (cmBack (cMap f)); [congruence|cbn; lia]. }
  destruct Henc as (e & Ee & Ed).
  assert (EW : WriteLibSvmCases itoa fmtF fm cases targetn =
    Ok (Some (mkFM (firstn t hs ++ [target] ++ skipn t hs) (fmMap fm) (fmLabels fm),
              concat (map (fun i => csv_write " " (map B (texts i :: map (entry_text itoa fmtF) (row_entries 0 i (concat colss))))) cases)))).
  { unfold WriteLibSvmCases. rewrite Ht, (get_nth _ _ Htar). cbn [bind]. unfold fmImputeMissing. cbn [fmData fmMap fmLabels without].
    fold (all_but t (fmData fm)). rewrite Ei. cbn [bind app fmData]. cbn [fmMap without] in Ee. fold (all_but t (fmData fm)) in Ee. rewrite Ee. cbn [bind]. rewrite Ed.
    rewrite (svm_write_ok itoa fmtF _ texts).
    - cbn [bind]. rewrite Ecols. reflexivity.
    - intros i Hi. destruct (svm_raw_ok itoa fmtF target i Ha ltac:(rewrite Hn; auto)) as (s & E1 & E2). unfold texts. rewrite E1. exact E2.
    - exact Hnum.
    - intros i Hi. rewrite Ecols. eapply Forall_impl; [|exact Hlen]. cbn. intros c ->. auto. }
  destruct (svm_read_back PF itoa Atoi fmtF texts (concat colss) n cases PF0 Hk Hx Hlen) as (fm2 & EP & HL & Hw1 & _ & Hcol & f & Ef & HT).
  { intros i Hi. split; [auto|]. destruct (svm_raw_ok itoa fmtF target i Ha ltac:(rewrite Hn; auto)) as (s & E1 & E2). unfold texts. rewrite E1. eauto. }
  { exact Hne. }
  eexists. eexists. exists fm2. split; [exact EW|]. split; [exact EP|]. split; [exact HL|]. split; [exact Hw1|]. split; [exact Hcol|]. split.
  { destruct cases as [|i0 cases']; [congruence|]. cbn [hd] in HT |- *.
    destruct (svm_raw_ok itoa fmtF target i0 Ha ltac:(rewrite Hn; apply Hcases; left; auto)) as (first & F1 & _). exists f, first. split; [exact Ef|]. split; [exact F1|].
    intros r i s Hri Hs. specialize (HT r i Hri). unfold texts in HT. rewrite F1, Hs in HT. exact HT. }
  cbn [fmMap fmLabels fmData].
  assert (Hlh : length hs = length (all_but t (fmData fm))) by (clear - Himp; induction Himp; cbn; congruence).
  assert (Htl : t <= length hs).
  { rewrite Hlh. unfold all_but. rewrite app_length, firstn_length. apply nth_error_some_lt in Htar. lia. }
  split; [reflexivity|]. split; [reflexivity|]. split.
  { rewrite nth_error_app2 by (rewrite firstn_length; lia). rewrite firstn_length, Nat.min_l, Nat.sub_diag by lia. reflexivity. }
  split.
  - rewrite <- (all_but_nth t (fmData fm) target Htar) at 1.
    assert (G : Forall2 (fun f h => fName h = fName f /\ is_numerical h = is_numerical f /\ (forall i v, value_at f i = Some v -> v <> VMissing -> value_at h i = Some v)) (all_but t (fmData fm)) hs).
    { clear - Himp Hr. induction Himp as [|f h fs hs E H IH]; constructor.
      - apply Forall_cons_iff in Hr as [R1 R2]. destruct (imputed_complete f h R1 E) as (A & C & _ & _ & _ & _ & D). auto.
      - apply IH. apply Forall_cons_iff in Hr. tauto. }
    assert (G2 : forall (P : feature -> feature -> Prop) t l l', Forall2 P l l' -> Forall2 P (firstn t l) (firstn t l') /\ Forall2 P (skipn t l) (skipn t l')).
    { clear. intros P. induction t as [|t IH]; intros l l' H; [split; [constructor|exact H]|]. destruct H; cbn; [split; constructor|]. destruct (IH _ _ H0). split; [constructor; auto|auto]. }
    destruct (G2 _ t _ _ G) as [G3 G4]. apply Forall2_app; [exact G3|]. apply Forall2_app; [|exact G4]. constructor; [|constructor]. auto.
  - intros k h Hkh Hkt.
    assert (Hin : In h hs).
    { apply nth_error_In in Hkh as X. destruct (lt_eq_lt_dec k t) as [[C|C]|C]; [|congruence|].
      - rewrite nth_error_app1 in Hkh by (rewrite firstn_length; lia). rewrite <- (firstn_skipn t hs). apply in_or_app. left. eapply nth_error_In; eauto.
      - rewrite nth_error_app2 in Hkh by (rewrite firstn_length; lia). rewrite firstn_length, Nat.min_l in Hkh by lia.
        replace (k - t) with (S (k - t - 1)) in Hkh by lia. cbn [app nth_error] in Hkh. rewrite <- (firstn_skipn t hs). apply in_or_app. right. eapply nth_error_In; eauto. }
    clear - Hin Himp Hr. induction Himp as [|f h' fs hs E H IH]; [destruct Hin|]. apply Forall_cons_iff in Hr as [R1 R2]. destruct Hin as [<-|Hin]; [|auto].
    destruct (imputed_complete f h' R1 E) as (_ & _ & _ & _ & _ & X & _). exact X.
Qed.
Print Assumptions C104_cases_written_partial.

Example C104_example : exists fm1 out, WriteLibSvmCases svm_itoa svm_fmt svm_fm [4; 2] "N:y" = Ok (Some (fm1, out)) /\
  T out = T (svm_lines ["1 2:1 4:2"; "0 2:1 4:2"]) /\
  option_map (fun f => value_at f 4) (nth_error (fmData fm1) 0) = Some (Some (VCat "b")).
Proof. eexists. eexists. split; [vm_compute; reflexivity|]. split; reflexivity. Qed.
(** The caller's matrix is not what it was: missing values are missing no more. *)
Theorem C104_matrix_changed_refuted : exists fm1 out, WriteLibSvmCases svm_itoa svm_fmt svm_fm [0] "N:y" = Ok (Some (fm1, out)) /\
  option_map (fun f => value_at f 4) (nth_error (fmData svm_fm) 0) = Some (Some VMissing) /\
  option_map (fun f => value_at f 4) (nth_error (fmData fm1) 0) = Some (Some (VCat "b")).
Proof. eexists. eexists. split; [vm_compute; reflexivity|]. split; reflexivity. Qed.
(** A missing numerical target is written as the number 0. *)
Theorem C104_missing_target_refuted : exists fm1 out, WriteLibSvmCases svm_itoa svm_fmt svm_fm [2] "N:z" = Ok (Some (fm1, out)) /\
  option_map (fun f => value_at f 2) (nth_error (fmData svm_fm) 2) = Some (Some VMissing) /\ T out = T (svm_lines ["0 2:1"]).
Proof. eexists. eexists. split; [vm_compute; reflexivity|]. split; reflexivity. Qed.
(** A categorical feature without categories (all of its cases missing) beside numerical
    features only: a panic. *)
Theorem C104_no_categories_refuted :
  WriteLibSvmCases svm_itoa svm_fmt (mkFM [FNum (mkNum [f1] [false] "N:y" false); FCat (mkCat emptyCM [0] [true] "C:x" false true)] [("C:x", 1); ("N:y", 0)] ["1"]) [0] "N:y" = Panic.
Proof. vm_compute. reflexivity. Qed.
Print Assumptions C104_matrix_changed_refuted.
Print Assumptions C104_missing_target_refuted.
Print Assumptions C104_no_categories_refuted.
Example C104_applies : let cases := [4; 2] in
  Exists (fun f => categories f <> []) (all_but 1 (fmData svm_fm)) /\ (forall i, In i cases -> i < 5) /\
  exists target, nth_error (fmData svm_fm) 1 = Some target /\ aligned target /\ fLength target = 5 /\
    forall i s, target_raw svm_itoa svm_fmt target i = Some s -> bare s.
Proof.
  cbv zeta. split; [constructor; discriminate|]. split; [cbn; lia|]. eexists. split; [reflexivity|]. split; [reflexivity|]. split; [reflexivity|].
  assert (W : forall s, s = "9.5" \/ s = "1" \/ s = "0" -> bare s).
  { assert (S0 : forall c s, In c (B s) -> forallb (fun c => negb (is_space c) && negb (Ascii.eqb c quote)) (B s) = true -> is_space c = false /\ c <> quote).
    { intros c s Hc H. rewrite forallb_forall in H. specialize (H c Hc). apply andb_prop in H as [H1 H2].
      destruct (Ascii.eqb_spec c quote); [discriminate|]. destruct (is_space c); [discriminate|]. auto. }
    intros s [-> | [-> | ->]]; (split; [split; [discriminate|]|split; [|discriminate]]); apply Forall_forall; intros c Hc; eapply S0; eauto; reflexivity. }
  intros i s H. apply W. cbn [target_raw nData] in H.
  destruct i as [|[|[|[|[|[|i]]]]]]; cbn [nth_error option_map] in H; try discriminate; inversion H; subst s; vm_compute; auto.
Qed.

(** ** C105 *)
Lemma fill_none {A} (v : A) : forall d, fill v (repeat false (length d)) d = d.
Proof. unfold fill. induction d as [|x d IH]; cbn; [reflexivity|]. f_equal. exact IH. Qed.
Lemma upd_id {A} : forall (l : list A) k x, nth_error l k = Some x -> set l k x = Ok l.
Proof.
  intros l k x H. rewrite set_ok by (eapply nth_error_some_lt; eauto). f_equal.
  revert k H. induction l as [|a l IH]; intros [|k] H; cbn in H |- *; try discriminate; [congruence|]. f_equal. auto.
Qed.
(** Once the flags are down, imputing changes nothing *)
Lemma impute_clean s k d n : shMasks s = [repeat false n] -> nth_error (shCols s) k = Some (d, 0) -> length d = n -> impute_shared k s = Ok s.
Proof.
  intros Hm Hc Hn. unfold impute_shared. rewrite (get_nth _ _ Hc). cbn [bind]. rewrite Hm. cbn [get nth_error bind].
  rewrite nImpute_ok by (cbn [nData nMissing]; rewrite repeat_length; exact Hn). cbn [bind nData nMissing]. rewrite repeat_length. rewrite <- Hn, fill_none, Hn.
  rewrite (upd_id _ _ _ Hc). cbn. destruct s; cbn in *. rewrite Hm. reflexivity.
Qed.
Lemma impute_rest : forall m lo s n, shMasks s = [repeat false n] -> (forall k, lo <= k < lo + m -> exists d, nth_error (shCols s) k = Some (d, 0) /\ length d = n) ->
  for_up m lo impute_shared s = Ok s.
Proof.
  induction m as [|m IH]; intros lo s n Hm H; [reflexivity|]. cbn [for_up]. destruct (H lo) as (d & Hd & Hn); [lia|].
  rewrite (impute_clean s lo d n) by auto. cbn [bind]. apply (IH _ _ n); [exact Hm|]. intros k Hk. apply H. lia.
Qed.

(** nfold encodes first and imputes afterwards.  Of a feature with more than two categories
    only the first column gets a mean; the others keep, in the missing cases, whatever
    category number is stored there (0 for a feature that was read); and the original
    feature, written to the next file, now has that category in those cases. *)
Theorem C105_shared_flags_refuted : forall f, in_range (FCat f) -> 2 < length (cmBack (cMap f)) -> 
  exists s0 s1 g, share_cat f = Ok s0 /\ impute_all_shared s0 = Ok s1 /\ after_shared f s1 = Ok g /\ length (shCols s1) = length (cmBack (cMap f)) /\
    forall i c, nth_error (cMissing f) i = Some true -> nth_error (cData f) i = Some c ->
      (exists d, nth_error (shCols s1) 0 = Some (d, 0) /\
         nth_error d i = Some (fmean (present (cMissing f) (map (fun c => if c =? 0 then f1 else f0) (cData f))))) /\
      (forall j, 0 < j < length (cmBack (cMap f)) -> exists d, nth_error (shCols s1) j = Some (d, 0) /\ nth_error d i = Some (if c =? j then f1 else f0)) /\
      value_at (FCat f) i = Some VMissing /\ (forall t, nth_error (cmBack (cMap f)) c = Some t -> value_at (FCat g) i = Some (VCat t)).
Proof.
  intros f [Ha Hr] Hn. cbn in Ha.
  set (C := map (fun p : nat * string => (map (hot f1 f0 (fst p)) (cData f), 0)) (numbered (cmBack (cMap f)))).
  assert (E0 : share_cat f = Ok (mkShared [cMissing f] C)).
  { unfold share_cat. rewrite cEncodeToNum_many by auto. cbn [bind]. rewrite map_map. reflexivity. }
  assert (HC : forall j, j < length (cmBack (cMap f)) -> nth_error C j = Some (map (fun c => if c =? j then f1 else f0) (cData f), 0)).
  { intros j Hj. unfold C. destruct (nth_error (numbered (cmBack (cMap f))) j) as [p|] eqn:Ep; [|apply nth_error_None in Ep; rewrite numbered_len in Ep; lia].
    rewrite nth_error_map, Ep. cbn. apply numbered_nth in Ep as [E _]. rewrite E. do 2 f_equal. apply map_ext. intros c. unfold hot. rewrite Nat.eqb_sym. reflexivity. }
  assert (HL : length C = length (cmBack (cMap f))) by (unfold C; rewrite map_length, numbered_len; reflexivity).
  set (d0 := map (fun c => if c =? 0 then f1 else f0) (cData f)).
  set (n := length (cMissing f)).
  set (s1 := mkShared [repeat false n] (upd C 0 (fill (fmean (present (cMissing f) d0)) (cMissing f) d0, 0))).
  assert (E1 : impute_all_shared (mkShared [cMissing f] C) = Ok s1).
  { unfold impute_all_shared. cbn [shCols]. rewrite HL. destruct (length (cmBack (cMap f))) as [|m] eqn:Em; [lia|]. cbn [for_up].
    assert (S1 : impute_shared 0 (mkShared [cMissing f] C) = Ok s1).
    { unfold impute_shared. cbn [shCols shMasks]. rewrite (get_nth _ _ (HC 0 ltac:(lia))). fold d0. cbn [bind get nth_error].
      rewrite nImpute_ok by (cbn [nData nMissing]; unfold d0; rewrite map_length; exact Ha). cbn [bind nData nMissing].
      rewrite set_ok by lia. reflexivity. }
    rewrite S1. cbn [bind]. apply (impute_rest m 1 s1 n); [reflexivity|]. intros k Hk. unfold s1. cbn [shCols].
    rewrite nth_error_upd_neq by lia. rewrite HC by lia. eexists. split; [reflexivity|]. rewrite map_length. exact Ha. }
  exists (mkShared [cMissing f] C), s1. eexists. split; [exact E0|]. split; [exact E1|]. split; [reflexivity|]. cbn [shCols s1].
  split; [unfold s1; cbn [shCols]; rewrite upd_length; exact HL|].
  intros i c Hi Hc. split; [|split; [|split]].
  - eexists. split; [apply nth_error_upd_eq; lia|]. rewrite nth_error_fill by (unfold d0; rewrite map_length; exact Ha). rewrite Hi.
    assert (X : exists x, nth_error d0 i = Some x) by (unfold d0; rewrite nth_error_map, Hc; cbn; eauto). destruct X as [x ->]. reflexivity.
  - intros j Hj. unfold s1. cbn [shCols]. rewrite nth_error_upd_neq by lia. rewrite HC by lia. eexists. split; [reflexivity|]. rewrite nth_error_map, Hc. reflexivity.
  - cbn. rewrite Hi, Hc. reflexivity.
  - intros t Ht. cbn [value_at cMissing cData cMap]. rewrite nth_error_repeat by (eapply nth_error_some_lt; eauto). rewrite Hc, Ht. reflexivity.
Qed.
Print Assumptions C105_shared_flags_refuted.

Example C105_example : let f := mkCat (mkCM [("c", 2); ("b", 1); ("a", 0)] ["a"; "b"; "c"]) [1; 1; 2; 0] [false; false; false; true] "C:x" false true in
  exists s0 s1 g, share_cat f = Ok s0 /\ impute_all_shared s0 = Ok s1 /\ after_shared f s1 = Ok g /\
  map fst (shCols s1) = [[f0; f0; f0; f0]; [f1; f1; f0; f0]; [f0; f0; f1; f0]] /\ value_at (FCat f) 3 = Some VMissing /\ value_at (FCat g) 3 = Some (VCat "a").
Proof. cbv zeta. eexists. eexists. eexists. split; [vm_compute; reflexivity|]. split; [vm_compute; reflexivity|]. repeat split; vm_compute; reflexivity. Qed.

(** A target with more than two categories: its column is gone after the encoding and
    nothing is written. *)
Theorem C105_multiclass_target_refuted : forall itoa fmtF fm cases targetn,
  Forall aligned (fmData fm) ->
  (** every feature called so has more than two categories, and no other gives a column called so *)
  (forall f g, In f (fmData fm) -> In g (encoded f) -> fName g <> targetn) ->
  (exists f, In f (fmData fm) /\ 2 < length (categories f)) ->
  nfold_libsvm itoa fmtF fm cases targetn = Ok None.
Proof.
  intros itoa fmtF fm cases targetn Ha Hno (f & Hf & Hc). unfold nfold_libsvm.
  assert (E : existsb (fun f => 0 <? fNCats f) (fmData fm) = true).
  { apply existsb_exists. exists f. split; [exact Hf|]. apply Nat.ltb_lt. destruct f as [f|f]; cbn in Hc |- *; [lia|]. unfold NCats. lia. }
  rewrite E, fmEncodeToNum_ok by exact Ha. cbn [bind]. unfold WriteLibSvmCases.
  assert (N : assoc targetn (fmMap (fold_left (fun out f => add_column f out) (flat_map encoded (fmData fm)) (mkFM [] [] (fmLabels fm)))) = None).
  { assert (G : forall fs out, (forall g, In g fs -> fName g <> targetn) -> assoc targetn (fmMap out) = None ->
      assoc targetn (fmMap (fold_left (fun out f => add_column f out) fs out)) = None).
    { clear. induction fs as [|g fs IH]; intros out H H0; cbn [fold_left]; [exact H0|]. apply IH; [intros; apply H; right; auto|].
      cbn [add_column fmMap assoc]. destruct (String.eqb_spec targetn (fName g)) as [E|E]; [exfalso; apply (H g); [left; auto|auto]|exact H0]. }
    apply G; [|reflexivity]. intros g Hg. apply in_flat_map in Hg as (f' & Hf' & Hg). eapply Hno; eauto. }
  rewrite N. reflexivity.
Qed.
Print Assumptions C105_multiclass_target_refuted.
Example C105_multiclass_example : nfold_libsvm svm_itoa svm_fmt svm_fm [0; 1] "C:x" = Ok None /\
  Forall aligned (fmData svm_fm) /\ (forall f g, In f (fmData svm_fm) -> In g (encoded f) -> fName g <> "C:x") /\ exists f, In f (fmData svm_fm) /\ fName f = "C:x" /\ 2 < length (categories f).
Proof.
  split; [vm_compute; reflexivity|]. split; [repeat constructor|]. split; [|eexists; split; [left; reflexivity|split; [reflexivity|cbn; lia]]].
  intros f g Hf Hg E. assert (X : In "C:x" (map fName (flat_map encoded (fmData svm_fm)))) by (apply in_map_iff; exists g; split; [exact E|]; apply in_flat_map; eauto).
  vm_compute in X. intuition discriminate.
Qed.
