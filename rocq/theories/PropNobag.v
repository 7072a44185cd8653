(** Property C74: the training cases without bagging. *)
From Verif Require Import Go GoLemmas F64 ModelFeature ModelSample SampleProofs PropSample ModelFold PropFold.
Local Open Scope string_scope.
Local Open Scope nat_scope.
Local Open Scope list_scope.

(** The missing mask of a feature; a case can train if its entry is [false]. *)
Definition mask_of (f : feature) : list bool := match f with FNum f => nMissing f | FCat f => cMissing f end.
Definition usable (f : feature) (i : nat) : bool :=
  match nth_error (mask_of f) i with Some m => negb m | None => false end.

Lemma fIsMissing_mask f i : fIsMissing f i = get (mask_of f) i.
Proof. destruct f; reflexivity. Qed.

Lemma present_loop f n : n <= length (mask_of f) ->
  for_up n 0 (fun i cases => let* m := fIsMissing f i in Ok (if m then cases else cases ++ [i])) [] = Ok (filter (usable f) (seq 0 n)).
Proof.
  intros Hn.
  destruct (@for_up_total _ (fun k cs => cs = filter (usable f) (seq 0 k))
    (fun i cases => let* m := fIsMissing f i in Ok (if m then cases else cases ++ [i])) n 0 []) as (cs & E & ->); auto.
  intros i cs Hi ->. rewrite fIsMissing_mask. destruct (@get_ok _ (mask_of f) i) as (m & -> & En); [lia|]. cbn [bind].
  eexists; split; [reflexivity|]. assert (Hu : usable f i = negb m) by (unfold usable; rewrite En; auto).
  rewrite seq_S, filter_app. cbn [filter plus]. rewrite Hu. destruct m; cbn [negb]; rewrite ?app_nil_r; auto.
Qed.
Lemma count_loop f n : n <= length (mask_of f) -> count_nonmissing f n = Ok (length (filter (usable f) (seq 0 n))).
Proof.
  intros Hn. unfold count_nonmissing.
  destruct (@for_up_total _ (fun k c => c = length (filter (usable f) (seq 0 k)))
    (fun i n => let* m := fIsMissing f i in Ok (if m then n else n + 1)) n 0 0) as (cs & E & ->); auto.
  intros i cs Hi ->. rewrite fIsMissing_mask. destruct (@get_ok _ (mask_of f) i) as (m & -> & En); [lia|]. cbn [bind].
  eexists; split; [reflexivity|]. assert (Hu : usable f i = negb m) by (unfold usable; rewrite En; auto).
  rewrite seq_S, filter_app, app_length. cbn [filter plus]. rewrite Hu. destruct m; cbn [negb length]; lia.
Qed.
Lemma filter_length_le {A} p (l : list A) : length (filter p l) <= length l.
Proof. induction l as [|a l IH]; cbn; auto. destruct (p a); cbn; lia. Qed.
Lemma filter_all {A} p (l : list A) : length (filter p l) = length l -> filter p l = l.
Proof.
  induction l as [|a l IH]; cbn; auto. destruct (p a); cbn; intros H.
  - f_equal. apply IH. lia.
  - pose proof (filter_length_le p l). lia.
Qed.

Section C74.
  Variable f : feature.
  Variable rnd : nat -> nat.
  Let nCases := length (mask_of f).
  Let all := filter (usable f) (seq 0 nCases).

  (** The case list for any -nSamples that is not the number of cases. *)
  Lemma nobag_resampled nSamples : nSamples <> nCases ->
    exists cs, nobag_cases rnd f nCases (length all) nSamples = Ok cs
      /\ length cs = Nat.min nSamples (length all) /\ exists rest, Permutation all (cs ++ rest).
  Proof.
    intros Hne. unfold nobag_cases, nobag_initial.
    assert (length all <= nCases) by (unfold all; rewrite <- (seq_length nCases 0) at 2; apply filter_length_le).
    rewrite present_loop by auto. cbn [bind].
    destruct (Nat.eqb_spec nSamples nCases) as [|_]; [contradiction|]. rewrite present_loop by auto. cbn [bind]. fold all.
    destruct (C13_sampleFirstN rnd all nSamples 0) as (d & k & -> & Hp & _ & _ & _ & Hk). cbn [bind].
    eexists; split; [reflexivity|]. rewrite (Hk eq_refl). split.
    - rewrite firstn_length, <- (Permutation_length Hp). lia.
    - exists (skipn (Nat.min nSamples (length all)) d). rewrite firstn_skipn. auto.
  Qed.

(** With -nSamples left at its default, which is the number of cases with a
    present target, every such case trains, once. *)
Theorem C74_default_uses_all_partial :
    exists nNonMissing cs, count_nonmissing f nCases = Ok nNonMissing
      /\ nobag_cases rnd f nCases nNonMissing nNonMissing = Ok cs
      /\ Permutation (filter (usable f) (seq 0 nCases)) cs.
  Proof.
    exists (length all). rewrite count_loop by auto. fold all.
    destruct (Nat.eq_dec (length all) nCases) as [E|E].
    - exists all. split; auto. split; auto. unfold nobag_cases, nobag_initial.
      rewrite present_loop by (fold nCases; lia). cbn [bind]. rewrite E, Nat.eqb_refl. auto.
    - destruct (nobag_resampled (length all) E) as (cs & Ec & Hl & rest & Hp). exists cs. split; auto. split; auto.
      apply Permutation_length in Hp as Hr. rewrite app_length in Hr.
      destruct rest; [rewrite app_nil_r in Hp; auto|cbn in Hr; lia].
  Qed.

(** With any other -nSamples than the number of cases, a list of that many
    distinct usable cases trains, all of them if there are not more. *)
Theorem C74_other_sizes_partial : forall nSamples, nSamples <> nCases ->
    exists cs, nobag_cases rnd f nCases (length (filter (usable f) (seq 0 nCases))) nSamples = Ok cs
      /\ length cs = Nat.min nSamples (length (filter (usable f) (seq 0 nCases)))
      /\ NoDup cs /\ forall c, In c cs -> usable f c = true.
  Proof.
    intros nSamples Hne. destruct (nobag_resampled nSamples Hne) as (cs & E & Hl & rest & Hp). exists cs. split; auto. split; auto.
    assert (Hnd : NoDup (cs ++ rest)) by (eapply Permutation_NoDup; eauto; apply NoDup_filter, seq_NoDup).
    apply nodup_app_iff' in Hnd. split; [tauto|]. intros c Hc.
    assert (In c all) by (eapply Permutation_in; [symmetry; eauto|apply in_or_app; auto]).
    unfold all in H. apply filter_In in H. tauto.
  Qed.

(** If -nSamples is the number of cases, all usable cases train exactly when
    none of them comes after the position given by their number. *)
Theorem C74_all_cases_asked : 
    exists cs, nobag_cases rnd f nCases (length (filter (usable f) (seq 0 nCases))) nCases = Ok cs
      /\ forall c, In c cs <-> usable f c = true /\ c < length (filter (usable f) (seq 0 nCases)).
  Proof.
    unfold nobag_cases, nobag_initial.
    assert (length all <= nCases) by (unfold all; rewrite <- (seq_length nCases 0) at 2; apply filter_length_le).
    rewrite present_loop by auto. cbn [bind]. rewrite Nat.eqb_refl. eexists; split; [reflexivity|].
    intros c. rewrite filter_In, in_seq. fold all. intuition lia.
  Qed.
End C74.

(** So a usable case after that position is lost: here case 2 of three. *)
Theorem C74_cases_lost_refuted : forall f rnd c,
  let nCases := length (mask_of f) in
  let nNonMissing := length (filter (usable f) (seq 0 nCases)) in
  usable f c = true -> nNonMissing <= c ->
  exists cs, nobag_cases rnd f nCases nNonMissing nCases = Ok cs /\ ~ In c cs.
Proof.
  cbv zeta. intros f rnd c Hu Hc. destruct (C74_all_cases_asked f rnd) as (cs & E & H). exists cs. split; auto.
  intros X. apply H in X. lia.
Qed.
Print Assumptions C74_default_uses_all_partial.
Print Assumptions C74_other_sizes_partial.
Print Assumptions C74_all_cases_asked.
Print Assumptions C74_cases_lost_refuted.

Definition bag_target : feature := FNum (mkNum [f0; f1; f1] [true; false; false] "N:t" true).
Example C74_example :
  nobag_cases (fun _ => 0) bag_target 3 2 2 = Ok [1; 2] /\
  nobag_cases (fun _ => 0) bag_target 3 2 3 = Ok [1] /\
  usable bag_target 2 = true /\ length (filter (usable bag_target) (seq 0 3)) <= 2.
Proof. split; [reflexivity|]. split; [reflexivity|]. split; [reflexivity|]. cbn. lia. Qed.
