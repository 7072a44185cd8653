(** Lemmas for C05-C10. *)
From Verif Require Import Go GoLemmas F64 ModelFeature FeatureSpec ModelSample SampleSpec SampleProofs.
Local Open Scope string_scope.
Local Open Scope nat_scope.
Local Open Scope list_scope.

(** ** Category maps *)

(** The invariant of a map built by lookups. *)
Record cm_ok (cm : catmap) : Prop := {
  cm_agree : forall v n, assoc v (cmMap cm) = Some n <-> nth_error (cmBack cm) n = Some v
}.

Lemma cm_ok_nodup cm : cm_ok cm -> NoDup (cmBack cm).
Proof.
  intros [H]. apply NoDup_nth_error. intros i j Hi E.
  destruct (nth_error (cmBack cm) i) as [v|] eqn:Ei.
  - symmetry in E. apply H in Ei. apply H in E. congruence.
  - apply nth_error_None in Ei. lia.
Qed.

Lemma cm_ok_empty : cm_ok emptyCM.
Proof. split. intros v n; cbn. destruct n; cbn; split; discriminate. Qed.

Lemma cm_ok_in cm v : cm_ok cm -> (In v (cmBack cm) <-> assoc v (cmMap cm) <> None).
Proof.
  intros [H]; split.
  - intros Hi. apply In_nth_error in Hi as [n Hn]. apply H in Hn. congruence.
  - destruct (assoc v (cmMap cm)) as [n|] eqn:E; [|congruence]. intros _.
    apply H in E. eapply nth_error_In; eauto.
Qed.

Lemma CatToNum_ok cm v cm' n :
  cm_ok cm -> CatToNum cm v = (cm', n) ->
  cm_ok cm' /\ nth_error (cmBack cm') n = Some v
  /\ (In v (cmBack cm) -> cm' = cm)
  /\ (~ In v (cmBack cm) -> cmBack cm' = cmBack cm ++ [v] /\ n = length (cmBack cm)).
Proof.
  intros Hok E. unfold CatToNum in E. destruct (assoc v (cmMap cm)) as [k|] eqn:Ea.
  - inversion E; subst; clear E. repeat split; auto.
    + apply Hok.
    + apply Hok.
    + apply Hok; auto.
    + exfalso. apply H. apply cm_ok_in; auto; congruence.
    + exfalso. apply H. apply cm_ok_in; auto; congruence.
  - inversion E; subst; clear E; cbn [cmMap cmBack].
    assert (Hni : ~ In v (cmBack cm)).
    { intros Hi. apply cm_ok_in in Hi; auto. }
    repeat split.
    + cbn. destruct (String.eqb_spec v0 v) as [->|Hne].
      * intros Hx; inversion Hx; subst. rewrite nth_error_app2, Nat.sub_diag; auto.
      * intros Hx. apply Hok in Hx. rewrite nth_error_app1; auto.
        eapply nth_error_some_lt; eauto.
    + cbn. intros Hx. destruct (lt_dec n (length (cmBack cm))) as [Hl|Hl].
      * rewrite nth_error_app1 in Hx by lia.
        destruct (String.eqb_spec v0 v) as [->|Hne].
        -- exfalso. apply Hni. eapply nth_error_In; eauto.
        -- apply Hok; auto.
      * rewrite nth_error_app2 in Hx by lia.
        destruct (n - length (cmBack cm)) as [|k] eqn:Ek.
        -- cbn in Hx. inversion Hx; subst. rewrite String.eqb_refl. f_equal; lia.
        -- cbn in Hx. destruct k; discriminate.
    + rewrite nth_error_app2, Nat.sub_diag; auto.
    + intros Hi; contradiction.
Qed.

Lemma CatToNum_extends cm v cm' n :
  CatToNum cm v = (cm', n) -> exists ext, cmBack cm' = cmBack cm ++ ext.
Proof.
  unfold CatToNum. destruct (assoc v (cmMap cm)); intros E; inversion E; subst; cbn.
  - exists []; rewrite app_nil_r; auto.
  - eauto.
Qed.

(** Histories. *)
Definition lookups (cm : catmap) (vs : list string) : catmap :=
  fold_left (fun cm v => fst (CatToNum cm v)) vs cm.

Lemma lookups_ok vs : forall cm, cm_ok cm -> cm_ok (lookups cm vs).
Proof.
  induction vs as [|v vs IH]; intros cm H; cbn; auto.
  apply IH. destruct (CatToNum cm v) as [cm' n] eqn:E. apply (CatToNum_ok _ _ _ _ H E).
Qed.

Lemma lookups_back vs : forall cm, cm_ok cm ->
  cmBack (lookups cm vs) = first_occurrences (cmBack cm) vs.
Proof.
  induction vs as [|v vs IH]; intros cm H; [reflexivity|].
  change (lookups cm (v :: vs)) with (lookups (fst (CatToNum cm v)) vs).
  cbn [first_occurrences].
  destruct (CatToNum cm v) as [cm' n] eqn:E. cbn [fst].
  destruct (CatToNum_ok _ _ _ _ H E) as (H' & _ & Hin & Hni).
  rewrite IH by auto.
  destruct (in_dec string_dec v (cmBack cm)) as [Hi|Hi].
  - rewrite Hin; auto.
  - destruct (Hni Hi) as [-> _]; auto.
Qed.

Lemma lookups_extends vs : forall cm, exists ext, cmBack (lookups cm vs) = cmBack cm ++ ext.
Proof.
  induction vs as [|v vs IH]; intros cm.
  - exists []; rewrite app_nil_r; auto.
  - change (lookups cm (v :: vs)) with (lookups (fst (CatToNum cm v)) vs).
    destruct (CatToNum cm v) as [cm' n] eqn:E. cbn [fst].
    destruct (CatToNum_extends _ _ _ _ E) as [e1 H1]. destruct (IH cm') as [e2 H2].
    exists (e1 ++ e2). rewrite H2, H1, app_assoc; auto.
Qed.

Lemma in_first_occurrences vs : forall seen w,
  In w (first_occurrences seen vs) <-> In w seen \/ In w vs.
Proof.
  induction vs as [|v vs IH]; intros seen w; cbn.
  - tauto.
  - destruct (in_dec string_dec v seen).
    + rewrite IH. intuition (subst; auto).
    + rewrite IH, in_app_iff. cbn. intuition.
Qed.

(** ** Missing tokens *)
Lemma lower_same a b : 97 <= nat_of_ascii b \/ nat_of_ascii b < 65 ->
  lower_ascii a = b <-> same_letter a b /\ lower_ascii b = b.
Proof.
  intros Hb. 
  assert (Ha : nat_of_ascii a < 256) by apply nat_ascii_bounded.
  unfold lower_ascii, same_letter. cbv zeta. split.
  - intros E. destruct ((65 <=? nat_of_ascii a) && (nat_of_ascii a <=? 90)) eqn:Ea.
    + apply andb_true_iff in Ea as [H1 H2]. apply Nat.leb_le in H1. apply Nat.leb_le in H2.
      assert (nat_of_ascii b = nat_of_ascii a + 32).
      { rewrite <- E. apply nat_ascii_embedding. lia. }
      split; [lia|]. destruct ((65 <=? nat_of_ascii b) && (nat_of_ascii b <=? 90)) eqn:Eb; auto.
      apply andb_true_iff in Eb as [H3 H4]. apply Nat.leb_le in H3. apply Nat.leb_le in H4. lia.
    + subst. rewrite Ea. split; auto.
  - intros [[E|[[E1 E2]|[E1 E2]]] Hl].
    + assert (a = b) by (rewrite <- (ascii_nat_embedding a), E, ascii_nat_embedding; auto).
      subst; auto.
    + replace (65 <=? nat_of_ascii a) with true by (symmetry; apply Nat.leb_le; lia).
      replace (nat_of_ascii a <=? 90) with true by (symmetry; apply Nat.leb_le; lia).
      cbn. rewrite <- E2. apply ascii_nat_embedding.
    + lia.
Qed.

(** Words whose letters are lower case or below 'A'. *)
Fixpoint lowword (t : string) : bool :=
  match t with
  | EmptyString => true
  | String b t' => ((97 <=? nat_of_ascii b) || (nat_of_ascii b <? 65)) && lowword t'
  end.

Lemma ToLower_same s : forall t, lowword t = true -> (ToLower s = t <-> same_word s t).
Proof.
  induction s as [|a s IH]; intros [|b t] Hl; cbn [lowword ToLower same_word] in *; try tauto; try (split; [discriminate|tauto]).
  apply andb_true_iff in Hl as [Hb Hl]. apply orb_true_iff in Hb.
  rewrite Nat.leb_le, Nat.ltb_lt in Hb.
  rewrite <- (IH t Hl). pose proof (lower_same a b Hb) as Hs.
  assert (Hlb : lower_ascii b = b).
  { unfold lower_ascii. cbv zeta.
    destruct ((65 <=? nat_of_ascii b) && (nat_of_ascii b <=? 90)) eqn:Eb; auto.
    apply andb_true_iff in Eb as [H3 H4]. apply Nat.leb_le in H3. apply Nat.leb_le in H4. lia. }
  split.
  - intros E; inversion E; subst. split; auto. apply Hs; auto.
  - intros [Hs1 Hs2]. rewrite Hs2. f_equal. apply Hs; auto.
Qed.

Lemma missing_token_spec v : missing_token v = true <-> is_token v.
Proof.
  unfold missing_token, is_token. cbv zeta.
  rewrite !orb_true_iff, !String.eqb_eq.
  rewrite !ToLower_same by reflexivity.
  split.
  - intros H. decompose [or] H; [exists ""|exists "?"|exists "nan"|exists "na"|exists "null"];
      (split; [cbn; tauto|assumption]).
  - intros (t & Hin & Ht). cbn [In] in Hin. decompose [or] Hin; subst; tauto.
Qed.

(** ** Appending *)
Definition appends (f : catF) (vs : list string) : catF := fold_left cAppend vs f.
Definition emptyCat (name : string) : catF := mkCat emptyCM [] [] name false false.

Definition stored (f : catF) (i : nat) (v : string) : Prop :=
  if missing_token v
  then nth_error (cMissing f) i = Some true /\ nth_error (cData f) i = Some 0
  else nth_error (cMissing f) i = Some false
       /\ exists c, nth_error (cData f) i = Some c /\ nth_error (cmBack (cMap f)) c = Some v.

Record hist_ok (vs : list string) (f : catF) : Prop := {
  ho_cm : cm_ok (cMap f);
  ho_len1 : length (cData f) = length vs;
  ho_len2 : length (cMissing f) = length vs;
  ho_st : forall i v, nth_error vs i = Some v -> stored f i v;
  ho_back : cmBack (cMap f) = first_occurrences [] (filter (fun v => negb (missing_token v)) vs);
  ho_has : cHas f = existsb missing_token vs
}.

Lemma first_occurrences_snoc vs : forall seen v,
  first_occurrences seen (vs ++ [v]) =
  let l := first_occurrences seen vs in if in_dec string_dec v l then l else l ++ [v].
Proof.
  induction vs as [|a vs IH]; intros seen v; cbn.
  - reflexivity.
  - destruct (in_dec string_dec a seen); apply IH.
Qed.

Lemma filter_snoc {A} (p : A -> bool) l x :
  filter p (l ++ [x]) = filter p l ++ (if p x then [x] else []).
Proof. rewrite filter_app; cbn. destruct (p x); auto. Qed.

Lemma existsb_snoc {A} (p : A -> bool) l x : existsb p (l ++ [x]) = existsb p l || p x.
Proof. rewrite existsb_app; cbn. rewrite orb_false_r; auto. Qed.

Lemma nth_error_snoc {A} (l : list A) x i y :
  nth_error (l ++ [x]) i = Some y ->
  (nth_error l i = Some y /\ i < length l) \/ (i = length l /\ y = x).
Proof.
  intros H. destruct (lt_dec i (length l)).
  - left. rewrite nth_error_app1 in H by lia. auto.
  - right. rewrite nth_error_app2 in H by lia.
    destruct (i - length l) as [|k] eqn:E; cbn in H.
    + inversion H; subst. split; auto; lia.
    + destruct k; discriminate.
Qed.

Lemma nth_error_snoc_last {A} (l : list A) x i : i = length l -> nth_error (l ++ [x]) i = Some x.
Proof. intros ->. rewrite nth_error_app2, Nat.sub_diag; auto. Qed.
Lemma nth_error_app_some {A} (l e : list A) i x :
  nth_error l i = Some x -> nth_error (l ++ e) i = Some x.
Proof. intros H. rewrite nth_error_app1; auto. eapply nth_error_some_lt; eauto. Qed.

Lemma appends_ok name vs : hist_ok vs (appends (emptyCat name) vs).
Proof.
  induction vs as [|v vs IH] using rev_ind.
  - split; cbn; auto. apply cm_ok_empty. intros [|i] v; discriminate.
  - unfold appends in *. rewrite fold_left_app. cbn [fold_left].
    set (f := fold_left cAppend vs (emptyCat name)) in *.
    destruct IH as [Hcm Hl1 Hl2 Hst Hback Hhas].
    unfold cAppend. destruct (missing_token v) eqn:Em.
    + split; cbn [cMap cData cMissing cHas]; auto.
      * rewrite !app_length, Hl1; auto.
      * rewrite !app_length, Hl2; auto.
      * intros i w Hi. apply nth_error_snoc in Hi as [[Hi Hlt]|[-> ->]].
        -- specialize (Hst i w Hi). unfold stored in *; cbn [cMap cData cMissing].
           destruct (missing_token w).
           ++ destruct Hst; split; apply nth_error_app_some; auto.
           ++ destruct Hst as (? & c & ? & ?); split; [apply nth_error_app_some; auto|].
              exists c; split; auto. apply nth_error_app_some; auto.
        -- unfold stored; cbn [cMap cData cMissing]. rewrite Em.
           split; apply nth_error_snoc_last; auto.
      * rewrite filter_snoc, Em; cbn. rewrite app_nil_r; auto.
      * rewrite existsb_snoc, Em, orb_true_r; auto.
    + destruct (CatToNum (cMap f) v) as [cm n] eqn:E.
      destruct (CatToNum_ok _ _ _ _ Hcm E) as (Hok' & Hn & Hin & Hni).
      destruct (CatToNum_extends _ _ _ _ E) as [ext Hext].
      split; cbn [cMap cData cMissing cHas]; auto.
      * rewrite !app_length, Hl1; auto.
      * rewrite !app_length, Hl2; auto.
      * intros i w Hi. apply nth_error_snoc in Hi as [[Hi Hlt]|[-> ->]].
        -- specialize (Hst i w Hi). unfold stored in *; cbn [cMap cData cMissing].
           destruct (missing_token w).
           ++ destruct Hst; split; apply nth_error_app_some; auto.
           ++ destruct Hst as (? & c & ? & ?); split; [apply nth_error_app_some; auto|].
              exists c; split; [apply nth_error_app_some; auto|].
              rewrite Hext. apply nth_error_app_some; auto.
        -- unfold stored; cbn [cMap cData cMissing]. rewrite Em.
           split; [apply nth_error_snoc_last; auto|].
           exists n; split; auto. apply nth_error_snoc_last; auto.
      * rewrite filter_snoc, Em; cbn. rewrite first_occurrences_snoc, <- Hback. cbn.
        destruct (in_dec string_dec v (cmBack (cMap f))) as [Hi|Hi].
        -- rewrite Hin; auto.
        -- apply Hni; auto.
      * rewrite existsb_snoc, Em, orb_false_r; auto.
Qed.

Lemma stored_GetStr f i v : stored f i v ->
  cGetStr f i = Ok (if missing_token v then "NA" else v).
Proof.
  unfold stored, cGetStr. destruct (missing_token v).
  - intros [H _]. rewrite (get_nth _ _ H); auto.
  - intros (H & c & Hc & Hb). rewrite (get_nth _ _ H); cbn [bind].
    rewrite (get_nth _ _ Hc); cbn [bind]. apply get_nth; auto.
Qed.

(** ** The has-missing flag *)
Definition flag_ok (ms : list bool) (has : bool) : Prop :=
  forall i, nth_error ms i = Some true -> has = true.

Lemma flag_ok_snoc ms has b : flag_ok ms has -> flag_ok (ms ++ [b]) (b || has).
Proof.
  intros H i Hi. apply nth_error_snoc in Hi as [[Hi _]|[_ <-]]; auto.
  rewrite (H _ Hi), orb_true_r; auto.
Qed.
Lemma flag_ok_true ms : flag_ok ms true.
Proof. intros i _; auto. Qed.
Lemma flag_ok_upd_false ms has i : flag_ok ms has -> flag_ok (upd ms i false) has.
Proof.
  intros H k Hk. rewrite nth_error_upd in Hk.
  destruct ((k =? i) && (i <? length ms)); [discriminate|]. eauto.
Qed.
Lemma flag_ok_perm ms ms' has : Permutation ms ms' -> flag_ok ms has -> flag_ok ms' has.
Proof.
  intros Hp H i Hi. apply nth_error_In in Hi.
  apply Permutation_sym in Hp. apply (Permutation_in _ Hp) in Hi.
  apply In_nth_error in Hi as [k Hk]. eauto.
Qed.

Lemma shuffle_mask_perm {A} rnd ms (d : list A) ms' d' :
  shuffle rnd ms d = Ok (ms', d') -> Permutation ms ms'.
Proof.
  unfold shuffle. intros E.
  apply (for_up_partial (fun _ '((ms1, _) : list bool * list A) => Permutation ms ms1)) in E; auto.
  intros i [m1 d1] [m2 d2] _ Hp Eb. apply bind_ok in Eb as (r & _ & Eb).
  unfold swap2 in Eb. apply bind_ok in Eb as (m3 & E1 & Eb). apply bind_ok in Eb as (d3 & E2 & Eb).
  inversion Eb; subst. rewrite Hp. eapply swapl_perm; eauto.
Qed.

(** ** Copying values *)
Lemma copyinto_same {A} (x : A) (l : list A) n : n = length l -> copyinto (repeat x n) l = l.
Proof.
  intros ->. unfold copyinto. rewrite repeat_length, firstn_all, skipn_all2, app_nil_r; auto.
  rewrite repeat_length; auto.
Qed.

(** ** Imputation *)
Definition fill {A} (v : A) (ms : list bool) (d : list A) : list A :=
  map (fun '((m, x) : bool * A) => if m then v else x) (combine ms d).

Lemma impute_loop {A} (v : A) (ms : list bool) (d : list A) :
  length d = length ms ->
  for_up (length ms) 0 (fun i '((d, ms) : list A * list bool) =>
      let* m := get ms i in
      if m then
        let* d' := set d i v in
        let* ms' := set ms i false in Ok (d', ms')
      else Ok (d, ms)) (d, ms)
  = Ok (fill v ms d, repeat false (length ms)).
Proof.
  intros Hl.
  enough (G : forall ms d pre pred, length d = length ms -> length pred = length pre ->
    for_up (length ms) (length pre) (fun i '((d, ms) : list A * list bool) =>
      let* m := get ms i in
      if m then
        let* d' := set d i v in
        let* ms' := set ms i false in Ok (d', ms')
      else Ok (d, ms)) (pred ++ d, pre ++ ms)
    = Ok (pred ++ fill v ms d, pre ++ repeat false (length ms))).
  { apply (G ms d [] []); auto. }
  clear. induction ms as [|m ms IH]; intros [|x d] pre pred Hl Hp; cbn in Hl; try lia.
  - cbn. rewrite !app_nil_r; auto.
  - cbn [length for_up]. rewrite get_mid by auto. cbn [bind].
    assert (Hstep : forall y,
      for_up (length ms) (S (length pre)) (fun i '((d, ms) : list A * list bool) =>
      let* m := get ms i in
      if m then
        let* d' := set d i v in
        let* ms' := set ms i false in Ok (d', ms')
      else Ok (d, ms)) (pred ++ y :: d, pre ++ false :: ms)
      = Ok (pred ++ y :: fill v ms d, pre ++ false :: repeat false (length ms))).
    { intros y. specialize (IH d (pre ++ [false]) (pred ++ [y])).
      rewrite !app_length in IH. cbn [length] in IH.
      replace (length pre + 1) with (S (length pre)) in IH by lia.
      rewrite <- !app_assoc in IH. cbn [app] in IH. apply IH; lia. }
    destruct m.
    + rewrite set_mid by auto. cbn [bind]. rewrite set_mid by auto. cbn [bind]. apply Hstep.
    + cbn [bind]. apply Hstep.
Qed.

Lemma nth_error_fill {A} (v : A) ms d i : length d = length ms ->
  nth_error (fill v ms d) i =
  match nth_error ms i, nth_error d i with
  | Some m, Some x => Some (if m then v else x)
  | _, _ => None
  end.
Proof.
  unfold fill. revert d i; induction ms as [|m ms IH]; intros [|x d] i Hl; cbn in Hl; try lia.
  - destruct i; reflexivity.
  - destruct i; cbn; [destruct m; auto|]. apply IH. lia.
Qed.

(** The floating point mean is that of the present values. *)
Lemma nMean_all f : length (nData f) = length (nMissing f) ->
  nMean f (seq 0 (length (nMissing f))) = Ok (fmean (present (nMissing f) (nData f))).
Proof.
  intros Hl. unfold nMean, fmean.
  set (body := fun i '((m, n) : f64 * nat) =>
    let* miss := get (nMissing f) i in
    if miss then Ok (m, n)
    else let* x := get (nData f) i in Ok (fadd m x, n + 1)).
  enough (G : forall ms d pre pred m n, length d = length ms -> length pred = length pre ->
     nMissing f = pre ++ ms -> nData f = pred ++ d ->
     foreach (seq (length pre) (length ms)) body (m, n)
     = Ok (fold_left fadd (present ms d) m, n + length (present ms d))).
  { pose proof (G (nMissing f) (nData f) [] [] f0 0 Hl eq_refl eq_refl eq_refl) as E.
    cbn [length] in E. rewrite E. reflexivity. }
  induction ms as [|b ms IH]; intros [|x d] pre pred m n H1 H2 H3 H4; cbn in H1; try lia.
  - cbn. rewrite Nat.add_0_r; auto.
  - cbn [length seq foreach]. unfold body at 1. rewrite H3, H4.
    rewrite get_mid by auto. cbn [bind]. cbn [present].
    assert (Hstep : forall m n, foreach (seq (S (length pre)) (length ms)) body (m, n)
       = Ok (fold_left fadd (present ms d) m, n + length (present ms d))).
    { intros m' n'. specialize (IH d (pre ++ [b]) (pred ++ [x]) m' n').
      rewrite !app_length in IH. cbn [length] in IH.
      replace (length pre + 1) with (S (length pre)) in IH by lia.
      apply IH; try lia; rewrite <- app_assoc; auto. }
    destruct b; cbn [bind].
    + apply Hstep.
    + rewrite get_mid by auto. cbn [bind]. rewrite Hstep. cbn. f_equal. f_equal. lia.
Qed.

(** The mode counts are the numbers of occurrences. *)
Definition count (l : list nat) (c : nat) : nat := count_occ Nat.eq_dec l c.

Lemma mode_counts_all f :
  length (cData f) = length (cMissing f) ->
  Forall (fun c => c < NCats (cMap f)) (present (cMissing f) (cData f)) ->
  yields (mode_counts f (seq 0 (length (cMissing f)))) (fun counts =>
    length counts = NCats (cMap f) /\
    forall c, c < NCats (cMap f) ->
      nth_error counts c = Some (count (present (cMissing f) (cData f)) c)).
Proof.
  intros Hl Hv. unfold mode_counts.
  set (body := fun i counts =>
    let* m := get (cMissing f) i in
    if m then Ok counts
    else
      let* c := get (cData f) i in
      let* n := get counts c in
      set counts c (n + 1)).
  enough (G : forall ms d pre pred counts, length d = length ms -> length pred = length pre ->
     cMissing f = pre ++ ms -> cData f = pred ++ d ->
     Forall (fun c => c < NCats (cMap f)) (present ms d) ->
     length counts = NCats (cMap f) ->
     yields (foreach (seq (length pre) (length ms)) body counts) (fun counts' =>
       length counts' = NCats (cMap f) /\
       forall c, c < NCats (cMap f) -> exists n, nth_error counts c = Some n /\
         nth_error counts' c = Some (n + count (present ms d) c))).
  { eapply yields_weaken.
    - apply (G (cMissing f) (cData f) [] []); auto. apply repeat_length.
    - intros counts' [H1 H2]. split; auto. intros c Hc. destruct (H2 c Hc) as (n & E1 & E2).
      rewrite nth_error_repeat in E1 by auto. inversion E1; subst n. exact E2. }
  induction ms as [|b ms IH]; intros [|x d] pre pred counts H1 H2 H3 H4 Hf Hlc; cbn in H1; try lia.
  - cbn. apply yields_ok. split; auto. intros c Hc.
    destruct (nth_error counts c) eqn:E; [|apply nth_error_None in E; lia].
    exists n; split; auto.
  - cbn [length seq foreach]. unfold body at 1. rewrite H3, H4.
    rewrite get_mid by auto. cbn [bind]. cbn [present] in *.
    assert (Hstep : forall counts, length counts = NCats (cMap f) ->
      Forall (fun c => c < NCats (cMap f)) (present ms d) ->
      yields (foreach (seq (S (length pre)) (length ms)) body counts) (fun counts' =>
       length counts' = NCats (cMap f) /\
       forall c, c < NCats (cMap f) -> exists n, nth_error counts c = Some n /\
         nth_error counts' c = Some (n + count (present ms d) c))).
    { intros counts' Hc' Hf'. specialize (IH d (pre ++ [b]) (pred ++ [x]) counts').
      rewrite !app_length in IH. cbn [length] in IH.
      replace (length pre + 1) with (S (length pre)) in IH by lia.
      apply IH; auto; try lia; rewrite <- app_assoc; auto. }
    destruct b; cbn [bind].
    + apply Hstep; auto.
    + inversion Hf as [|? ? Hx Hf']; subst.
      rewrite get_mid by auto. cbn [bind].
      destruct (@get_ok _ counts x) as (n & -> & Hn); [lia|]. cbn [bind].
      rewrite set_ok by lia. cbn [bind].
      eapply yields_weaken; [apply Hstep; auto; rewrite upd_length; auto|].
      intros counts' [G1 G2]. split; auto. intros c Hc.
      destruct (G2 c Hc) as (n' & E1 & E2). rewrite nth_error_upd in E1.
      replace (x <? length counts) with true in E1 by (symmetry; apply Nat.ltb_lt; lia).
      rewrite andb_true_r in E1. unfold count in *. cbn [count_occ].
      destruct (Nat.eqb_spec c x).
      * subst c. inversion E1; subst n'. exists n. split; auto. rewrite E2.
        destruct (Nat.eq_dec x x); [|congruence]. f_equal; lia.
      * exists n'. split; auto. rewrite E2. destruct (Nat.eq_dec x c); [congruence|]. auto.
Qed.

Lemma argmax_from_ok : forall counts k m max,
  let r := argmax_from k counts m max in
  (r = m /\ (forall i v, nth_error counts i = Some v -> v <= max))
  \/ (exists i v, r = k + i /\ nth_error counts i = Some v /\ max < v
       /\ (forall j w, nth_error counts j = Some w -> w <= v)
       /\ (forall j w, j < i -> nth_error counts j = Some w -> w < v)).
Proof.
  induction counts as [|v counts IH]; intros k m max; cbv zeta in *; cbn [argmax_from].
  - left. split; auto. intros [|i] v; discriminate.
  - destruct (Nat.ltb_spec max v) as [Hlt|Hge].
    + right. destruct (IH (S k) k v) as [[E H]|(i & w & E & Hi & Hw & H1 & H2)].
      * exists 0, v. rewrite E. refine (conj _ (conj _ (conj _ (conj _ _)))); auto; try lia.
        -- intros [|j] w Hj; cbn in Hj; [inversion Hj; lia|eauto].
      * exists (S i), w. rewrite E. refine (conj _ (conj _ (conj _ (conj _ _)))); auto; try lia.
        -- intros [|j] u Hj; cbn in Hj; [inversion Hj; lia|eauto].
        -- intros [|j] u Hj0 Hj; cbn in Hj; [inversion Hj; lia|]. eapply H2; eauto. lia.
    + destruct (IH (S k) m max) as [[E H]|(i & w & E & Hi & Hw & H1 & H2)].
      * left. split; auto. intros [|j] w Hj; cbn in Hj; [inversion Hj; lia|eauto].
      * right. exists (S i), w. rewrite E. refine (conj _ (conj _ (conj _ (conj _ _)))); auto; try lia.
        -- intros [|j] u Hj; cbn in Hj; [inversion Hj; lia|eauto].
        -- intros [|j] u Hj0 Hj; cbn in Hj; [inversion Hj; lia|]. eapply H2; eauto. lia.
Qed.

Lemma count_notin l c : ~ In c l -> count l c = 0.
Proof. apply count_occ_not_In. Qed.

Lemma cModei_all f :
  length (cData f) = length (cMissing f) ->
  Forall (fun c => c < NCats (cMap f)) (present (cMissing f) (cData f)) ->
  exists k, cModei f (seq 0 (length (cMissing f))) = Ok k
    /\ is_mode k (present (cMissing f) (cData f))
    /\ (NCats (cMap f) > 0 -> k < NCats (cMap f)).
Proof.
  intros Hl Hv. unfold cModei.
  destruct (mode_counts_all f Hl Hv) as (counts & -> & Hlc & Hc). cbn [bind].
  set (p := present (cMissing f) (cData f)) in *.
  eexists; split; [reflexivity|].
  assert (Hbig : forall j, NCats (cMap f) <= j -> count p j = 0).
  { intros j Hj. apply count_notin. intros Hin. rewrite Forall_forall in Hv.
    apply Hv in Hin. lia. }
  destruct (argmax_from_ok counts 0 0 0) as [[E H]|(i & v & E & Hi & Hv0 & H1 & H2)]; rewrite E.
  - split; [|lia].
    assert (Z : forall j, count p j = 0).
    { intros j. destruct (lt_dec j (NCats (cMap f))) as [Hj|Hj].
      - specialize (H j _ (Hc j Hj)). lia.
      - apply Hbig; lia. }
    intros j. fold (count p j) (count p 0). rewrite (Z j), (Z 0). lia.
  - assert (Hil : i < NCats (cMap f)) by (rewrite <- Hlc; eapply nth_error_some_lt; eauto).
    assert (v = count p i) by (rewrite (Hc i Hil) in Hi; congruence). subst v.
    split; [|cbn; auto]. cbn [Nat.add]. intros j. fold (count p j) (count p i).
    destruct (lt_dec j (NCats (cMap f))) as [Hj|Hj].
    + split; [apply (H1 j); auto|]. intros Hji. apply (H2 j); auto.
    + rewrite (Hbig j) by lia. lia.
Qed.

Lemma cImpute_ok f :
  length (cData f) = length (cMissing f) ->
  Forall (fun c => c < NCats (cMap f)) (present (cMissing f) (cData f)) ->
  exists k, cImputeMissing f = Ok (mkCat (cMap f) (fill k (cMissing f) (cData f))
      (repeat false (length (cMissing f))) (cName f) (cRandom f) false)
    /\ is_mode k (present (cMissing f) (cData f))
    /\ (NCats (cMap f) > 0 -> k < NCats (cMap f)).
Proof.
  intros Hl Hv. unfold cImputeMissing.
  destruct (cModei_all f Hl Hv) as (k & -> & Hk & Hk2). cbn [bind].
  rewrite impute_loop by auto. cbn [bind]. eauto.
Qed.

Lemma nImpute_ok f : length (nData f) = length (nMissing f) ->
  nImputeMissing f = Ok (mkNum (fill (fmean (present (nMissing f) (nData f))) (nMissing f) (nData f))
      (repeat false (length (nMissing f))) (nName f) false).
Proof.
  intros Hl. unfold nImputeMissing. rewrite nMean_all by auto. cbn [bind].
  rewrite impute_loop by auto. reflexivity.
Qed.
