(** Properties C63 and C86: the folds of nfold and its -onehot flag. *)
From Verif Require Import Go GoLemmas F64 ModelFeature ModelSample SampleSpec SampleProofs PropSample ModelMatrix MatrixSpec PropEncode ModelFold.
Local Open Scope string_scope.
Local Open Scope nat_scope.
Local Open Scope list_scope.

(** ** Dealing out blocks *)
Definition chunk (size j : nat) (l : list nat) : list nat := firstn size (skipn (j * size) l).

Lemma firstn_add {A} : forall a b (l : list A), firstn (a + b) l = firstn a l ++ firstn b (skipn a l).
Proof. induction a; destruct l; cbn; auto. - rewrite firstn_nil; auto. - rewrite IHa; auto. Qed.
Lemma skipn_add {A} : forall a b (l : list A), skipn (a + b) l = skipn b (skipn a l).
Proof. induction a; destruct l; cbn; auto. rewrite skipn_nil; auto. Qed.

Lemma window_loop (cases : list nat) : forall size lo fold, lo + size <= length cases ->
  for_up size lo (fun k fold => let* c := get cases k in Ok (fold ++ [c])) fold = Ok (fold ++ firstn size (skipn lo cases)).
Proof.
  induction size as [|size IH]; intros lo fold H; cbn [for_up].
  - rewrite firstn_O, app_nil_r. auto.
  - destruct (@get_ok _ cases lo) as (c & E & En); [lia|]. rewrite E. cbn [bind]. rewrite IH by lia.
    rewrite <- app_assoc. do 2 f_equal. apply nth_error_split' in En as (l1 & l2 & -> & <-).
    replace (S (length l1)) with (length l1 + 1) by lia. rewrite skipn_add.
    rewrite (skipn_app (length l1) l1), skipn_all, Nat.sub_diag. reflexivity.
Qed.

Lemma assign_ok cases size : forall folds foldis, length foldis = folds -> folds * size <= length cases ->
  exists fs, assign cases folds size foldis = Ok fs /\ length fs = folds /\
    forall j f, nth_error foldis j = Some f -> nth_error fs j = Some (f ++ chunk size j cases).
Proof.
  intros folds foldis Hl Hc. unfold assign.
  destruct (@for_up_total _ (fun k fs => length fs = folds /\
    forall j f, nth_error foldis j = Some f -> nth_error fs j = Some (if j <? k then f ++ chunk size j cases else f))
    (fun j fs => let* fold := get fs j in let* fold' := fill_fold cases size j fold in set fs j fold') folds 0 foldis) as (fs & E & Hfs & H).
  - intros i fs Hi [H1 H2]. cbn in Hi. destruct (nth_error foldis i) as [f|] eqn:Ef.
    2: { apply nth_error_None in Ef. lia. }
    pose proof (H2 _ _ Ef) as Hg. rewrite Nat.ltb_irrefl in Hg.
    rewrite (@get_nth _ fs i f Hg). cbn [bind]. unfold fill_fold.
    rewrite window_loop by nia. cbn [bind]. rewrite set_ok by lia.
    eexists; split; [reflexivity|]. split; [rewrite upd_length; auto|].
    intros j g Hj. destruct (Nat.eq_dec i j) as [<-|Hne].
    + rewrite nth_error_upd_eq by lia. rewrite Ef in Hj. inversion Hj; subst.
      destruct (Nat.ltb_spec i (S i)); [reflexivity|lia].
    + rewrite nth_error_upd_neq by auto. rewrite (H2 _ _ Hj).
      destruct (Nat.ltb_spec j i), (Nat.ltb_spec j (S i)); auto; lia.
  - split; auto.
  - exists fs. split; [exact E|]. split; auto. intros j f Hj. rewrite (H _ _ Hj).
    destruct (Nat.ltb_spec j (0 + folds)) as [_|X]; auto. apply nth_error_some_lt in Hj. cbn in X. lia.
Qed.

(** Fold [j] when the decks [ds] are dealt out one after the other. *)
Definition dealt (folds : nat) (ds : list (list nat)) : list (list nat) :=
  map (fun j => concat (map (fun d => chunk (length d / folds) j d) ds)) (seq 0 folds).

Lemma dealt_length folds ds : length (dealt folds ds) = folds.
Proof. unfold dealt. rewrite map_length, seq_length. auto. Qed.
Lemma dealt_nth folds ds j : j < folds ->
  nth_error (dealt folds ds) j = Some (concat (map (fun d => chunk (length d / folds) j d) ds)).
Proof.
  intros H. unfold dealt. rewrite nth_error_map.
  rewrite (nth_error_nth' _ 0) by (rewrite seq_length; auto). rewrite seq_nth by auto. reflexivity.
Qed.

Lemma div_le n k : 0 < k -> k * (n / k) <= n.
Proof. intros. apply Nat.mul_div_le. lia. Qed.

Lemma assign_dealt folds ds d : 0 < folds ->
  assign d folds (length d / folds) (dealt folds ds) = Ok (dealt folds (ds ++ [d])).
Proof.
  intros Hf. destruct (assign_ok d (length d / folds) folds (dealt folds ds)) as (fs & E & Hl & H).
  - apply dealt_length.
  - apply div_le; auto.
  - rewrite E. f_equal. apply nth_error_ext'. intros j. destruct (Nat.lt_ge_cases j folds) as [Hj|Hj].
    + rewrite (H _ _ (dealt_nth _ _ _ Hj)), dealt_nth by auto. rewrite map_app, concat_app. cbn. rewrite app_nil_r. auto.
    + assert (nth_error fs j = None) as -> by (apply nth_error_None; lia).
      symmetry. apply nth_error_None. rewrite dealt_length. auto.
Qed.

Lemma dealt_nil folds : dealt folds [] = repeat [] folds.
Proof. unfold dealt. cbn. generalize 0. induction folds; intros s; cbn; auto. f_equal. apply IHfolds. Qed.

(** *** The whole assignment as a deal *)
Lemma sample_shuffles rnd deck : exists deck', SampleFirstN rnd deck (length deck) 0 = Ok (deck', deck') /\ Permutation deck deck'.
Proof.
  destruct (C13_sampleFirstN rnd deck (length deck) 0) as (d & k & E & Hp & _ & _ & _ & Hk).
  rewrite (Hk eq_refl), Nat.min_id in E. rewrite (Permutation_length Hp), firstn_all in E. rewrite <- (Permutation_length Hp) in E. eauto.
Qed.

Lemma iota_loop n : for_up n 0 (fun i cs => set cs i i) (repeat 0 n) = Ok (seq 0 n).
Proof.
  destruct (@for_up_total _ (fun k cs => cs = seq 0 k ++ repeat 0 (n - k)) (fun i cs => set cs i i) n 0 (repeat 0 n)) as (cs & E & ->).
  - intros i cs Hi ->. cbn in Hi. replace (n - i) with (S (n - S i)) by lia. cbn [repeat].
    rewrite set_mid by (rewrite seq_length; auto). eexists; split; [reflexivity|]. rewrite seq_S, <- app_assoc. reflexivity.
  - rewrite Nat.sub_0_r. auto.
  - rewrite E. cbn. rewrite Nat.sub_diag, app_nil_r. auto.
Qed.

Lemma unstratified_dealt rnd n folds : 0 < folds ->
  exists d, Permutation (seq 0 n) d /\ fold_unstratified rnd n folds (n / folds) (repeat [] folds) = Ok (dealt folds [d]).
Proof.
  intros Hf. unfold fold_unstratified. rewrite iota_loop. cbn [bind].
  destruct (sample_shuffles rnd (seq 0 n)) as (d & -> & Hp). cbn [bind]. exists d. split; auto.
  rewrite <- dealt_nil. replace n with (length d) at 1.
  - apply (assign_dealt folds [] d Hf).
  - rewrite <- (Permutation_length Hp). apply seq_length.
Qed.

Lemma stratified_dealt rnd t folds : 0 < folds -> valid_column t ->
  exists ds, Forall2 (fun c d => Permutation (class_cases (cMissing t) (cData t) c) d) (seq 0 (NCats (cMap t))) ds
    /\ fold_stratified rnd t folds (repeat [] folds) = Ok (dealt folds ds).
Proof.
  intros Hf [Hl Hv]. unfold fold_stratified.
  destruct (newBalanced_ok t Hl Hv) as (cs & -> & Hlen & Hcs). cbn [bind].
  destruct (@for_up_total _ (fun k fs => exists ds, Forall2 (fun c d => Permutation (class_cases (cMissing t) (cData t) c) d) (seq 0 k) ds /\ fs = dealt folds ds)
    (fun i fs => let* cs0 := get cs i in let* (cs', _) := SampleFirstN (rnd i) cs0 (length cs0) 0 in
      let* size := idiv (length cs') folds in assign cs' folds size fs) (length cs) 0 (repeat [] folds)) as (fs & E & ds & H & ->).
  - intros i fs Hi (ds & H & ->). cbn in Hi.
    rewrite (@get_nth _ cs i _ (Hcs i ltac:(lia))). cbn [bind].
    destruct (sample_shuffles (rnd i) (class_cases (cMissing t) (cData t) i)) as (d & -> & Hp). cbn [bind].
    unfold idiv. destruct (Nat.eqb_spec folds 0) as [X|_]; [lia|]. cbn [bind].
    rewrite assign_dealt by auto. eexists; split; [reflexivity|]. exists (ds ++ [d]). split; auto.
    rewrite seq_S. apply Forall2_app; auto.
  - exists []. split; [constructor|]. symmetry; apply dealt_nil.
  - exists ds. cbn in H. rewrite Hlen in H. auto.
Qed.

(** *** What a deal gives *)
Lemma concat_chunks folds size l : concat (map (fun j => chunk size j l) (seq 0 folds)) = firstn (folds * size) l.
Proof.
  induction folds as [|k IH]; auto. rewrite seq_S, map_app, concat_app, IH. cbn [map concat plus]. rewrite app_nil_r.
  unfold chunk. rewrite <- firstn_add. f_equal. lia.
Qed.
Lemma chunk_length folds size j l : folds * size <= length l -> j < folds -> length (chunk size j l) = size.
Proof. intros H Hj. unfold chunk. rewrite firstn_length, skipn_length. nia. Qed.

Lemma concat_map_app {A B} (f g : A -> list B) l :
  Permutation (concat (map (fun x => f x ++ g x) l)) (concat (map f l) ++ concat (map g l)).
Proof.
  induction l as [|x l IH]; cbn; auto. rewrite IH. rewrite <- !app_assoc. apply Permutation_app_head.
  rewrite !app_assoc. apply Permutation_app_tail. apply Permutation_app_comm.
Qed.
Lemma concat_swap {A B C} (g : A -> B -> list C) js ds :
  Permutation (concat (map (fun j => concat (map (g j) ds)) js)) (concat (map (fun d => concat (map (fun j => g j d) js)) ds)).
Proof.
  induction js as [|j js IH]; cbn.
  - induction ds; cbn; auto.
  - rewrite IH. symmetry. apply concat_map_app.
Qed.
Lemma dealt_concat folds ds :
  Permutation (concat (dealt folds ds)) (concat (map (fun d => firstn (folds * (length d / folds)) d) ds)).
Proof.
  unfold dealt. rewrite concat_swap. erewrite map_ext; [reflexivity|]. intros d. apply concat_chunks.
Qed.

Lemma nodup_app_iff' {A} (a b : list A) : NoDup (a ++ b) <-> NoDup a /\ NoDup b /\ forall x, In x a -> ~ In x b.
Proof.
  induction a as [|x a IH]; cbn.
  - split; [intros H|intros (_ & H & _)]; auto. split; [constructor|]. auto.
  - rewrite !NoDup_cons_iff, IH, in_app_iff. split.
    + intros (H1 & H2 & H3 & H4). split; [tauto|]. split; [auto|]. intros y [<-|Hy]; auto.
    + intros ((H1 & H2) & H3 & H4). split; [intros [H|H]; [auto|eapply H4; eauto]|]. split; [auto|]. split; auto.
Qed.

Lemma prefix_in {A} n (l : list A) x : In x (firstn n l) -> In x l.
Proof. intros H. rewrite <- (firstn_skipn n l). apply in_or_app; auto. Qed.
Lemma in_concat_prefix (n : list nat -> nat) ds x : In x (concat (map (fun d => firstn (n d) d) ds)) -> In x (concat ds).
Proof.
  rewrite !in_concat. intros (l & Hl & Hx). apply in_map_iff in Hl as (d & <- & Hd). exists d. split; auto. eapply prefix_in; eauto.
Qed.
Lemma nodup_prefixes (n : list nat -> nat) ds : NoDup (concat ds) -> NoDup (concat (map (fun d => firstn (n d) d) ds)).
Proof.
  induction ds as [|d ds IH]; cbn; auto. rewrite !nodup_app_iff'. intros (H1 & H2 & H3). split; [|split].
  - rewrite <- (firstn_skipn (n d) d) in H1. apply nodup_app_iff' in H1. tauto.
  - auto.
  - intros x Hx Hy. apply (H3 x); [eapply prefix_in; eauto|eapply in_concat_prefix; eauto].
Qed.

Lemma dealt_nodup folds ds : NoDup (concat ds) -> NoDup (concat (dealt folds ds)).
Proof. intros H. eapply Permutation_NoDup; [symmetry; apply dealt_concat|]. apply nodup_prefixes; auto. Qed.
Lemma dealt_in folds ds x : In x (concat (dealt folds ds)) -> In x (concat ds).
Proof.
  intros H. apply (Permutation_in x (dealt_concat folds ds)) in H. apply in_concat_prefix in H; auto.
Qed.
Lemma fold_size folds ds j f : 0 < folds -> nth_error (dealt folds ds) j = Some f ->
  length f = list_sum (map (fun d => length d / folds) ds).
Proof.
  intros Hf H. assert (Hj : j < folds) by (apply nth_error_some_lt in H; rewrite dealt_length in H; auto).
  rewrite dealt_nth in H by auto. inversion H; subst f. induction ds as [|d ds IH]; cbn; auto.
  rewrite app_length, IH, chunk_length with (folds := folds); auto using div_le.
Qed.

(** ** C63 *)
(** The English claim: [fs] are the test sets of the folds of the cases [all]. *)
Definition proper_folds (fs : list (list nat)) (folds : nat) (all : list nat) : Prop :=
  length fs = folds
  /\ NoDup (concat fs)                                      (* no case twice, not even in one fold *)
  /\ incl (concat fs) all
  /\ (forall f g, In f fs -> In g fs -> length f = length g).

(** Unstratified: no target, a numerical target, or the flag -unstratified. *)
Theorem C63_unstratified_folds : forall rnd folds n target unstratified,
  0 < folds -> (unstratified = true \/ forall t, target <> Some (FCat t)) ->
  exists fs, nfold_folds rnd folds n target unstratified = Ok fs
    /\ proper_folds fs folds (seq 0 n)
    /\ length (concat fs) <= n < length (concat fs) + folds.
Proof.
  intros rnd folds n target uns Hf Hu. unfold nfold_folds, idiv.
  destruct (Nat.eqb_spec folds 0) as [X|_]; [lia|]. cbn [bind].
  destruct (unstratified_dealt (rnd 0) n folds Hf) as (d & Hp & E).
  exists (dealt folds [d]). split; [|split].
  - destruct target as [[?|?]|], uns; auto. destruct Hu as [Hu|Hu]; [discriminate|]. edestruct Hu; eauto.
  - split; [apply dealt_length|]. assert (Hd : concat [d] = d) by (cbn; apply app_nil_r). split; [|split].
    + apply dealt_nodup. rewrite Hd. eapply Permutation_NoDup; eauto. apply seq_NoDup.
    + intros x Hx. apply dealt_in in Hx. rewrite Hd in Hx. eapply Permutation_in; [symmetry|]; eauto.
    + intros f g Hfi Hgi. apply In_nth_error in Hfi as [i Hi]. apply In_nth_error in Hgi as [j Hj].
      rewrite (fold_size _ _ _ _ Hf Hi), (fold_size _ _ _ _ Hf Hj). auto.
  - rewrite (Permutation_length (dealt_concat folds [d])). cbn. rewrite app_nil_r, firstn_length.
    assert (Hn : length d = n) by (rewrite <- (Permutation_length Hp); apply seq_length). rewrite Hn.
    pose proof (div_le n folds Hf). pose proof (Nat.mul_succ_div_gt n folds ltac:(lia)). lia.
Qed.

(** Stratified by a categorical target: every class is spread evenly, and less
    than [folds] cases of each class are left out. *)
Lemma class_all ms d c x : In x (class_cases ms d c) <-> has_class ms d c x.
Proof.
  unfold class_cases. rewrite filter_In, has_classb_spec, in_seq. split; [tauto|].
  intros [H1 H2]. split; [|split; auto]. apply nth_error_some_lt in H2. lia.
Qed.
Lemma filter_class ms d c c' l : (forall x, In x l -> has_class ms d c' x) ->
  filter (has_classb ms d c) l = if c' =? c then l else [].
Proof.
  induction l as [|x l IH]; cbn; intros H; [destruct (c' =? c); auto|]. rewrite IH by auto.
  destruct (H x) as [H1 H2]; auto. unfold has_classb. rewrite H1, H2. destruct (c' =? c); auto.
Qed.

Lemma deal_class ms d cs ds x : Forall2 (fun c l => Permutation (class_cases ms d c) l) cs ds -> In x (concat ds) ->
  exists c, In c cs /\ has_class ms d c x.
Proof.
  induction 1 as [|c l cs ds Hp HF IH]; cbn; [contradiction|]. rewrite in_app_iff. intros [H|H].
  - exists c. split; auto. apply class_all. apply Permutation_sym in Hp. eapply Permutation_in; eauto.
  - destruct (IH H) as (c' & H1 & H2). exists c'. auto.
Qed.

Theorem C63_stratified_folds : forall rnd folds n t,
  0 < folds -> valid_column t ->
  let members := class_cases (cMissing t) (cData t) in
  exists fs, nfold_folds rnd folds n (Some (FCat t)) false = Ok fs
    /\ proper_folds fs folds (seq 0 (length (cData t)))
    /\ (forall x, In x (concat fs) -> nth_error (cMissing t) x = Some false)
    /\ forall c, c < NCats (cMap t) ->
         let inclass := filter (has_classb (cMissing t) (cData t) c) in
         (forall f g, In f fs -> In g fs -> length (inclass f) = length (inclass g))
         /\ length (inclass (concat fs)) <= length (members c) < length (inclass (concat fs)) + folds.
Proof.
  intros rnd folds n t Hf Hv members. unfold nfold_folds, idiv.
  destruct (Nat.eqb_spec folds 0) as [X|_]; [lia|]. cbn [bind].
  destruct (stratified_dealt rnd t folds Hf Hv) as (ds & HF & E).
  assert (Hnd : forall k ds, Forall2 (fun c d => Permutation (members c) d) (seq 0 k) ds -> NoDup (concat ds)).
  { induction k as [|k IH]; intros ds' H; [inversion H; constructor|].
    rewrite seq_S in H. apply Forall2_app_inv_l in H as (l1 & l2 & H1 & H2 & ->). cbn in H2.
    inversion H2 as [|? d ? ? Hd Hn]; subst. inversion Hn; subst. rewrite concat_app. cbn. rewrite app_nil_r.
    apply nodup_app_iff'. split; [apply IH; auto|]. split.
    - eapply Permutation_NoDup; eauto. apply NoDup_filter, seq_NoDup.
    - intros x Hx Hy. apply Permutation_sym in Hd. apply (Permutation_in _ Hd) in Hy. apply class_all in Hy.
      destruct (deal_class _ _ _ _ _ H1 Hx) as (i & Hi & Hc). apply in_seq in Hi.
      destruct Hc as [_ Hc], Hy as [_ Hy]. assert (i = k) by congruence. lia. }
  assert (Hcls : forall x, In x (concat ds) -> exists c, has_class (cMissing t) (cData t) c x).
  { intros x Hx. destruct (deal_class _ _ _ _ _ HF Hx) as (c & _ & Hc). eauto. }
  assert (Hpart : forall k (part : list nat -> list nat) ds, Forall2 (fun c d => Permutation (members c) d) (seq 0 k) ds ->
     (forall d x, In x (part d) -> In x d) -> forall c, c < k ->
     exists d, Permutation (members c) d /\ filter (has_classb (cMissing t) (cData t) c) (concat (map part ds)) = part d).
  { clear - members. induction k as [|k IH]; intros part ds H Hsub c Hc; [lia|].
    rewrite seq_S in H. apply Forall2_app_inv_l in H as (l1 & l2 & H1 & H2 & ->). cbn in H2.
    inversion H2 as [|? d ? ? Hd Hn]; subst. inversion Hn; subst. rewrite map_app, concat_app. cbn. rewrite app_nil_r, filter_app.
    rewrite (filter_class _ _ c k (part d)).
    2: { intros x Hx. apply class_all. apply Permutation_sym in Hd. eapply Permutation_in; eauto. }
    destruct (Nat.eqb_spec k c) as [->|Hne].
    - exists d. split; auto. replace (filter _ (concat (map part l1))) with (@nil nat); auto. symmetry.
      assert (G : forall cs l1, Forall2 (fun c d => Permutation (members c) d) cs l1 -> ~ In c cs ->
        filter (has_classb (cMissing t) (cData t) c) (concat (map part l1)) = []).
      { induction 1 as [|c' d' cs l' Hp HF IHF]; intros Hni; auto. cbn. rewrite filter_app, IHF by (cbn in Hni; tauto).
        rewrite (filter_class _ _ c c').
        - destruct (Nat.eqb_spec c' c); [cbn in Hni; tauto|auto].
        - intros x Hx. apply class_all. apply Permutation_sym in Hp. eapply Permutation_in; eauto. }
      eapply G; eauto. rewrite in_seq. lia.
    - rewrite app_nil_r. apply IH; auto. lia. }
  exists (dealt folds ds). split; [exact E|]. split; [|split].
  - split; [apply dealt_length|]. split; [|split].
    + apply dealt_nodup. eapply Hnd; eauto.
    + intros x Hx. apply dealt_in, Hcls in Hx as [c [_ Hx]]. apply nth_error_some_lt in Hx. apply in_seq. lia.
    + intros f g Hfi Hgi. apply In_nth_error in Hfi as [i Hi]. apply In_nth_error in Hgi as [j Hj].
      rewrite (fold_size _ _ _ _ Hf Hi), (fold_size _ _ _ _ Hf Hj). auto.
  - intros x Hx. apply dealt_in, Hcls in Hx as [c [Hx _]]. auto.
  - cbv zeta. intros c Hc. set (inclass := filter (has_classb (cMissing t) (cData t) c)).
    assert (Hone : forall f, In f (dealt folds ds) -> length (inclass f) = length (members c) / folds).
    { intros f Hfi. apply In_nth_error in Hfi as [j Hj].
      assert (Hjl : j < folds) by (apply nth_error_some_lt in Hj; rewrite dealt_length in Hj; auto).
      rewrite dealt_nth in Hj by auto. inversion Hj; subst f.
      destruct (Hpart _ (fun d => chunk (length d / folds) j d) ds HF) with (c := c) as (d & Hp & Ef); auto.
      { intros d x Hx. unfold chunk in Hx. apply prefix_in in Hx.
        rewrite <- (firstn_skipn (j * (length d / folds)) d). apply in_or_app; auto. }
      unfold inclass. rewrite Ef, chunk_length with (folds := folds); auto using div_le. rewrite (Permutation_length Hp); auto. }
    split; [intros f g H1 H2; rewrite (Hone f), (Hone g); auto|].
    assert (Hf' : forall l (p : nat -> bool) l', Permutation l l' -> length (filter p l) = length (filter p l')).
    { intros l p l' Hp. apply Permutation_length. clear - Hp. induction Hp; cbn; auto.
      - destruct (p x); auto.
      - destruct (p x), (p y); auto. apply perm_swap.
      - etransitivity; eauto. }
    unfold inclass. rewrite (Hf' _ _ _ (dealt_concat folds ds)).
    destruct (Hpart _ (fun d => firstn (folds * (length d / folds)) d) ds HF) with (c := c) as (d & Hp & ->); auto.
    { intros d x Hx. eapply prefix_in; eauto. }
    rewrite firstn_length, <- (Permutation_length Hp). pose proof (div_le (length (members c)) folds Hf).
    pose proof (Nat.mul_succ_div_gt (length (members c)) folds ltac:(lia)). lia.
Qed.

(** Training on the other folds: no test case trains, and all other assigned cases do. *)
Theorem C63_train_test : forall fs i test, NoDup (concat fs) -> nth_error fs i = Some test ->
  exists train, nfold_train fs (length fs) i = Ok train
    /\ Permutation (test ++ train) (concat fs)
    /\ forall x, In x test -> ~ In x train.
Proof.
  intros fs i test Hnd Hi. unfold nfold_train.
  assert (G : forall (l : list (list nat)) pre acc, fs = pre ++ l ->
     for_up (length l) (length pre) (fun j trainis => if i =? j then Ok trainis else let* f := get fs j in Ok (trainis ++ f)) acc
     = Ok (acc ++ concat (map (fun p => if i =? fst p then [] else snd p) (combine (seq (length pre) (length l)) l)))).
  { induction l as [|f l IH]; intros pre acc E; cbn [length for_up].
    - cbn. rewrite app_nil_r; auto.
    - assert (Hg : get fs (length pre) = Ok f).
      { apply get_nth. rewrite E, nth_error_app2, Nat.sub_diag by lia. auto. }
      cbn [seq combine map concat fst snd].
      assert (El : S (length pre) = length (pre ++ [f])) by (rewrite app_length; cbn; lia).
      destruct (Nat.eqb_spec i (length pre)) as [Ei|Ei]; cbn [bind]; [|rewrite Hg; cbn [bind]]; rewrite El, (IH (pre ++ [f])) by (rewrite <- app_assoc; auto).
      + reflexivity.
      + rewrite <- app_assoc. reflexivity. }
  specialize (G fs [] []). cbn [length app] in G. rewrite G by auto. eexists; split; [reflexivity|].
  assert (P : forall (l : list (list nat)) s k, nth_error l k = Some test ->
     Permutation (test ++ concat (map (fun p => if s + k =? fst p then [] else snd p) (combine (seq s (length l)) l))) (concat l)).
  { induction l as [|f l IH]; intros s k Hk; [destruct k; discriminate|]. cbn [length seq combine map concat fst snd]. destruct k as [|k].
    - cbn in Hk. inversion Hk; subst f. rewrite Nat.add_0_r, Nat.eqb_refl. cbn [app]. apply Permutation_app_head.
      assert (Z : forall (l : list (list nat)) s0, s < s0 -> concat (map (fun p => if s =? fst p then [] else snd p) (combine (seq s0 (length l)) l)) = concat l).
      { induction l0 as [|g l0 IHl]; intros s0 Hs; auto. cbn. destruct (Nat.eqb_spec s s0); [lia|]. rewrite IHl; auto. }
      rewrite Z by lia. auto.
    - cbn in Hk. destruct (Nat.eqb_spec (s + S k) s) as [X|_]; [lia|]. rewrite <- Nat.add_succ_comm.
      rewrite app_assoc, (Permutation_app_comm test f), <- app_assoc. apply Permutation_app_head. apply IH; auto. }
  specialize (P fs 0 i Hi). cbn [plus] in P. split; [exact P|].
  apply Permutation_sym, (Permutation_NoDup) in P; auto. apply nodup_app_iff' in P. tauto.
Qed.

(** No folds: the first division panics. *)
Theorem C63_no_folds_panics : forall rnd n target unstratified, nfold_folds rnd 0 n target unstratified = Panic.
Proof. reflexivity. Qed.
Print Assumptions C63_unstratified_folds.
Print Assumptions C63_stratified_folds.
Print Assumptions C63_train_test.
Print Assumptions C63_no_folds_panics.

Definition fold_target : catF :=
  mkCat (mkCM [("b", 1); ("a", 0)] ["a"; "b"]) [0; 1; 0; 1; 0; 0; 1; 0] [false; false; false; false; true; false; false; false] "C:t" false true.
Example C63_example :
  valid_column fold_target /\
  nfold_folds (fun _ _ => 1) 3 8 None false = Ok [[1; 2]; [3; 4]; [5; 6]] /\
  nfold_folds (fun _ _ => 1) 2 8 (Some (FCat fold_target)) false = Ok [[2; 5; 3]; [7; 0; 6]] /\
  nfold_train [[2; 5; 3]; [7; 0; 6]] 2 0 = Ok [7; 0; 6].
Proof.
  split; [|repeat split].
  split; [reflexivity|]. intros i c [_ H]. do 8 (destruct i as [|i]; [cbn in H; inversion H; cbn; lia|]). destruct i; discriminate.
Qed.

(** ** C86 *)
(** With -onehot alone the matrix that is written is the one that was read: its
    categorical features are not encoded. *)
Theorem C86_onehot_discarded_refuted : forall data out, nfold_encode true false data = Ok out -> out = data.
Proof.
  intros data out H. unfold nfold_encode in H. destruct (fmOneHot data); cbn in H; congruence.
Qed.
Theorem C86_still_categorical_refuted :
  let data := mkFM [FCat ex_cat] [("C:x", 0)] ["1"; "2"; "3"; "4"] in
  exists out, nfold_encode true false data = Ok out
    /\ In (FCat ex_cat) (fmData out) /\ 2 < length (cmBack (cMap ex_cat))
    /\ forall f, In f (fmData out) -> f <> FCat (hot_of ex_cat 0 "a").
Proof.
  cbv zeta. eexists. split; [reflexivity|]. split; [left; reflexivity|]. split; [cbn; lia|].
  intros f [<-|[]]. discriminate.
Qed.
Print Assumptions C86_onehot_discarded_refuted.
Print Assumptions C86_still_categorical_refuted.
