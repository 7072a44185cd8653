(** C57-C60: numerical and one-hot encodings, contrasts, stripped strings. *)
From Verif Require Import Go GoLemmas F64 ModelFeature FeatureSpec ModelSample SampleSpec SampleProofs FeatureProofs ModelText TextProofs ModelMatrix MatrixSpec MatrixProofs PropMatrix PropSample.
Local Open Scope string_scope.
Local Open Scope nat_scope.
Local Open Scope list_scope.

(** A loop that writes each place of a fresh slice. *)
Lemma fill_ok {A C} (body : nat * A -> list C -> res (list C)) (g : A -> C) (x0 : C) :
  (forall pre v post, body (length pre, v) (pre ++ x0 :: post) = Ok (pre ++ g v :: post)) ->
  forall cd, foreach (combine (seq 0 (length cd)) cd) body (repeat x0 (length cd)) = Ok (map g cd).
Proof.
  intros H. enough (G : forall cd pre, foreach (combine (seq (length pre) (length cd)) cd) body (pre ++ repeat x0 (length cd)) = Ok (pre ++ map g cd))
    by (intros cd; apply (G cd [])).
  induction cd as [|v cd IH]; intros pre; [reflexivity|]. cbn [length seq combine foreach repeat]. rewrite H. cbn [bind].
  specialize (IH (pre ++ [g v])). rewrite app_length in IH. cbn [length] in IH. rewrite Nat.add_1_r in IH.
  rewrite <- !app_assoc in IH. exact IH.
Qed.
Lemma set_at {A} (pre : list A) x y post : set (pre ++ x :: post) (length pre) y = Ok (pre ++ y :: post).
Proof. apply set_mid. reflexivity. Qed.

Lemma foreach_each {A C} (body : nat * A -> list C -> res (list C)) (h : nat -> A -> C) :
  (forall j a acc, body (j, a) acc = Ok (acc ++ [h j a])) ->
  forall l k acc, foreach (combine (seq k (length l)) l) body acc = Ok (acc ++ map (fun p => h (fst p) (snd p)) (combine (seq k (length l)) l)).
Proof.
  intros H. induction l as [|a l IH]; intros k acc; cbn [length seq combine foreach map]; [rewrite app_nil_r; auto|].
  rewrite H. cbn [bind]. rewrite IH. rewrite <- app_assoc. reflexivity.
Qed.

(** ** C57 *)
Definition hot {A} (x y : A) (j v : nat) : A := if j =? v then x else y.
Definition num_of (f : catF) (j : nat) (sv : string) : numF :=
  mkNum (map (hot f1 f0 j) (cData f)) (cMissing f) (cName f ++ "==" ++ sv) (cHas f).
Definition numbered {A} (l : list A) : list (nat * A) := combine (seq 0 (length l)) l.
Lemma cEncodeToNum_many f : length (cData f) = length (cMissing f) -> 2 < length (cmBack (cMap f)) ->
  cEncodeToNum f = Ok (map (fun p => num_of f (fst p) (snd p)) (numbered (cmBack (cMap f)))).
Proof.
  intros Hl Hn. unfold cEncodeToNum, NCats. rewrite (proj2 (Nat.leb_gt _ _)) by lia. unfold numbered.
  rewrite (foreach_each _ (num_of f)); [reflexivity|]. intros j sv acc.
  unfold cLength. rewrite <- Hl. rewrite (fill_ok _ (hot f1 f0 j)).
  - reflexivity.
  - intros pre v post. unfold hot. destruct (j =? v); [apply set_at|reflexivity].
Qed.
Lemma cEncodeToNum_few f : length (cData f) = length (cMissing f) -> length (cmBack (cMap f)) <= 2 ->
  cEncodeToNum f = Ok [mkNum (map f_of_nat (cData f)) (cMissing f) (cName f) (cHas f)].
Proof.
  intros Hl Hn. unfold cEncodeToNum, NCats. rewrite (proj2 (Nat.leb_le _ _)) by lia. unfold cLength. rewrite <- Hl.
  rewrite (fill_ok _ f_of_nat); [reflexivity|]. intros pre v post. apply set_at.
Qed.
Lemma numbered_nth {A} (l : list A) k p : nth_error (numbered l) k = Some p -> fst p = k /\ nth_error l k = Some (snd p).
Proof.
  unfold numbered. assert (G : forall (l : list A) s k (p : nat * A), nth_error (combine (seq s (length l)) l) k = Some p -> fst p = s + k /\ nth_error l k = Some (snd p)).
  { clear. induction l as [|a l IH]; intros s [|k] p H; cbn in H; try discriminate.
    - inversion H; subst. cbn. split; auto.
    - apply IH in H as [E1 E2]. split; [lia|exact E2]. }
  intros H. apply (G _ 0) in H. exact H.
Qed.
Lemma numbered_len {A} (l : list A) : length (numbered l) = length l.
Proof. unfold numbered. rewrite combine_length, seq_length. lia. Qed.
Lemma Forall2_nth {A C} (P : A -> C -> Prop) l l' : length l = length l' ->
  (forall k a c, nth_error l k = Some a -> nth_error l' k = Some c -> P a c) -> Forall2 P l l'.
Proof.
  revert l'. induction l as [|a l IH]; intros [|c l'] Hl H; try discriminate; constructor.
  - apply (H 0); reflexivity.
  - apply IH; [cbn in Hl; lia|]. intros k. apply (H (S k)).
Qed.
(** What a categorical feature says, in the model's terms. *)
Lemma value_cat f i v : value_at (FCat f) i = Some v ->
  exists c, nth_error (cData f) i = Some c /\
    (nth_error (cMissing f) i = Some true /\ v = VMissing \/
     nth_error (cMissing f) i = Some false /\ exists s, nth_error (cmBack (cMap f)) c = Some s /\ v = VCat s).
Proof.
  cbn. destruct (nth_error (cMissing f) i) as [[]|]; try discriminate; destruct (nth_error (cData f) i) as [c|]; try discriminate.
  - intros E. inversion E. exists c. auto.
  - destruct (nth_error (cmBack (cMap f)) c) as [s|] eqn:Es; cbn; intros E; inversion E. exists c. split; auto. right. split; auto. exists s. auto.
Qed.
Lemma hot_value {A} (x y : A) back j sv c s : NoDup back -> nth_error back j = Some sv -> nth_error back c = Some s ->
  hot x y j c = if string_dec s sv then x else y.
Proof.
  intros Hnd Hj Hc. unfold hot. destruct (Nat.eqb_spec j c) as [->|Hn]; destruct (string_dec s sv) as [E|E]; auto; try congruence.
  exfalso. apply Hn. apply (proj1 (NoDup_nth_error back) Hnd); [eapply nth_error_some_lt; eauto|congruence].
Qed.

(** More than two categories: a column per category, 1 in the cases of that category
    and 0 in the others; missing cases stay missing. *)
Theorem C57_column_per_category : forall f,
  aligned (FCat f) -> NoDup (cmBack (cMap f)) -> 2 < length (cmBack (cMap f)) ->
  exists fs, cEncodeToNum f = Ok fs /\
    Forall2 (fun s g => nName g = (cName f ++ "==" ++ s)%string /\ fLength (FNum g) = fLength (FCat f) /\ nHas g = cHas f /\
      (forall i, value_at (FCat f) i = Some VMissing -> value_at (FNum g) i = Some VMissing) /\
      (forall i s', value_at (FCat f) i = Some (VCat s') -> value_at (FNum g) i = Some (VNum (if string_dec s' s then f1 else f0))))
      (cmBack (cMap f)) fs.
Proof.
  intros f Ha Hnd Hn. exists (map (fun p => num_of f (fst p) (snd p)) (numbered (cmBack (cMap f)))).
  split; [apply cEncodeToNum_many; auto|]. apply Forall2_nth; [rewrite map_length, numbered_len; auto|].
  intros k s g Hs Hg. rewrite nth_error_map in Hg. destruct (nth_error (numbered (cmBack (cMap f))) k) as [p|] eqn:Ep; [|discriminate].
  cbn in Hg. inversion Hg; subst g; clear Hg. apply numbered_nth in Ep as [Ek Es]. rewrite Ek. assert (E : snd p = s) by congruence. rewrite E.
  split; [reflexivity|]. split; [reflexivity|]. split; [reflexivity|]. split.
  - intros i Hi. apply value_cat in Hi as (c & Hc & [[Hm _]|(_ & s' & _ & X)]); [|discriminate].
    cbn. rewrite Hm, nth_error_map, Hc. reflexivity.
  - intros i s' Hi. apply value_cat in Hi as (c & Hc & [[_ X]|(Hm & s2 & Hb & X)]); [discriminate|]. inversion X; subst s2.
    cbn. rewrite Hm, nth_error_map, Hc. cbn. do 2 f_equal. eapply hot_value; eauto.
Qed.
(** So a case that is not missing has a 1 in exactly one column. *)
Theorem C57_exactly_one : forall f fs i s,
  aligned (FCat f) -> NoDup (cmBack (cMap f)) -> 2 < length (cmBack (cMap f)) ->
  cEncodeToNum f = Ok fs -> value_at (FCat f) i = Some (VCat s) ->
  exists j, nth_error (cmBack (cMap f)) j = Some s /\ j < length fs /\
    forall k g, nth_error fs k = Some g -> value_at (FNum g) i = Some (VNum (if k =? j then f1 else f0)).
Proof.
  intros f fs i s Ha Hnd Hn E Hi. rewrite cEncodeToNum_many in E by auto. inversion E; subst fs; clear E.
  apply value_cat in Hi as (c & Hc & [[_ X]|(Hm & s2 & Hb & X)]); [discriminate|]. inversion X; subst s2.
  exists c. split; auto. split. { rewrite map_length, numbered_len. eapply nth_error_some_lt; eauto. }
  intros k g Hg. rewrite nth_error_map in Hg. destruct (nth_error (numbered (cmBack (cMap f))) k) as [p|] eqn:Ep; [|discriminate].
  cbn in Hg. inversion Hg; subst g; clear Hg. apply numbered_nth in Ep as [Ek Es]. rewrite Ek.
  cbn. rewrite Hm, nth_error_map, Hc. reflexivity.
Qed.
(** At most two categories: one column of category numbers. *)
Theorem C57_few_categories : forall f,
  aligned (FCat f) -> NoDup (cmBack (cMap f)) -> length (cmBack (cMap f)) <= 2 ->
  exists g, cEncodeToNum f = Ok [g] /\ nName g = cName f /\ fLength (FNum g) = fLength (FCat f) /\ nHas g = cHas f /\
    (forall i, value_at (FCat f) i = Some VMissing -> value_at (FNum g) i = Some VMissing) /\
    (forall i s c, value_at (FCat f) i = Some (VCat s) -> nth_error (cmBack (cMap f)) c = Some s ->
       value_at (FNum g) i = Some (VNum (f_of_nat c))).
Proof.
  intros f Ha Hnd Hn. eexists. split; [apply cEncodeToNum_few; auto|]. split; [reflexivity|]. split; [reflexivity|]. split; [reflexivity|]. split.
  - intros i Hi. apply value_cat in Hi as (c & Hc & [[Hm _]|(_ & s' & _ & X)]); [|discriminate].
    cbn. rewrite Hm, nth_error_map, Hc. reflexivity.
  - intros i s c' Hi Hc'. apply value_cat in Hi as (c & Hc & [[_ X]|(Hm & s2 & Hb & X)]); [discriminate|]. inversion X; subst s2.
    assert (E : c = c'). { apply (proj1 (NoDup_nth_error _) Hnd); [eapply nth_error_some_lt; eauto|congruence]. }
    subst c'. cbn. rewrite Hm, nth_error_map, Hc. reflexivity.
Qed.
Print Assumptions C57_column_per_category.
Print Assumptions C57_exactly_one.
Print Assumptions C57_few_categories.
Definition ex_cat : catF :=
  mkCat (mkCM [("c", 2); ("b", 1); ("a", 0)] ["a"; "b"; "c"]) [2; 0; 1; 0] [false; true; false; false] "C:x" false true.
Example C57_example :
  aligned (FCat ex_cat) /\ NoDup (cmBack (cMap ex_cat)) /\
  cEncodeToNum ex_cat =
  Ok [mkNum [f0; f1; f0; f1] [false; true; false; false] "C:x==a" true;
      mkNum [f0; f0; f1; f0] [false; true; false; false] "C:x==b" true;
      mkNum [f1; f0; f0; f0] [false; true; false; false] "C:x==c" true].
Proof. split; [reflexivity|]. split; [|reflexivity]. repeat constructor; cbn; intuition discriminate. Qed.

(** ** C58 *)
Definition hot_of (f : catF) (j : nat) (sv : string) : catF :=
  mkCat (mkCM [("false", 0); ("true", 1)] ["false"; "true"]) (map (hot 1 0 j) (cData f)) (cMissing f) (cName f ++ "==" ++ sv) (cRandom f) (cHas f).
Lemma cOneHot_many f : length (cData f) = length (cMissing f) -> 2 < length (cmBack (cMap f)) ->
  cOneHot f = Ok (map (fun p => hot_of f (fst p) (snd p)) (numbered (cmBack (cMap f)))).
Proof.
  intros Hl Hn. unfold cOneHot, NCats. rewrite (proj2 (Nat.ltb_lt _ _)) by lia. unfold numbered.
  rewrite (foreach_each _ (hot_of f)); [reflexivity|]. intros j sv acc.
  unfold cLength. rewrite <- Hl. rewrite (fill_ok _ (hot 1 0 j)).
  - reflexivity.
  - intros pre v post. unfold hot. destruct (j =? v); [apply set_at|reflexivity].
Qed.
Theorem C58_more_than_two_categories_partial : forall f,
  aligned (FCat f) -> NoDup (cmBack (cMap f)) -> 2 < length (cmBack (cMap f)) ->
  exists fs, cOneHot f = Ok fs /\
    Forall2 (fun s g => cName g = (cName f ++ "==" ++ s)%string /\ fLength (FCat g) = fLength (FCat f) /\ cHas g = cHas f /\ consistent g /\
      (forall i, value_at (FCat f) i = Some VMissing -> value_at (FCat g) i = Some VMissing) /\
      (forall i s', value_at (FCat f) i = Some (VCat s') -> value_at (FCat g) i = Some (VCat (if string_dec s' s then "true" else "false"))))
      (cmBack (cMap f)) fs.
Proof.
  intros f Ha Hnd Hn. exists (map (fun p => hot_of f (fst p) (snd p)) (numbered (cmBack (cMap f)))).
  split; [apply cOneHot_many; auto|]. apply Forall2_nth; [rewrite map_length, numbered_len; auto|].
  intros k s g Hs Hg. rewrite nth_error_map in Hg. destruct (nth_error (numbered (cmBack (cMap f))) k) as [p|] eqn:Ep; [|discriminate].
  cbn in Hg. inversion Hg; subst g; clear Hg. apply numbered_nth in Ep as [Ek Es]. rewrite Ek. assert (E : snd p = s) by congruence. rewrite E.
  split; [reflexivity|]. split; [reflexivity|]. split; [reflexivity|]. split; [|split].
  - intros v n. cbn. destruct (String.eqb_spec v "false") as [->|H1]; [|destruct (String.eqb_spec v "true") as [->|H2]].
    + split; [intros X; inversion X; reflexivity|]. destruct n as [|[|[|n]]]; cbn; intros X; inversion X; auto.
    + split; [intros X; inversion X; reflexivity|]. destruct n as [|[|[|n]]]; cbn; intros X; inversion X; auto.
    + split; [discriminate|]. destruct n as [|[|[|n]]]; cbn; intros X; inversion X; congruence.
  - intros i Hi. apply value_cat in Hi as (c & Hc & [[Hm _]|(_ & s' & _ & X)]); [|discriminate].
    cbn. rewrite Hm, nth_error_map, Hc. reflexivity.
  - intros i s' Hi. apply value_cat in Hi as (c & Hc & [[_ X]|(Hm & s2 & Hb & X)]); [discriminate|]. inversion X; subst s2.
    cbn [value_at hot_of cMissing cData cMap cmBack]. rewrite Hm, nth_error_map, Hc. cbn [option_map].
    rewrite (hot_value 1 0 (cmBack (cMap f)) k s c s') by auto. destruct (string_dec s' s); reflexivity.
Qed.
(** A categorical feature of at most two categories leaves no trace, whatever it holds
    and wherever it stands. *)
Theorem C58_small_features_vanish_refuted : forall a f b tbl labels, length (cmBack (cMap f)) <= 2 ->
  fmOneHot (mkFM (a ++ FCat f :: b) tbl labels) = fmOneHot (mkFM (a ++ b) tbl labels).
Proof.
  intros a f b tbl labels H. unfold fmOneHot. cbn [fmData fmLabels]. generalize (mkFM [] [] labels).
  assert (E : cOneHot f = Ok []). { unfold cOneHot, NCats. rewrite (proj2 (Nat.ltb_ge _ _)) by lia. reflexivity. }
  induction a as [|x a IH]; intros out.
  - cbn [app foreach]. rewrite E. reflexivity.
  - cbn [app foreach]. destruct x as [g|g]; [|destruct (cOneHot g)]; cbn [bind]; auto.
Qed.
Print Assumptions C58_more_than_two_categories_partial.
Print Assumptions C58_small_features_vanish_refuted.
Example C58_example :
  cOneHot ex_cat = Ok [mkCat (mkCM [("false", 0); ("true", 1)] ["false"; "true"]) [0; 1; 0; 1] [false; true; false; false] "C:x==a" false true;
                       mkCat (mkCM [("false", 0); ("true", 1)] ["false"; "true"]) [0; 0; 1; 0] [false; true; false; false] "C:x==b" false true;
                       mkCat (mkCM [("false", 0); ("true", 1)] ["false"; "true"]) [1; 0; 0; 0] [false; true; false; false] "C:x==c" false true]
  /\ (let* fm := fmOneHot ex_fm in Ok (map fName (fmData fm))) = Ok ["N:age"].
Proof. split; reflexivity. Qed.

(** ** C59 *)
Lemma names_ok_same data tbl labels labels' : names_ok (mkFM data tbl labels) -> names_ok (mkFM data tbl labels').
Proof. auto. Qed.
(** A shuffled copy has the values of the original under a permutation of the cases. *)
Definition shuffled_copy_of (f g : feature) : Prop :=
  fName g = (fName f ++ ":SHUFFLED")%string /\ is_numerical g = is_numerical f /\ fLength g = fLength f /\
  exists p, Permutation p (seq 0 (fLength f)) /\ forall i c, nth_error p i = Some c -> value_at g i = value_at f c.
Lemma fShuffledCopy_ok rnd f : aligned f -> exists g, fShuffledCopy rnd f = Ok g /\ shuffled_copy_of f g.
Proof.
  intros Ha. destruct f as [f|f]; cbn in Ha; cbn [fShuffledCopy].
  - destruct (C11_shuffle_is_permutation rnd (length (nMissing f))) as (p & Hp & H).
    destruct (H _ (nMissing f) (nData f) eq_refl Ha) as (ms' & d' & E & E1 & E2).
    unfold nShuffledCopy, nShuffle, nCopy. cbn [nMissing nData nName nHas]. rewrite !copyinto_same by auto. rewrite E. cbn [bind].
    eexists. split; [reflexivity|]. cbn [nData nMissing nName nHas fName is_numerical fLength]. unfold nLength. cbn [nMissing].
    split; [reflexivity|]. split; [reflexivity|].
    assert (L : length ms' = length (nMissing f)).
    { apply (f_equal (@length _)) in E1. rewrite !map_length in E1. rewrite E1. apply Permutation_length in Hp. rewrite seq_length in Hp. exact Hp. }
    split; [exact L|]. exists p. split; [exact Hp|]. intros i c Hc. cbn [value_at nMissing nData].
    assert (G : forall A (l l' : list A), map Some l' = map (nth_error l) p -> nth_error l' i = nth_error l c).
    { intros A l l' X. apply (f_equal (fun z => nth_error z i)) in X. rewrite !nth_error_map, Hc in X. cbn in X.
      destruct (nth_error l' i); cbn in X; congruence. }
    rewrite (G _ _ _ E1), (G _ _ _ E2). reflexivity.
  - destruct (C11_shuffle_is_permutation rnd (length (cMissing f))) as (p & Hp & H).
    destruct (H _ (cMissing f) (cData f) eq_refl Ha) as (ms' & d' & E & E1 & E2).
    unfold cShuffledCopy, cShuffle, cCopy. cbn [cMissing cData cName cHas cMap cRandom]. rewrite !copyinto_same by auto. rewrite E. cbn [bind].
    eexists. split; [reflexivity|]. cbn [cData cMissing cName cHas fName is_numerical fLength]. unfold cLength. cbn [cMissing].
    split; [reflexivity|]. split; [reflexivity|].
    assert (L : length ms' = length (cMissing f)).
    { apply (f_equal (@length _)) in E1. rewrite !map_length in E1. rewrite E1. apply Permutation_length in Hp. rewrite seq_length in Hp. exact Hp. }
    split; [exact L|]. exists p. split; [exact Hp|]. intros i c Hc. cbn [value_at cMissing cData cMap].
    assert (G : forall A (l l' : list A), map Some l' = map (nth_error l) p -> nth_error l' i = nth_error l c).
    { intros A l l' X. apply (f_equal (fun z => nth_error z i)) in X. rewrite !nth_error_map, Hc in X. cbn in X.
      destruct (nth_error l' i); cbn in X; congruence. }
    rewrite (G _ _ _ E1), (G _ _ _ E2). reflexivity.
Qed.
Lemma add_contrast_names fm g : names_ok fm -> names_ok (add_contrast g fm).
Proof. destruct fm as [data tbl labels]. intros H. unfold add_contrast. cbn [fmData fmMap fmLabels]. apply names_ok_snoc. exact H. Qed.

(** [n] contrasts of features drawn with replacement *)
Theorem C59_contrasts_named : forall n pick rnd fm, fmData fm <> [] -> Forall aligned (fmData fm) -> names_ok fm ->
  exists fm' fakes, AddContrasts n pick rnd fm = Ok fm' /\ fmData fm' = fmData fm ++ fakes /\ length fakes = n /\
    (forall g, In g fakes -> exists f, In f (fmData fm) /\ shuffled_copy_of f g) /\
    fmLabels fm' = fmLabels fm /\ names_ok fm'.
Proof.
  intros n pick rnd fm Hne Ha Hok. unfold AddContrasts.
  assert (Hlen : 0 < length (fmData fm)) by (destruct (fmData fm); [congruence|cbn; lia]).
  destruct (@for_up_total _ (fun i fm' => exists fakes, fmData fm' = fmData fm ++ fakes /\ length fakes = i /\
      (forall g, In g fakes -> exists f, In f (fmData fm) /\ shuffled_copy_of f g) /\ fmLabels fm' = fmLabels fm /\ names_ok fm')
      (fun i fm' => let* k := intn (pick i) (length (fmData fm)) in
        let* orig := get (fmData fm') k in let* fake := fShuffledCopy (rnd i) orig in Ok (add_contrast fake fm')) n 0 fm)
    as (fm' & E & fakes & Hd & Hl & Hf & Hlab & Hn').
  - intros i fm' _ (fakes & Hd & Hl & Hf & Hlab & Hn').
    destruct (intn_ok (pick i) (length (fmData fm)) Hlen) as [Ei Hk]. rewrite Ei. cbn [bind].
    destruct (nth_error (fmData fm) (pick i mod length (fmData fm))) as [orig|] eqn:Eo; [|apply nth_error_None in Eo; lia].
    assert (Eg : get (fmData fm') (pick i mod length (fmData fm)) = Ok orig) by (apply get_nth; rewrite Hd, nth_error_app1; auto).
    rewrite Eg. cbn [bind]. rewrite Forall_forall in Ha. assert (Hin : In orig (fmData fm)) by (eapply nth_error_In; eauto).
    destruct (fShuffledCopy_ok (rnd i) orig (Ha _ Hin)) as (g & Es & Hg). rewrite Es. cbn [bind]. eexists. split; [reflexivity|].
    exists (fakes ++ [g]). split; [cbn; rewrite Hd, app_assoc; reflexivity|]. split; [rewrite app_length; cbn; lia|]. split; [|split].
    + intros x Hx. apply in_app_or in Hx as [Hx|[<-|[]]]; eauto.
    + exact Hlab.
    + apply add_contrast_names; auto.
  - exists []. rewrite app_nil_r. split; auto. split; auto. split; [intros g []|auto].
  - exists fm', fakes. auto 8.
Qed.
(** one contrast of every feature, in order *)
Theorem C59_all_contrasts_named : forall rnd fm, Forall aligned (fmData fm) -> names_ok fm ->
  exists fm' fakes, ContrastAll rnd fm = Ok fm' /\ fmData fm' = fmData fm ++ fakes /\
    Forall2 shuffled_copy_of (fmData fm) fakes /\ fmLabels fm' = fmLabels fm /\ names_ok fm'.
Proof.
  intros rnd fm Ha Hok. unfold ContrastAll.
  destruct (@for_up_total _ (fun i fm' => exists fakes, fmData fm' = fmData fm ++ fakes /\
      Forall2 shuffled_copy_of (firstn i (fmData fm)) fakes /\ fmLabels fm' = fmLabels fm /\ names_ok fm')
      (fun i fm' => let* orig := get (fmData fm') i in let* fake := fShuffledCopy (rnd i) orig in Ok (add_contrast fake fm')) (length (fmData fm)) 0 fm)
    as (fm' & E & fakes & Hd & Hf & Hlab & Hn').
  - intros i fm' Hi (fakes & Hd & Hf & Hlab & Hn').
    destruct (nth_error (fmData fm) i) as [orig|] eqn:Eo; [|apply nth_error_None in Eo; lia].
    assert (Eg : get (fmData fm') i = Ok orig) by (apply get_nth; rewrite Hd, nth_error_app1; auto; lia).
    rewrite Eg. cbn [bind]. rewrite Forall_forall in Ha. assert (Hin : In orig (fmData fm)) by (eapply nth_error_In; eauto).
    destruct (fShuffledCopy_ok (rnd i) orig (Ha _ Hin)) as (g & Es & Hg). rewrite Es. cbn [bind]. eexists. split; [reflexivity|].
    exists (fakes ++ [g]). split; [cbn; rewrite Hd, app_assoc; reflexivity|]. split; [|split; [exact Hlab|apply add_contrast_names; auto]].
    destruct (nth_error_split' _ _ Eo) as (l1 & l2 & El & Hl1). rewrite El. rewrite El in Hf.
    replace (l1 ++ orig :: l2) with ((l1 ++ [orig]) ++ l2) in * by (rewrite <- app_assoc; reflexivity).
    rewrite (firstn_app_exact (l1 ++ [orig])) by (rewrite app_length; cbn; lia). apply Forall2_app; [|constructor; auto].
    rewrite <- app_assoc in Hf. rewrite firstn_app_exact in Hf by lia. exact Hf.
  - exists []. rewrite app_nil_r. split; [auto|]. split; [cbn; constructor|auto].
  - exists fm', fakes. cbn [plus] in Hf. rewrite firstn_all in Hf. auto 8.
Qed.

(** the matrix of numerical columns: right when the new names are distinct *)
Definition encoded (f : feature) : list feature :=
  match f with
  | FNum _ => [f]
  | FCat c => if length (cmBack (cMap c)) <=? 2 then [FNum (mkNum (map f_of_nat (cData c)) (cMissing c) (cName c) (cHas c))]
              else map (fun p => FNum (num_of c (fst p) (snd p))) (numbered (cmBack (cMap c)))
  end.
Lemma map_fst_rev_combine {A C} (a : list A) (c : list C) : length a = length c -> map fst (rev (combine a c)) = rev a.
Proof.
  intros H. rewrite map_rev. f_equal. revert c H. induction a as [|x a IH]; intros [|y c] H; try discriminate; auto. cbn. f_equal. apply IH. cbn in H; lia.
Qed.
Lemma map_len_table data : NoDup (map fName data) -> map_len (table_of data) = length data.
Proof.
  intros H. unfold map_len, table_of. rewrite map_fst_rev_combine by (rewrite map_length, seq_length; auto).
  rewrite nodup_fixed_point; [rewrite rev_length, map_length; auto|]. apply NoDup_rev. auto.
Qed.
Lemma nodup_app_l' {A} (l l' : list A) : NoDup (l ++ l') -> NoDup l.
Proof. induction l as [|a l IH]; intros H; constructor; inversion H; subst; auto. intros X. apply H2. apply in_or_app. auto. Qed.
Lemma add_columns : forall fs out, fmMap out = table_of (fmData out) -> NoDup (map fName (fmData out ++ fs)) ->
  fold_left (fun out f => add_column f out) fs out = mkFM (fmData out ++ fs) (table_of (fmData out ++ fs)) (fmLabels out).
Proof.
  induction fs as [|f fs IH]; intros out Ht Hnd; cbn [fold_left].
  - rewrite app_nil_r. destruct out; cbn in *. rewrite Ht. reflexivity.
  - rewrite IH.
    + cbn. rewrite <- app_assoc. reflexivity.
    + unfold add_column; cbn [fmData fmMap]. rewrite table_snoc, Ht. f_equal. f_equal. apply map_len_table. rewrite map_app in Hnd. eapply nodup_app_l'; eauto.
    + cbn. rewrite <- app_assoc. exact Hnd.
Qed.
Lemma add_columns_data : forall fs out, fmData (fold_left (fun out f => add_column f out) fs out) = fmData out ++ fs /\
  fmLabels (fold_left (fun out f => add_column f out) fs out) = fmLabels out.
Proof.
  induction fs as [|f fs IH]; intros out; cbn [fold_left]; [rewrite app_nil_r; auto|].
  destruct (IH (add_column f out)) as [-> ->]. cbn. rewrite <- app_assoc. auto.
Qed.
Lemma fold_left_map {A C D} (g : D -> C -> D) (h : A -> C) : forall l d, fold_left (fun d a => g d (h a)) l d = fold_left g (map h l) d.
Proof. induction l as [|a l IH]; intros d; cbn; auto. Qed.
Lemma fmEncodeToNum_ok fm : Forall aligned (fmData fm) ->
  fmEncodeToNum fm = Ok (fold_left (fun out f => add_column f out) (flat_map encoded (fmData fm)) (mkFM [] [] (fmLabels fm))).
Proof.
  intros Ha. unfold fmEncodeToNum. generalize (mkFM [] [] (fmLabels fm)). induction Ha as [|f fs Hf H IH]; intros out; [reflexivity|].
  cbn [foreach flat_map]. rewrite fold_left_app. destruct f as [f|f].
  - cbn [bind]. rewrite IH. reflexivity.
  - assert (E : exists fns, cEncodeToNum f = Ok fns /\ map FNum fns = encoded (FCat f)).
    { cbn [encoded]. destruct (Nat.leb_spec (length (cmBack (cMap f))) 2).
      - rewrite cEncodeToNum_few by auto. eexists. split; reflexivity.
      - rewrite cEncodeToNum_many by auto. eexists. split; [reflexivity|]. rewrite map_map. reflexivity. }
    destruct E as (fns & E & Em). rewrite E. cbn [bind]. rewrite IH. rewrite <- Em. rewrite <- (fold_left_map (fun out f => add_column f out) FNum). reflexivity.
Qed.
Theorem C59_encoded_names : forall fm, Forall aligned (fmData fm) ->
  exists fm', fmEncodeToNum fm = Ok fm' /\
    (** numerical columns are kept as they are, in order, the others give numerical columns *)
    (exists parts, fmData fm' = concat parts /\ Forall2 (fun f part => match f with FNum _ => part = [f] | FCat c => exists gs, cEncodeToNum c = Ok gs /\ part = map FNum gs end) (fmData fm) parts) /\
    fmLabels fm' = fmLabels fm /\
    (NoDup (map fName (fmData fm')) -> names_ok fm').
Proof.
  intros fm Ha. eexists. split; [apply fmEncodeToNum_ok; auto|].
  destruct (add_columns_data (flat_map encoded (fmData fm)) (mkFM [] [] (fmLabels fm))) as [Ed El]. rewrite Ed, El.
  cbn [fmData fmLabels app]. split; [|split; [reflexivity|]].
  - exists (map encoded (fmData fm)). split; [apply flat_map_concat_map|].
    clear Ed El. induction Ha as [|f fs Hf H IH]; cbn [map]; constructor; auto. destruct f as [f|f]; [reflexivity|]. cbn [encoded].
    destruct (Nat.leb_spec (length (cmBack (cMap f))) 2).
    + rewrite cEncodeToNum_few by auto. eexists. split; reflexivity.
    + rewrite cEncodeToNum_many by auto. eexists. split; [reflexivity|]. rewrite map_map. reflexivity.
  - intros Hnd. rewrite add_columns; [apply table_names_ok|reflexivity|exact Hnd].
Qed.
(** Distinct feature names do not make the new names distinct, and then the table leads to
    the wrong column: [C:x] with category [a] beside a feature [C:x==a]. *)
Definition ex_clash : fmatrix :=
  mkFM [FCat ex_cat; FCat (mkCat (mkCM [("a", 0)] ["a"]) [0; 0; 0; 0] (repeat false 4) "C:x==a" false false);
        FNum (mkNum [f1; f1; f0; f0] (repeat false 4) "N:y" false)]
       [("N:y", 2); ("C:x==a", 1); ("C:x", 0)] ["1"; "2"; "3"; "4"].
Theorem C59_clashing_names_refuted :
  NoDup (map fName (fmData ex_clash)) /\ names_ok ex_clash /\ Forall aligned (fmData ex_clash) /\
  exists fm k f, fmEncodeToNum ex_clash = Ok fm /\ assoc "N:y" (fmMap fm) = Some k /\ nth_error (fmData fm) k = Some f /\ fName f <> "N:y".
Proof.
  split; [repeat constructor; cbn; intuition discriminate|]. split; [exact (table_names_ok (fmData ex_clash) _)|].
  split; [repeat constructor|]. eexists. eexists. eexists. split; [vm_compute; reflexivity|]. split; [reflexivity|]. split; [reflexivity|]. discriminate.
Qed.
Print Assumptions C59_contrasts_named.
Print Assumptions C59_all_contrasts_named.
Print Assumptions C59_encoded_names.
Print Assumptions C59_clashing_names_refuted.
Example C59_example :
  (let* fm := ContrastAll (fun _ _ => 1) ex_fm in let* fm := fmEncodeToNum fm in Ok (map fName (fmData fm), fmMap fm)) =
  Ok (["N:age"; "C:kind"; "N:age:SHUFFLED"; "C:kind:SHUFFLED"], [("C:kind:SHUFFLED", 3); ("N:age:SHUFFLED", 2); ("C:kind", 1); ("N:age", 0)]).
Proof. reflexivity. Qed.

(** ** C60 *)
Section Strip.
  Variable itoa : nat -> string.
  (** Values are kept, under new names. *)
  Definition renamed (i : nat) (f g : feature) : Prop :=
    match f, g with
    | FNum f, FNum g => nData g = nData f /\ nMissing g = nMissing f /\ nHas g = nHas f /\ nName g = ("N:" ++ itoa i)%string
    | FCat f, FCat g => cData g = cData f /\ cMissing g = cMissing f /\ cHas g = cHas f /\ cName g = ("C:" ++ itoa i)%string /\
                        cmBack (cMap g) = map itoa (seq 0 (length (cmBack (cMap f))))
    | _, _ => False
    end.
  Lemma strip_renamed i f : renamed i f (strip_one itoa i f).
  Proof. destruct f; cbn; auto 8. Qed.
  (** The matrix with features 0 and [k] exchanged. *)
  Definition exchanged (k : nat) (l l' : list feature) : Prop :=
    length l' = length l /\ forall i, i < length l -> nth_error l' i = nth_error l (if i =? 0 then k else if i =? k then 0 else i).
  Lemma find_name_spec target : forall fs i k, find_name i target fs = Some k ->
    exists j f, k = i + j /\ nth_error fs j = Some f /\ fName f = target.
  Proof.
    induction fs as [|f fs IH]; intros i k H; cbn in H; [discriminate|].
    destruct (String.eqb_spec (fName f) target) as [E|E].
    - inversion H; subst. exists 0, f. split; [lia|auto].
    - apply IH in H as (j & g & -> & Hg & Hn). exists (S j), g. split; [lia|auto].
  Qed.
  Lemma find_name_none target : forall fs i, find_name i target fs = None -> forall f, In f fs -> fName f <> target.
  Proof.
    induction fs as [|f fs IH]; intros i H g Hg; [destruct Hg|]. cbn in H. destruct (String.eqb_spec (fName f) target) as [E|E]; [discriminate|].
    destruct Hg as [<-|Hg]; eauto.
  Qed.

Theorem C60_data_kept_partial : forall target fm,
  exists data fm', StripStrings itoa target fm = Ok fm' /\
    (** the target comes first, the rest keeps its place *)
    ((forall f, In f (fmData fm) -> fName f <> target) /\ data = fmData fm \/
     exists k f, nth_error (fmData fm) k = Some f /\ fName f = target /\ exchanged k (fmData fm) data) /\
    length (fmData fm') = length data /\
    (forall i f, nth_error data i = Some f -> exists g, nth_error (fmData fm') i = Some g /\ renamed i f g) /\
    fmLabels fm' = map itoa (seq 0 (length (fmLabels fm))) /\ names_ok fm'.
Proof.
  intros target fm.
  assert (G : exists data, match find_name 0 target (fmData fm) with
                 | None => Ok (fmData fm)
                 | Some k => let* f := get (fmData fm) k in
                             let* g := get (fmData fm) 0 in
                             let* d := set (fmData fm) k g in set d 0 f
                 end = Ok data /\
     ((forall f, In f (fmData fm) -> fName f <> target) /\ data = fmData fm \/
     exists k f, nth_error (fmData fm) k = Some f /\ fName f = target /\ exchanged k (fmData fm) data)).
  { destruct (find_name 0 target (fmData fm)) as [k|] eqn:E.
    - apply find_name_spec in E as (j & f & -> & Hf & Hn). cbn [plus].
      assert (Hj : j < length (fmData fm)) by (eapply nth_error_some_lt; eauto).
      destruct (nth_error (fmData fm) 0) as [g|] eqn:Eg; [|apply nth_error_None in Eg; lia].
      rewrite (get_nth _ _ Hf), (get_nth _ _ Eg). cbn [bind]. rewrite set_ok by auto. cbn [bind]. rewrite set_ok by (rewrite upd_length; lia).
      eexists. split; [reflexivity|]. right. exists j, f. split; auto. split; auto. split; [rewrite !upd_length; auto|].
      intros i Hi. destruct (Nat.eqb_spec i 0) as [->|H0].
      + rewrite nth_error_upd_eq by (rewrite upd_length; lia). symmetry. exact Hf.
      + rewrite nth_error_upd_neq by auto. destruct (Nat.eqb_spec i j) as [->|H1].
        * rewrite nth_error_upd_eq by auto. symmetry. exact Eg.
        * rewrite nth_error_upd_neq by auto. reflexivity.
    - eexists. split; [reflexivity|]. left. split; auto. eapply find_name_none; eauto. }
  destruct G as (data & E & HG). unfold StripStrings. rewrite E. cbn [bind]. exists data. eexists. split; [reflexivity|]. split; [exact HG|].
  cbn [fmData fmLabels]. change (combine (seq 0 (length data)) data) with (numbered data).
  split; [rewrite map_length, numbered_len; reflexivity|]. split; [|split; [reflexivity|]].
  - intros i f Hf. rewrite nth_error_map.
    destruct (nth_error (numbered data) i) as [p|] eqn:Ep; [|apply nth_error_None in Ep; rewrite numbered_len in Ep; apply nth_error_None in Ep; congruence].
    apply numbered_nth in Ep as [E1 E2]. destruct p as [i' f']. cbn in *. subst i'. assert (f' = f) by congruence. subst f'.
    eexists. split; [reflexivity|]. apply strip_renamed.
  - apply (table_names_ok (map (fun '((i, f) : nat * feature) => strip_one itoa i f) (numbered data))).
Qed.
(** The table of every categorical feature sends each of its categories to the index of
    the feature in the matrix. *)
Theorem C60_categories_misnumbered_refuted : forall target fm fm' i g v,
  StripStrings itoa target fm = Ok fm' -> nth_error (fmData fm') i = Some (FCat g) -> In v (cmBack (cMap g)) ->
  assoc v (cmMap (cMap g)) = Some i.
Proof.
  intros target fm fm' i g v H Hg Hv. unfold StripStrings in H. apply bind_ok in H as (data & _ & H). inversion H; subst fm'; clear H.
  cbn [fmData] in Hg. change (combine (seq 0 (length data)) data) with (numbered data) in Hg. rewrite nth_error_map in Hg.
  destruct (nth_error (numbered data) i) as [[i' f]|] eqn:Ep; [|discriminate]. apply numbered_nth in Ep as [E1 _]. cbn in E1. subst i'.
  cbn in Hg. inversion Hg as [Hs]. destruct f as [f|f]; cbn in Hs; [discriminate|]. inversion Hs; subst g; clear Hs Hg.
  cbn [strip_cat cMap cmBack cmMap] in *. revert Hv. generalize (map itoa (seq 0 (length (cmBack (cMap f))))). intros l Hv.
  apply in_rev in Hv. rewrite <- map_rev. induction (rev l) as [|a l' IH]; [destruct Hv|]. cbn.
  destruct (String.eqb_spec v a); auto. destruct Hv as [X|Hv]; [congruence|auto].
Qed.
End Strip.
Corollary C60_inconsistent_refuted : exists itoa fm fm' g,
  (forall a b, a < 10 -> b < 10 -> itoa a = itoa b -> a = b) /\
  Forall (fun f => match f with FCat f => consistent f | FNum _ => True end) (fmData fm) /\
  StripStrings itoa "N:age" fm = Ok fm' /\ nth_error (fmData fm') 1 = Some (FCat g) /\ ~ consistent g /\
  (** and looking up a category by name gives a wrong number *)
  snd (CatToNum (cMap g) "0") <> 0.
Proof.
  exists (fun n => String (ascii_of_nat (48 + n)) ""), ex_fm. eexists. eexists. split; [|split; [|split; [vm_compute; reflexivity|split; [reflexivity|split]]]].
  - intros a b Ha Hb E. inversion E as [E']. apply (f_equal nat_of_ascii) in E'. rewrite !nat_ascii_embedding in E' by lia. lia.
  - constructor; [exact I|]. constructor; [|constructor]. intros v n. cbn.
    destruct (String.eqb_spec v "b") as [->|H1]; [|destruct (String.eqb_spec v "a") as [->|H2]].
    + split; [intros X; inversion X; reflexivity|]. destruct n as [|[|[|n]]]; cbn; intros X; inversion X; auto.
    + split; [intros X; inversion X; reflexivity|]. destruct n as [|[|[|n]]]; cbn; intros X; inversion X; auto.
    + split; [discriminate|]. destruct n as [|[|[|n]]]; cbn; intros X; inversion X; congruence.
  - intros H. specialize (H "0" 1). cbn in H. assert (X : Some 1 = Some 1) by reflexivity. apply H in X. discriminate.
  - cbn. discriminate.
Qed.
Print Assumptions C60_data_kept_partial.
Print Assumptions C60_categories_misnumbered_refuted.
Print Assumptions C60_inconsistent_refuted.
