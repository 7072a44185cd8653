(** C06: a copy of a categorical feature and its original. *)
From Verif Require Import Go GoLemmas F64 ModelFeature ModelAlias FeatureProofs.
Local Open Scope string_scope.
Local Open Scope nat_scope.
Local Open Scope list_scope.

(** The reference and slice of a feature are valid in the heap. *)
Definition in_heap (h : heap) (f : catH) : Prop :=
  hcMap f < length (hMaps h) /\
  exists a, nth_error (hArrs h) (slArr (hcBack f)) = Some a /\ slLen (hcBack f) <= length a.

(** The number the map of [f] holds for [v], without adding it. *)
Definition lookupH (h : heap) (f : catH) (v : string) : option nat :=
  match nth_error (hMaps h) (hcMap f) with Some m => assoc v m | None => None end.

(** ** What operations on the copy cannot change *)

(** [g] may write only behind the names of [f]. *)
Record safe (f : catH) (h0 h : heap) (g : catH) : Prop := {
  sf_names : exists a, nth_error (hArrs h) (slArr (hcBack f)) = Some a
     /\ slLen (hcBack f) <= length a
     /\ exists a0, nth_error (hArrs h0) (slArr (hcBack f)) = Some a0
        /\ firstn (slLen (hcBack f)) a = firstn (slLen (hcBack f)) a0;
  sf_g : slArr (hcBack g) = slArr (hcBack f) -> slLen (hcBack f) <= slLen (hcBack g);
  sf_gin : in_heap h g;
  sf_known : forall v n, lookupH h0 f v = Some n -> lookupH h f v = Some n;
  sf_map : hcMap f < length (hMaps h)
}.

Lemma firstn_upd_ge {A} (l : list A) i x k : k <= i -> firstn k (upd l i x) = firstn k l.
Proof.
  revert i k; induction l as [|y l IH]; intros [|i] [|k] H; cbn; auto; try lia.
  f_equal. apply IH. lia.
Qed.

Lemma appendS_safe f h0 h g v h' s' :
  safe f h0 h g -> appendS h (hcBack g) v = Ok (h', s') ->
  safe f h0 h' (mkCH (hcMap g) s' (hcData g) (hcMissing g) (hcHas g)) /\ hMaps h' = hMaps h.
Proof.
  intros [(a & Ha & Hla & a0 & Ha0 & Hfa) Hg [Hgm (b & Hb & Hlb)] Hk Hm] E.
  unfold appendS in E. rewrite (get_nth _ _ Hb) in E. cbn [bind] in E.
  destruct (Nat.ltb_spec (slLen (hcBack g)) (length b)) as [Hlt|Hge].
  - rewrite set_ok in E by auto. cbn [bind] in E.
    rewrite set_ok in E by (eapply nth_error_some_lt; eauto). cbn [bind] in E.
    inversion E; subst; clear E. cbn [hMaps]. split; auto.
    assert (Hlarr : slArr (hcBack g) < length (hArrs h)) by (eapply nth_error_some_lt; eauto).
    apply Nat.ltb_lt in Hlarr.
    split; cbn [hcBack hcMap slArr slLen hMaps hArrs].
    + rewrite nth_error_upd. rewrite Hlarr, andb_true_r.
      destruct (Nat.eqb_spec (slArr (hcBack f)) (slArr (hcBack g))) as [Eq|Ne].
      * eexists; split; [reflexivity|]. rewrite upd_length.
        assert (b = a) by congruence. subst b. split; auto.
        exists a0. split; auto. rewrite firstn_upd_ge; auto.
      * exists a. split; auto. split; auto. exists a0; auto.
    + intros Eq. specialize (Hg Eq). lia.
    + split; cbn; auto. rewrite nth_error_upd, Nat.eqb_refl, Hlarr. cbn.
      eexists; split; [reflexivity|]. rewrite upd_length. lia.
    + intros w n Hw. specialize (Hk w n Hw). unfold lookupH in *; cbn. auto.
    + auto.
  - inversion E; subst; clear E. cbn [hMaps]. split; auto.
    assert (Hfl : slArr (hcBack f) < length (hArrs h)) by (eapply nth_error_some_lt; eauto).
    split; cbn [hcBack hcMap slArr slLen hMaps hArrs].
    + exists a. split; [apply nth_error_app_some; auto|]. split; auto. exists a0; auto.
    + intros Eq. lia.
    + split; cbn; auto. rewrite nth_error_app2, Nat.sub_diag by lia. cbn.
      eexists; split; [reflexivity|]. rewrite app_length, firstn_length. cbn. 
      rewrite repeat_length. lia.
    + intros w n Hw. specialize (Hk w n Hw). unfold lookupH in *; cbn. auto.
    + auto.
Qed.

Lemma catToNum_safe f h0 h g v h' g' n :
  safe f h0 h g -> CatToNumH h g v = Ok (h', g', n) -> safe f h0 h' g'.
Proof.
  intros Hs E. unfold CatToNumH in E. apply bind_ok in E as (m & Em & E).
  destruct (assoc v m) as [k|] eqn:Ea.
  - inversion E; subst; auto.
  - apply bind_ok in E as (maps & Es & E). apply set_inv in Es as [Hl ->].
    apply bind_ok in E as ([h2 b] & E2 & E). inversion E; subst; clear E.
    assert (Hs' : safe f h0 (mkH (upd (hMaps h) (hcMap g) ((v, slLen (hcBack g)) :: m)) (hArrs h)) g).
    { destruct Hs as [H1 H2 [H3 H3'] H4 H5]. split; cbn [hArrs hMaps]; auto.
      - split; cbn [hMaps hArrs]; [rewrite upd_length; auto|auto].
      - intros w k Hw. specialize (H4 w k Hw). unfold lookupH in *. cbn [hMaps].
        rewrite nth_error_upd. apply Nat.ltb_lt in Hl. rewrite Hl, andb_true_r.
        destruct (Nat.eqb_spec (hcMap f) (hcMap g)) as [Eq|Ne]; auto.
        apply get_inv in Em. rewrite Eq, Em in H4. cbn.
        destruct (String.eqb_spec w v); auto. subst. congruence.
      - rewrite upd_length; auto. }
    eapply appendS_safe in E2; eauto. apply E2.
Qed.

Lemma safe_same_slice f h0 h g g' :
  safe f h0 h g -> hcMap g' = hcMap g -> hcBack g' = hcBack g -> safe f h0 h g'.
Proof.
  intros [H1 H2 [H3 H3'] H4 H5] Em Eb. split; auto; try (rewrite Eb; auto).
  split; rewrite ?Em, ?Eb; auto.
Qed.

Lemma runopH_safe f h0 h g o h' g' :
  safe f h0 h g -> runopH h g o = Ok (h', g') -> safe f h0 h' g'.
Proof.
  intros Hs E. destruct o; cbn in E.
  - unfold appendH in E. destruct (missing_token v).
    + inversion E; subst. eapply safe_same_slice; eauto.
    + apply bind_ok in E as ([[h2 g2] n] & E2 & E). inversion E; subst.
      eapply safe_same_slice; [eapply catToNum_safe; eauto| |]; auto.
  - unfold putStrH in E. apply bind_ok in E as ([[h2 g2] n] & E2 & E).
    apply bind_ok in E as (d & _ & E). apply bind_ok in E as (ms & _ & E). inversion E; subst.
    eapply safe_same_slice; [eapply catToNum_safe; eauto| |]; auto.
  - apply bind_ok in E as (g2 & E2 & E). inversion E; subst. unfold putiH in E2.
    apply bind_ok in E2 as (d & _ & E2). apply bind_ok in E2 as (ms & _ & E2). inversion E2; subst.
    eapply safe_same_slice; eauto.
  - apply bind_ok in E as (g2 & E2 & E). inversion E; subst. unfold putMissingH in E2.
    apply bind_ok in E2 as (ms & _ & E2). inversion E2; subst.
    eapply safe_same_slice; eauto.
  - apply bind_ok in E as ([[h2 g2] n] & E2 & E). inversion E; subst.
    eapply catToNum_safe; eauto.
Qed.

(** Whatever is done to the copy, the original answers the same for every value
    (GetStr), every category number (NumToCat) and every name it knew.  What
    is missing for the full claim: names it did not know, see below. *)
Theorem C06_copy_keeps_original_partial : forall h f os h' g',
  in_heap h f -> runH h (copyH f) os = Ok (h', g') ->
  (forall i, getStrH h' f i = getStrH h f i)
  /\ (forall n, numToCatH h' f n = numToCatH h f n)
  /\ (forall v n, lookupH h f v = Some n -> lookupH h' f v = Some n).
Proof.
  intros h f os h' g' [Hm (a & Ha & Hla)] E.
  assert (Hs : safe f h h (copyH f)).
  { split; auto.
    - exists a; repeat split; auto. exists a; auto.
    - split; auto. exists a; auto. }
  assert (Hs' : safe f h h' g').
  { revert Hs E. generalize (copyH f) as g. generalize h at 2 3 as h1.
    induction os as [|o os IH]; intros h1 g Hs E; cbn in E.
    - inversion E; subst; auto.
    - apply bind_ok in E as ([h2 g2] & E1 & E2). eapply IH; [|exact E2].
      eapply runopH_safe; eauto. }
  destruct Hs' as [(b & Hb & Hlb & a0 & Ha0 & Hfb) _ _ Hk _].
  assert (a0 = a) by congruence. subst a0.
  assert (Hnum : forall n, numToCatH h' f n = numToCatH h f n).
  { intros n. unfold numToCatH, getS. destruct (Nat.ltb_spec n (slLen (hcBack f))) as [Hlt|]; auto.
    rewrite (get_nth _ _ Hb), (get_nth _ _ Ha). cbn [bind]. unfold get.
    assert (E1 : forall l : list string, n < slLen (hcBack f) ->
       nth_error (firstn (slLen (hcBack f)) l) n = nth_error l n).
    { clear. intros l. revert n. generalize (slLen (hcBack f)) as k.
      induction l as [|x l IH]; intros [|k] [|n] H; cbn; auto; try lia. apply IH; lia. }
    rewrite <- (E1 b), <- (E1 a), Hfb; auto. }
  split; [|split]; auto.
  intros i. unfold getStrH. destruct (get (hcMissing f) i) as [[|]| |]; cbn [bind]; auto.
  destruct (get (hcData f) i); cbn [bind]; auto.
Qed.

(** A feature built by appending to a new one. *)
Definition built (vs : list string) : res (heap * catH) :=
  runH (fst (newH (mkH [] []))) (snd (newH (mkH [] []))) (map HAppend vs).

(** The full claim is false.  A name first seen by the copy is found in the shared
    map by the original, which then answers a number that it cannot
    translate back. *)
Theorem C06_copy_shares_map_refuted :
  exists h f, built ["a"] = Ok (h, f) /\ in_heap h f
   /\ (forall v n, lookupH h f v = Some n -> numToCatH h f n = Ok v)
   /\ exists h' g, runH h (copyH f) [HAppend "b"] = Ok (h', g)
      /\ lookupH h f "b" = None /\ lookupH h' f "b" = Some 1 /\ numToCatH h' f 1 = Panic
      /\ exists h2 f2, appendH h' f "b" = Ok (h2, f2) /\ getStrH h2 f2 1 = Panic.
Proof.
  exists (mkH [[("a", 0)]] [[]; ["a"]]), (mkCH 0 (mkSl 1 1) [0] [false] false).
  split; [vm_compute; reflexivity|]. split.
  { split; cbn; [lia|]. eexists; split; [reflexivity|]. cbn; lia. }
  split.
  { intros v n H. unfold lookupH in H. cbn [hMaps hcMap nth_error assoc] in H.
    destruct (String.eqb_spec v "a"); [|discriminate].
    inversion H; subst. vm_compute. reflexivity. }
  exists (mkH [[("b", 1); ("a", 0)]] [[]; ["a"]; ["a"; "b"]]),
         (mkCH 0 (mkSl 2 2) [0; 1] [false; false] false).
  split; [vm_compute; reflexivity|]. split; [vm_compute; reflexivity|].
  split; [vm_compute; reflexivity|]. split; [vm_compute; reflexivity|].
  exists (mkH [[("b", 1); ("a", 0)]] [[]; ["a"]; ["a"; "b"]]),
         (mkCH 0 (mkSl 1 1) [0; 1] [false; false] false).
  split; vm_compute; reflexivity.
Qed.

(** In the other direction even stored values change: with spare capacity behind
    the names, a new name of the original overwrites the name the copy has
    just added. *)
Theorem C06_original_overwrites_copy_refuted :
  exists h f h1 g h2 f2,
    built ["a"; "b"; "c"] = Ok (h, f)
    /\ runH h (copyH f) [HAppend "x"] = Ok (h1, g) /\ getStrH h1 g 3 = Ok "x"
    /\ runH h1 f [HAppend "y"] = Ok (h2, f2) /\ getStrH h2 g 3 = Ok "y".
Proof.
  exists (mkH [[("c", 2); ("b", 1); ("a", 0)]] [[]; ["a"]; ["a"; "b"]; ["a"; "b"; "c"; ""]]),
         (mkCH 0 (mkSl 3 3) [0; 1; 2] [false; false; false] false).
  exists (mkH [[("x", 3); ("c", 2); ("b", 1); ("a", 0)]] [[]; ["a"]; ["a"; "b"]; ["a"; "b"; "c"; "x"]]),
         (mkCH 0 (mkSl 3 4) [0; 1; 2; 3] [false; false; false; false] false).
  exists (mkH [[("y", 3); ("x", 3); ("c", 2); ("b", 1); ("a", 0)]]
              [[]; ["a"]; ["a"; "b"]; ["a"; "b"; "c"; "y"]]),
         (mkCH 0 (mkSl 3 4) [0; 1; 2; 3] [false; false; false; false] false).
  repeat match goal with |- _ /\ _ => split end; vm_compute; reflexivity.
Qed.
Print Assumptions C06_copy_keeps_original_partial.
Print Assumptions C06_copy_shares_map_refuted.
Print Assumptions C06_original_overwrites_copy_refuted.

(** ** The heap and the values

    A feature in a heap is the value of ModelFeature.v that one sees through its pointers;
    operations, copies and readings on the heap are those of the values.  (What differs is
    only what happens to other features of the same heap.) *)
Definition seen (h : heap) (f : catH) (name : string) (random : bool) : catF :=
  mkCat (mkCM (nth (hcMap f) (hMaps h) []) (firstn (slLen (hcBack f)) (nth (slArr (hcBack f)) (hArrs h) [])))
        (hcData f) (hcMissing f) name random (hcHas f).
Definition value_op (f : catF) (o : opH) : res catF :=
  match o with
  | HAppend v => Ok (cAppend f v)
  | HPutStr i v => cPutStr f i v
  | HPuti i v => cPuti f i v
  | HPutMissing i => cPutMissing f i
  | HCatToNum v => Ok (mkCat (fst (CatToNum (cMap f) v)) (cData f) (cMissing f) (cName f) (cRandom f) (cHas f))
  end.

Lemma upd_here {B} (l : list B) i x : i < length l -> nth_error (upd l i x) i = Some x.
Proof. revert i. induction l as [|y l IH]; intros [|i] H; cbn in *; try lia; [reflexivity|]. apply IH. lia. Qed.
Lemma upd_twice {B} (l : list B) i x y : upd (upd l i x) i y = upd l i y.
Proof. revert i. induction l as [|z l IH]; intros [|i]; cbn; try reflexivity. f_equal. apply IH. Qed.
Lemma appendS_seen h s v : (exists a, nth_error (hArrs h) (slArr s) = Some a /\ slLen s <= length a) ->
  exists h' s', appendS h s v = Ok (h', s') /\ hMaps h' = hMaps h /\ slLen s' = S (slLen s) /\
    (exists a, nth_error (hArrs h') (slArr s') = Some a /\ slLen s' <= length a) /\
    firstn (slLen s') (nth (slArr s') (hArrs h') []) = firstn (slLen s) (nth (slArr s) (hArrs h) []) ++ [v].
Proof.
  intros (a & Ha & Hl). assert (Hlt : slArr s < length (hArrs h)) by (apply nth_error_Some; congruence).
  unfold appendS. rewrite (get_nth _ _ Ha). cbn [bind]. destruct (Nat.ltb_spec (slLen s) (length a)) as [H|H].
  - rewrite set_ok by assumption. cbn [bind]. rewrite set_ok by assumption. cbn [bind]. eexists _, _. split; [reflexivity|]. cbn [hMaps hArrs slLen slArr].
    split; [reflexivity|]. split; [reflexivity|]. split.
    + exists (upd a (slLen s) v). split; [apply upd_here; assumption|]. rewrite upd_length. lia.
    + rewrite (nth_error_nth _ _ _ (upd_here _ _ _ Hlt)), (nth_error_nth _ _ _ Ha). clear - H. revert H. generalize (slLen s) as k.
      induction a as [|x a IH]; intros [|k] H; cbn in H |- *; try lia; [reflexivity|]. f_equal. apply IH. lia.
  - assert (E : slLen s = length a) by lia. eexists _, _. split; [reflexivity|]. cbn [hMaps hArrs slLen slArr]. split; [reflexivity|]. split; [reflexivity|].
    set (cap := if length a =? 0 then 1 else 2 * length a). split.
    + eexists. split; [rewrite nth_error_app2 by lia; rewrite Nat.sub_diag; reflexivity|]. rewrite app_length. cbn [length]. rewrite firstn_length. lia.
    + rewrite app_nth2 by lia. rewrite Nat.sub_diag. cbn [nth]. rewrite (nth_error_nth _ _ _ Ha). rewrite E, firstn_all.
      change (v :: repeat "" (cap - S (length a))) with ([v] ++ repeat "" (cap - S (length a))). rewrite app_assoc.
      rewrite firstn_app. rewrite app_length. cbn [length]. replace (S (length a) - (length a + 1)) with 0 by lia. rewrite firstn_O.
      rewrite app_nil_r, firstn_all2; [reflexivity|]. rewrite app_length. cbn. lia.
Qed.
Lemma catToNum_seen h f v name random : in_heap h f -> exists h' f' n, CatToNumH h f v = Ok (h', f', n) /\ in_heap h' f' /\
  hcData f' = hcData f /\ hcMissing f' = hcMissing f /\ hcHas f' = hcHas f /\ CatToNum (cMap (seen h f name random)) v = (cMap (seen h' f' name random), n).
Proof.
  intros [Hm Ha]. unfold CatToNumH, CatToNum. destruct (nth_error (hMaps h) (hcMap f)) as [m|] eqn:Em; [|apply nth_error_None in Em; lia].
  rewrite (get_nth _ _ Em). cbn [bind seen cMap cmMap cmBack]. rewrite (nth_error_nth _ _ _ Em). destruct (assoc v m) as [n|] eqn:Ev.
  - exists h, f, n. repeat split; auto. cbn [seen cMap]. rewrite (nth_error_nth _ _ _ Em). reflexivity.
  - rewrite set_ok by assumption. cbn [bind]. destruct (appendS_seen (mkH (upd (hMaps h) (hcMap f) ((v, slLen (hcBack f)) :: m)) (hArrs h)) (hcBack f) v Ha)
      as (h' & s' & -> & E1 & E2 & E3 & E4). cbn [bind]. cbn [hMaps hArrs] in *. eexists _, _, _. split; [reflexivity|]. cbn [hcMap hcBack hcData hcMissing hcHas].
    split; [split; [rewrite E1; cbn; rewrite upd_length; exact Hm|exact E3]|]. split; [reflexivity|]. split; [reflexivity|]. split; [reflexivity|].
    destruct Ha as (a & Ha & Hl). assert (En : length (firstn (slLen (hcBack f)) (nth (slArr (hcBack f)) (hArrs h) [])) = slLen (hcBack f)).
    { rewrite (nth_error_nth _ _ _ Ha), firstn_length. lia. }
    unfold seen. cbn [cMap hcMap hcBack]. rewrite E1, E4. rewrite (nth_error_nth _ _ _ (upd_here _ _ _ Hm)). rewrite En. reflexivity.
Qed.
Theorem C06_as_values : forall h f name random os, in_heap h f ->
  match runH h f os with
  | Ok (h', f') => in_heap h' f' /\ foreach os (fun o v => value_op v o) (seen h f name random) = Ok (seen h' f' name random)
  | Panic => foreach os (fun o v => value_op v o) (seen h f name random) = Panic
  | Spin => False
  end.
Proof.
  intros h f name random os. revert h f. induction os as [|o os IH]; intros h f H; [cbn; auto|]. cbn [runH foreach].
  assert (G : match runopH h f o with
              | Ok (h', f') => in_heap h' f' /\ value_op (seen h f name random) o = Ok (seen h' f' name random)
              | Panic => value_op (seen h f name random) o = Panic
              | Spin => False
              end).
  { destruct o as [v|i v|i v|i|v]; cbn [runopH value_op].
    - unfold appendH, cAppend. destruct (missing_token v); [split; [exact H|reflexivity]|].
      destruct (catToNum_seen h f v name random H) as (h' & f' & n & -> & H' & D & M & B & E). cbn [bind]. rewrite E.
      split; [exact H'|]. unfold seen in *. cbn in *. rewrite D, M, B. reflexivity.
    - unfold putStrH, cPutStr, cPutMissing. destruct (catToNum_seen h f v name random H) as (h' & f' & n & -> & H' & D & M & B & E). cbn [bind].
      assert (T : forall has, match (let* d := set (hcData f') i n in let* ms := set (hcMissing f') i false in Ok (h', mkCH (hcMap f') (hcBack f') d ms has)) with
        | Ok (h2, f2) => in_heap h2 f2 /\ (let* d := set (hcData f) i n in let* ms := set (hcMissing f) i false in Ok (mkCat (cMap (seen h' f' name random)) d ms name random has)) = Ok (seen h2 f2 name random)
        | Panic => (let* d := set (hcData f) i n in let* ms := set (hcMissing f) i false in Ok (mkCat (cMap (seen h' f' name random)) d ms name random has)) = Panic
        | Spin => False end).
      { intros has. rewrite D, M. unfold set. destruct (i <? length (hcData f)); cbn [bind]; [|reflexivity].
        destruct (i <? length (hcMissing f)); cbn [bind]; [|reflexivity]. split; [exact H'|reflexivity]. }
      destruct (missing_token v); cbn [orb].
      + cbn [seen cMissing cMap cData cName cRandom]. destruct (set (hcMissing f) i true) as [ms| |] eqn:Es; cbn [bind].
        * cbn [cMap cMissing cData cName cRandom cHas]. replace (CatToNum _ v) with (cMap (seen h' f' name random), n) by (symmetry; exact E).
          specialize (T true). unfold set in Es. destruct (i <? length (hcMissing f)) eqn:Ei; [|discriminate]. injection Es as <-.
          unfold set in *. rewrite upd_length. rewrite Ei in *. rewrite upd_twice. exact T.
        * unfold set in *. destruct (i <? length (hcMissing f)) eqn:Ei; [discriminate|]. rewrite M, Ei. destruct (i <? length (hcData f')); reflexivity.
        * unfold set in *. destruct (i <? length (hcMissing f)); discriminate.
      + cbn [bind seen cMissing cMap cData cName cRandom cHas]. replace (CatToNum _ v) with (cMap (seen h' f' name random), n) by (symmetry; exact E).
        apply T.
    - unfold putiH, cPuti, seen. cbn [cData cMissing]. unfold set. destruct (i <? length (hcData f)); cbn [bind]; [|reflexivity].
      destruct (i <? length (hcMissing f)); cbn [bind]; [|reflexivity]. split; [exact H|reflexivity].
    - unfold putMissingH, cPutMissing, seen. cbn [cMissing]. unfold set. destruct (i <? length (hcMissing f)); cbn [bind]; [|reflexivity].
      split; [exact H|reflexivity].
    - destruct (catToNum_seen h f v name random H) as (h' & f' & n & -> & H' & D & M & B & E). cbn [bind]. split; [exact H'|]. rewrite E. cbn [fst].
      unfold seen in *. cbn in *. rewrite D, M, B. reflexivity. }
  destruct (runopH h f o) as [[h' f']| |]; cbn [bind]; [|rewrite G; reflexivity|exact G].
  destruct G as [H' ->]. cbn [bind]. apply IH, H'.
Qed.
Print Assumptions C06_as_values.

(** Copies and readings. *)
Theorem C06_read_as_values : forall h f name random, in_heap h f ->
  (in_heap h (copyH f) /\ seen h (copyH f) name random = cCopy (seen h f name random)) /\
  ncatsH f = NCats (cMap (seen h f name random)) /\
  forall i, getStrH h f i = cGetStr (seen h f name random) i /\ numToCatH h f i = NumToCat (cMap (seen h f name random)) i.
Proof.
  intros h f name random [Hm (a & Ha & Hl)]. split; [split; [split; [exact Hm|exists a; auto]|reflexivity]|]. split.
  { unfold ncatsH, NCats, seen. cbn. rewrite (nth_error_nth _ _ _ Ha), firstn_length. lia. }
  assert (N : forall i, numToCatH h f i = NumToCat (cMap (seen h f name random)) i).
  { intros i. unfold numToCatH, NumToCat, getS, seen. cbn [cMap cmBack]. rewrite (get_nth _ _ Ha), (nth_error_nth _ _ _ Ha). cbn [bind]. unfold get.
    destruct (Nat.ltb_spec i (slLen (hcBack f))) as [H|H].
    - replace (nth_error (firstn (slLen (hcBack f)) a) i) with (nth_error a i); [reflexivity|]. clear - H. revert a i H. generalize (slLen (hcBack f)) as k.
      induction k as [|k IH]; intros [|x a] [|i] H; cbn; try lia; auto. apply IH. lia.
    - replace (nth_error (firstn (slLen (hcBack f)) a) i) with (@None string); [reflexivity|]. symmetry. apply nth_error_None. rewrite firstn_length. lia. }
  intros i. split; [|apply N]. unfold getStrH, cGetStr. cbn [seen cMissing cData]. destruct (get (hcMissing f) i) as [[]| |]; cbn [bind]; try reflexivity.
  destruct (get (hcData f) i); cbn [bind]; try reflexivity. apply N.
Qed.
Print Assumptions C06_read_as_values.

(** A new feature is an empty value, so all features built from one are covered. *)
Example C06_new_example : forall h name random, let (h', f) := newH h in in_heap h' f /\ seen h' f name random = mkCat emptyCM [] [] name random false.
Proof.
  intros h name random. cbn. unfold in_heap, seen. cbn. rewrite !app_length. cbn. split; [split; [lia|]|].
  - exists []. rewrite nth_error_app2, Nat.sub_diag by lia. split; [reflexivity|cbn; lia].
  - rewrite !app_nth2, !Nat.sub_diag by lia. reflexivity.
Qed.
