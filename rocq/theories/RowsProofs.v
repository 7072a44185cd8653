(** Growing on renamed cases: every function of the growing of a tree commutes with a
    renaming of the cases under which the data reads alike. *)
From Verif Require Import Go GoLemmas F64 ModelFeature ModelSample ModelImpurity ModelSplit ModelSort ModelSearch ModelTargets ModelTree ModelGrow PropByName
  SplitterProofs GrowProofs.
Local Open Scope nat_scope.
Local Open Scope list_scope.

(** ** Lemmas on the monad *)
Lemma bind_sim {A A' C C'} (h : A -> A') (k : C -> C') m m' f f' :
  m' = rmap h m -> (forall a, f' (h a) = rmap k (f a)) -> bind m' f' = rmap k (bind m f).
Proof. intros -> H. destruct m; cbn; auto. Qed.
Lemma bind_same {A C C'} (k : C -> C') (m : res A) f f' :
  (forall a, f' a = rmap k (f a)) -> bind m f' = rmap k (bind m f).
Proof. intros H. destruct m; cbn; auto. Qed.
Definition flow_map {A A' C C'} (h : A -> A') (k : C -> C') (x : flow A C) : flow A' C' :=
  match x with Next a => Next (h a) | Done c => Done (k c) end.
Lemma loop_sim {A A' C C'} (h : A -> A') (k : C -> C') body body' fuel : forall s,
  (forall s, body' (h s) = rmap (flow_map h k) (body s)) ->
  loop fuel body' (h s) = rmap k (loop fuel body s).
Proof.
  induction fuel as [|fuel IH]; intros s H; cbn [loop]; [reflexivity|]. apply (bind_sim (flow_map h k)); [apply H|].
  intros [a|c]; cbn; auto.
Qed.
Lemma for_up_sim {A A'} (h : A -> A') body body' n : forall lo s,
  (forall i s, body' i (h s) = rmap h (body i s)) ->
  for_up n lo body' (h s) = rmap h (for_up n lo body s).
Proof. induction n as [|n IH]; intros lo s H; cbn [for_up]; [reflexivity|]. apply (bind_sim h); auto. Qed.
Lemma for_down_sim {A A'} (h : A -> A') body body' n : forall s,
  (forall i s, body' i (h s) = rmap h (body i s)) ->
  for_down n body' (h s) = rmap h (for_down n body s).
Proof. induction n as [|n IH]; intros s H; cbn [for_down]; [reflexivity|]. apply (bind_sim h); auto. Qed.
Lemma foreach_sim {A A' C C'} (g : A -> A') (h : C -> C') body body' l : forall s,
  (forall a s, body' (g a) (h s) = rmap h (body a s)) ->
  foreach (map g l) body' (h s) = rmap h (foreach l body s).
Proof. induction l as [|a l IH]; intros s H; cbn [foreach map]; [reflexivity|]. apply (bind_sim h); auto. Qed.
Lemma foreach_same {A A' C} (g : A -> A') (body : A -> C -> res C) body' l : forall s,
  (forall a s, body' (g a) s = body a s) -> foreach (map g l) body' s = foreach l body s.
Proof. induction l as [|a l IH]; intros s H; cbn [foreach map]; [reflexivity|]. rewrite H. destruct (body a s); cbn; auto. Qed.
Lemma loop_same {A C} (body body' : A -> res (flow A C)) fuel : forall s,
  (forall s, body s = body' s) -> loop fuel body s = loop fuel body' s.
Proof. induction fuel as [|fuel IH]; intros s H; cbn [loop]; [reflexivity|]. rewrite H. apply bind_ext. intros [a|c] _; auto. Qed.
Lemma rmap_id {A} (m : res A) : rmap (fun a => a) m = m.
Proof. destruct m; reflexivity. Qed.

Section Rows.
  Variable g : nat -> nat.

  (** ** sortby.go *)
  Definition mst (s : st) : st := (map g (fst s), snd s).
  Lemma swap_sim s i j : swap (mst s) i j = rmap mst (swap s i j).
  Proof.
    destruct s as [cs vs]. cbn [swap mst fst snd]. apply (bind_sim (map g)); [apply swapl_map|]. intros a.
    apply bind_same. intros v. reflexivity.
  Qed.
  Ltac cond := match goal with |- context [if ?b then _ else _] => destruct b end.
  Lemma medianOfThree_sim s a b c : medianOfThree (mst s) a b c = rmap mst (medianOfThree s a b c).
  Proof.
    unfold medianOfThree. cbn [mst snd]. apply bind_same. intros x1. apply bind_same. intros x0.
    apply (bind_sim mst). { destruct (fltb x1 x0); [apply swap_sim|reflexivity]. } intros s1. cbn [mst snd].
    apply bind_same. intros y2. apply bind_same. intros y1.
    apply (bind_sim mst). { destruct (fltb y2 y1); [apply swap_sim|reflexivity]. } intros s2. cbn [mst snd].
    apply bind_same. intros z1. apply bind_same. intros z0. destruct (fltb z1 z0); [apply swap_sim|reflexivity].
  Qed.
  Definition m3 (s : st * nat * nat) : st * nat * nat := let '(s, a, b) := s in (mst s, a, b).
  Definition m5 (s : st * nat * nat * nat * nat) : st * nat * nat * nat * nat := let '(s, a, b, c, d) := s in (mst s, a, b, c, d).
  Lemma pivot_up_sim fuel p c s : pivot_up fuel p c (m3 s) = rmap m3 (pivot_up fuel p c s).
  Proof.
    unfold pivot_up. apply loop_sim. intros [[s0 a] b]. cbn [m3]. destruct (b <? c); [|reflexivity]. cbn [mst snd].
    apply bind_same. intros x. destruct (fltb x p); [reflexivity|]. destruct (feqb p x); [|reflexivity].
    apply (bind_sim mst); [apply (swap_sim s0)|]. reflexivity.
  Qed.
  Lemma pivot_down_sim fuel p b s : pivot_down fuel p b (m3 s) = rmap m3 (pivot_down fuel p b s).
  Proof.
    unfold pivot_down. apply loop_sim. intros [[s0 c] d]. cbn [m3]. destruct (b <? c); [|reflexivity]. cbn [mst snd].
    apply bind_same. intros x. destruct (fltb p x); [reflexivity|]. destruct (feqb x p); [|reflexivity].
    apply (bind_sim mst); [apply (swap_sim s0)|]. reflexivity.
  Qed.
  Lemma pivot_loop_sim fuel p s : pivot_loop fuel p (m5 s) = rmap m5 (pivot_loop fuel p s).
  Proof.
    unfold pivot_loop. apply loop_sim. intros [[[[s0 a] b] c] d]. cbn [m5].
    apply (bind_sim m3); [apply (pivot_up_sim fuel p c (s0, a, b))|]. intros [[s1 a1] b1]. cbn [m3].
    apply (bind_sim m3); [apply (pivot_down_sim fuel p b1 (s1, c, d))|]. intros [[s2 c1] d1]. cbn [m3].
    destruct (c1 <=? b1); [reflexivity|]. apply (bind_sim mst); [apply (swap_sim s2)|]. reflexivity.
  Qed.
  Lemma swapRange_sim s a b n : ModelSort.swapRange (mst s) a b n = rmap mst (ModelSort.swapRange s a b n).
  Proof. unfold ModelSort.swapRange. apply for_up_sim. intros i s0. apply swap_sim. Qed.
  Lemma doPivot_sim s lo hi : doPivot (mst s) lo hi = rmap m3 (doPivot s lo hi).
  Proof.
    unfold doPivot. apply (bind_sim mst).
    { destruct (40 <? hi - lo); [|reflexivity]. apply (bind_sim mst); [apply medianOfThree_sim|]. intros s1.
      apply (bind_sim mst); [apply medianOfThree_sim|]. intros s2. apply medianOfThree_sim. }
    intros s1. apply (bind_sim mst); [apply medianOfThree_sim|]. intros s2. cbn [mst snd]. apply bind_same. intros p.
    apply (bind_sim m5); [apply (pivot_loop_sim (S hi) p (s2, lo + 1, lo + 1, hi, hi))|]. intros [[[[s3 a] b] c] d]. cbn [m5].
    apply (bind_sim mst); [apply swapRange_sim|]. intros s4. apply (bind_sim mst); [apply swapRange_sim|]. intros s5. reflexivity.
  Qed.
  Definition m2 (s : st * nat) : st * nat := let '(s, a) := s in (mst s, a).
  Lemma sink_sim s a i : sink (mst s) a i = rmap mst (sink s a i).
  Proof.
    unfold sink. apply (loop_sim m2 mst) with (s := (s, i)). intros [s0 j]. cbn [m2]. destruct (a <? j); [|reflexivity]. cbn [mst snd].
    apply bind_same. intros x. apply bind_same. intros y. destruct (fltb x y); [|reflexivity].
    apply (bind_sim mst); [apply (swap_sim s0)|]. reflexivity.
  Qed.
  Lemma insertionSort_sim s a b : insertionSort (mst s) a b = rmap mst (insertionSort s a b).
  Proof. unfold insertionSort. apply for_up_sim. intros i s0. apply sink_sim. Qed.
  Lemma siftDown_sim s lo hi first : siftDown (mst s) lo hi first = rmap mst (siftDown s lo hi first).
  Proof.
    unfold siftDown. apply (loop_sim m2 mst) with (s := (s, lo)). intros [s0 root]. cbn [m2].
    destruct (hi <=? 2 * root + 1); [reflexivity|]. cbn [mst snd]. apply bind_same. intros child.
    apply bind_same. intros x. apply bind_same. intros y. destruct (fleb y x); [reflexivity|].
    apply (bind_sim mst); [apply (swap_sim s0)|]. reflexivity.
  Qed.
  Lemma heapSort_sim s a b : heapSort (mst s) a b = rmap mst (heapSort s a b).
  Proof.
    unfold heapSort. apply (bind_sim mst). { apply for_down_sim. intros i s0. apply siftDown_sim. }
    intros s1. apply for_down_sim. intros i s0. apply (bind_sim mst); [apply swap_sim|]. intros s2. apply siftDown_sim.
  Qed.
  Lemma quickSort_sim md : forall s a b, quickSort md (mst s) a b = rmap mst (quickSort md s a b).
  Proof.
    induction md as [|md IH]; intros s a b; cbn [quickSort].
    - destruct (7 <? b - a); [apply heapSort_sim|]. destruct (1 <? b - a); [apply insertionSort_sim|reflexivity].
    - destruct (7 <? b - a).
      + apply (bind_sim m3); [apply doPivot_sim|]. intros [[s1 mlo] mhi]. cbn [m3].
        destruct (mlo - a <? b - mhi); (apply (bind_sim mst); [apply IH|]; intros s2; apply IH).
      + destruct (1 <? b - a); [apply insertionSort_sim|reflexivity].
  Qed.
  Lemma SortBy_sim cs vs : SortBy (map g cs) vs = rmap mst (SortBy cs vs).
  Proof. unfold SortBy. rewrite map_length. apply bind_same. intros md. apply (quickSort_sim (md * 2) (cs, vs)). Qed.

  (** ** Features and targets that read alike *)
  Definition reads {B} (d d' : list B) : Prop := forall c, get d (g c) = get d' c.
  Definition num_rows (f f' : numF) : Prop :=
    nName f = nName f' /\ nHas f = nHas f' /\ reads (nData f) (nData f') /\ reads (nMissing f) (nMissing f').
  Definition cat_rows (f f' : catF) : Prop :=
    cMap f = cMap f' /\ cName f = cName f' /\ cRandom f = cRandom f' /\ cHas f = cHas f' /\
    reads (cData f) (cData f') /\ reads (cMissing f) (cMissing f').
  Definition rows (f f' : feature) : Prop :=
    match f, f' with
    | FNum f, FNum f' => num_rows f f'
    | FCat f, FCat f' => cat_rows f f'
    | _, _ => False
    end.
  Record target_rows {A : arith} {St} (T T' : target A St) : Prop := mkTR {
    tr_imp : forall l s, tImp T (map g l) s = tImp T' l s;
    tr_split : forall l r m s, tSplit T (map g l) (map g r) (option_map (map g) m) s = tSplit T' l r m s;
    tr_update : forall l r m mv s, tUpdate T (map g l) (map g r) (option_map (map g) m) (map g mv) s = tUpdate T' l r m mv s
  }.

  (** ** The searches of one feature *)
  Lemma load_sim data data' cs vals : reads data data' -> load data (map g cs) vals = load data' cs vals.
  Proof. intros H. unfold load. erewrite foreach_same; [reflexivity|]. intros a [i v]. rewrite H. reflexivity. Qed.
  Lemma load_cats_sim data data' cs vals : reads data data' -> load_cats data (map g cs) vals = load_cats data' cs vals.
  Proof. intros H. unfold load_cats. erewrite foreach_same; [reflexivity|]. intros a [i v]. rewrite H. reflexivity. Qed.
  Definition mpair (p : list nat * list nat) : list nat * list nat := (map g (fst p), map g (snd p)).
  Lemma by_bit_sim data data' bit cs : reads data data' -> by_bit bit data (map g cs) = rmap mpair (by_bit bit data' cs).
  Proof.
    intros H. unfold by_bit. apply (foreach_sim g mpair _ _ cs ([], [])). intros c [l r]. cbn [mpair fst snd]. rewrite H.
    apply bind_same. intros cat. destruct (bit cat); unfold rmap, mpair; cbn [fst snd]; rewrite map_app; reflexivity.
  Qed.

  Section Search.
    Variable A : arith.
    Variable St : Type.
    Variables T T' : target A St.
    Variable rnd : nat -> nat.
    Hypothesis HT : target_rows T T'.

    Definition mfound (r : found A St) : found A St := mkFound (fCode r) (fDec r) (fConst r) (map g (fCases r)) (fAl r).

    Lemma tSplit_none l r s : tSplit T (map g l) (map g r) None s = tSplit T' l r None s.
    Proof. apply (tr_split _ _ HT l r None s). Qed.

    Lemma num_step_sim cs vs p i s : num_step A St T (map g cs) vs p i s = num_step A St T' cs vs p i s.
    Proof.
      destruct s as [[[[ls li] dec] sf] tg]. unfold num_step. apply bind_ext. intros vi _. apply bind_ext. intros vl _.
      destruct (fleb vi (fadd vl f1e_7)); [reflexivity|]. rewrite !slice_map, map_length, bind_rmap. apply bind_ext. intros lm _.
      rewrite bind_rmap. apply bind_ext. intros rm _. f_equal. destruct (ls =? 0); [apply tSplit_none|].
      rewrite bind_rmap. apply bind_ext. intros mm _. apply (tr_update _ _ HT lm rm None mm).
    Qed.
    Lemma for_up_ext {S0} (b b' : nat -> S0 -> res S0) n : forall lo s, (forall i s, b i s = b' i s) -> for_up n lo b s = for_up n lo b' s.
    Proof. induction n as [|n IH]; intros lo s H; cbn [for_up]; [reflexivity|]. rewrite H. apply bind_ext. auto. Qed.

    Lemma BestNumSplit_sim f f' cs p leaf rs al : num_rows f f' ->
      BestNumSplit A St T rnd f (map g cs) p leaf rs al = rmap mfound (BestNumSplit A St T' rnd f' cs p leaf rs al).
    Proof.
      intros (_ & _ & Hd & _). unfold BestNumSplit. rewrite map_length. destruct (2 * leaf <=? length cs); [|reflexivity].
      rewrite (load_sim _ _ _ _ Hd). apply bind_same. intros vals.
      apply (bind_sim mst); [apply SortBy_sim|]. intros [cs1 vs]. cbn [mst fst snd].
      apply bind_same. intros v0. apply bind_same. intros vn. destruct (fleb vn (fadd v0 f1e_7)); [reflexivity|].
      apply bind_same. intros [[lo stop] d].
      rewrite (for_up_ext _ (num_step A St T' cs1 vs p)) by (intros; apply num_step_sim).
      apply bind_same. intros [[[[ls li] dec] sf] tg]. reflexivity.
    Qed.

    Lemma with_missing_sim has ms ms' search search' cs p al : reads ms ms' ->
      (forall l p al, search (map g l) p al = rmap mfound (search' l p al)) ->
      with_missing A St T has ms search (map g cs) p al = rmap mfound (with_missing A St T' has ms' search' cs p al).
    Proof.
      intros Hm Hs. unfold with_missing. destruct has; [|apply Hs].
      apply (bind_sim mpair).
      { apply (foreach_sim g mpair _ _ cs ([], [])). intros c [l r]. cbn [mpair fst snd]. rewrite Hm.
        apply bind_same. intros b. destruct b; unfold rmap, mpair; cbn [fst snd]; rewrite map_app; reflexivity. }
      intros [l nms]. cbn [mpair fst snd]. rewrite !map_length. destruct (length nms =? 0); [reflexivity|].
      rewrite (tr_imp _ _ HT). apply bind_same. intros [pimp tg].
      assert (E : (if 0 <? length l then tImp T (map g l) tg else Ok (nofZ A 0, tg)) = (if 0 <? length l then tImp T' l tg else Ok (nofZ A 0, tg))).
      { destruct (0 <? length l); [apply (tr_imp _ _ HT)|reflexivity]. }
      rewrite E. apply bind_same. intros [mimp tg1]. apply (bind_sim mfound); [apply Hs|]. intros s. reflexivity.
    Qed.

    Lemma iter_step_sim bit setb data data' cs p leaf best i s : reads data data' ->
      iter_step A St T bit setb data (map g cs) p leaf best i s = iter_step A St T' bit setb data' cs p leaf best i s.
    Proof.
      intros H. destruct s as [[a b] tg]. unfold iter_step. destruct (bit best i); [reflexivity|].
      rewrite (by_bit_sim _ _ _ _ H), bind_rmap. apply bind_ext. intros [l r] _. cbn [mpair fst snd]. rewrite !map_length, tSplit_none. reflexivity.
    Qed.
    Lemma iter_search_sim bit setb nc data data' cs p leaf tg : reads data data' ->
      iter_search A St T bit setb nc data (map g cs) p leaf tg = iter_search A St T' bit setb nc data' cs p leaf tg.
    Proof.
      intros H. unfold iter_search. apply loop_same. intros [[[best dec] t] j]. destruct (j <? nc); [|reflexivity].
      rewrite (for_up_ext _ (iter_step A St T' bit setb data' cs p leaf best)) by (intros; apply iter_step_sim; exact H). reflexivity.
    Qed.

    Definition m4 (s : list nat * list Z * nat * nat) : list nat * list Z * nat * nat := let '(cs, c, l, r) := s in (map g cs, c, l, r).
    Definition m4' (s : list nat * list Z * nat * nat * nat) : list nat * list Z * nat * nat * nat := let '(cs, c, l, j, r) := s in (map g cs, c, l, j, r).
    Lemma cat_part_sim bits cs cached : cat_part bits (map g cs) cached = rmap m4 (cat_part bits cs cached).
    Proof.
      unfold cat_part. rewrite map_length. apply (loop_sim m4' m4) with (s := (cs, cached, 0, 0, length cs)). intros [[[[c1 k1] l] j] r]. cbn [m4'].
      destruct (j <? r); [|reflexivity]. apply bind_same. intros x. destruct (negb (Z.land bits x =? 0)%Z); [reflexivity|].
      apply (bind_sim (map g)); [apply swapl_map|]. intros c2. apply bind_same. intros k2. reflexivity.
    Qed.
    Definition m7 (s : list nat * list Z * Z * A * bool * St * nat) : list nat * list Z * Z * A * bool * St * nat :=
      let '(cs, c, b, dec, k, tg, d) := s in (map g cs, c, b, dec, k, tg, d).
    Lemma cat_step_sim e p leaf i s : cat_step A St T rnd e p leaf i (m7 s) = rmap m7 (cat_step A St T' rnd e p leaf i s).
    Proof.
      destruct s as [[[[[[cs c] b] dec] k] tg] d]. cbn [m7]. unfold cat_step.
      destruct (if e then (Z.of_nat i, d) else ((Z.of_nat (rnd d) mod 2 ^ 63)%Z, S d)) as [bits d1].
      apply (bind_sim m4); [apply cat_part_sim|]. intros [[[c1 k1] l] r]. cbn [m4]. rewrite map_length.
      destruct ((l <? leaf) || (length c1 - r <? leaf)); [reflexivity|].
      apply (bind_sim (map g)); [apply slice_map|]. intros lm. apply (bind_sim (map g)); [apply slice_map|]. intros rm.
      rewrite tSplit_none. apply bind_same. intros [imp tg1]. destruct (nltb A dec (decrease A p imp)); reflexivity.
    Qed.
    Lemma BestCatSplit_sim f f' cs p mx leaf al : cat_rows f f' ->
      BestCatSplit A St T rnd f (map g cs) p mx leaf al = rmap mfound (BestCatSplit A St T' rnd f' cs p mx leaf al).
    Proof.
      intros (Hc & _ & _ & _ & Hd & _). unfold BestCatSplit. rewrite Hc, (load_cats_sim _ _ _ _ Hd). apply bind_same. intros cached.
      apply (bind_sim m7).
      { apply (for_up_sim m7) with (s := (cs, cached, 0%Z, minImp A, true, aTgt al, aDraw al)). intros i s. apply cat_step_sim. }
      intros [[[[[[c1 k1] b] dec] k] tg] d]. reflexivity.
    Qed.
    Definition mb (s : list nat * nat * nat) : list nat * nat * nat := let '(cs, l, r) := s in (map g cs, l, r).
    Definition mb4 (s : list nat * nat * nat * nat) : list nat * nat * nat * nat := let '(cs, l, i, r) := s in (map g cs, l, i, r).
    Lemma bin_part_sim data data' cs : reads data data' -> bin_part data (map g cs) = rmap mb (bin_part data' cs).
    Proof.
      intros H. unfold bin_part. rewrite map_length. apply (loop_sim mb4 mb) with (s := (cs, 0, 0, length cs)). intros [[[c1 l] i] r]. cbn [mb4].
      destruct (i <? r); [|reflexivity]. apply (bind_sim g); [apply get_map|]. intros c. rewrite H. apply bind_same. intros k.
      destruct (k =? 1); [reflexivity|]. apply (bind_sim (map g)); [apply swapl_map|]. intros c2. reflexivity.
    Qed.
    Lemma BestBinSplit_sim f f' cs p leaf al : cat_rows f f' ->
      BestBinSplit A St T f (map g cs) p leaf al = rmap mfound (BestBinSplit A St T' f' cs p leaf al).
    Proof.
      intros (Hc & _ & _ & _ & Hd & _). unfold BestBinSplit. apply (bind_sim mb); [apply bin_part_sim; exact Hd|]. intros [[c1 l] r]. cbn [mb].
      rewrite map_length. destruct ((l <? leaf) || (length c1 - r <? leaf)); [reflexivity|].
      apply (bind_sim (map g)); [apply slice_map|]. intros lm. apply (bind_sim (map g)); [apply slice_map|]. intros rm.
      rewrite tSplit_none. apply bind_same. intros [imp tg]. reflexivity.
    Qed.
    Lemma BestCatSplitBig_sim f f' cs p mx leaf al : cat_rows f f' ->
      BestCatSplitBig A St T rnd f (map g cs) p mx leaf al = rmap mfound (BestCatSplitBig A St T' rnd f' cs p mx leaf al).
    Proof.
      intros (Hc & _ & _ & _ & Hd & _). unfold BestCatSplitBig. rewrite Hc. eapply bind_sim with (h := fun x => x).
      { rewrite rmap_id. apply for_up_ext. intros i [[[best dec] tg] d].
        destruct (if NCats (cMap f') <=? mx then (Z.of_nat i, d) else ((Z.of_nat (rnd d) mod 2 ^ Z.of_nat (NCats (cMap f') - 1))%Z, S d)) as [bits d1].
        rewrite (by_bit_sim _ _ _ _ Hd), bind_rmap. apply bind_ext. intros [l r] _. cbn [mpair fst snd]. rewrite !map_length, tSplit_none. reflexivity. }
      intros [[[best dec] tg] d]. reflexivity.
    Qed.
    Lemma BestCatSplitIter_sim f f' cs p leaf al : cat_rows f f' ->
      BestCatSplitIter A St T f (map g cs) p leaf al = rmap mfound (BestCatSplitIter A St T' f' cs p leaf al).
    Proof.
      intros (Hc & _ & _ & _ & Hd & _). unfold BestCatSplitIter. rewrite Hc, (iter_search_sim _ _ _ _ _ _ _ _ _ Hd).
      apply bind_same. intros [[b dec] tg]. reflexivity.
    Qed.
    Lemma BestCatSplitIterBig_sim f f' cs p leaf al : cat_rows f f' ->
      BestCatSplitIterBig A St T f (map g cs) p leaf al = rmap mfound (BestCatSplitIterBig A St T' f' cs p leaf al).
    Proof.
      intros (Hc & _ & _ & _ & Hd & _). unfold BestCatSplitIterBig. rewrite Hc, (iter_search_sim _ _ _ _ _ _ _ _ _ Hd).
      apply bind_same. intros [[b dec] tg]. reflexivity.
    Qed.

    Lemma BestSplit_sim f f' cs p leaf rs al : rows f f' ->
      BestSplit A St T rnd f (map g cs) p leaf rs al = rmap mfound (BestSplit A St T' rnd f' cs p leaf rs al).
    Proof.
      destruct f as [f|f], f' as [f'|f']; cbn [rows]; try contradiction; intros H; cbn [BestSplit].
      - unfold nBestSplit. destruct H as (N & Hh & Hd & Hm). rewrite Hh. apply with_missing_sim; [exact Hm|]. intros. apply BestNumSplit_sim.
        repeat split; auto.
      - pose proof H as (Hc & N & Hr & Hh & Hd & Hm). unfold cBestSplit. rewrite Hh, Hc, Hr. apply with_missing_sim; [exact Hm|].
        intros l q al0. destruct (negb (cRandom f') && (maxNonBigCats <? NCats (cMap f'))); [apply BestCatSplitIterBig_sim; exact H|].
        destruct (negb (cRandom f') && (maxExhaustiveCats <? NCats (cMap f'))); [apply BestCatSplitIter_sim; exact H|].
        destruct (maxNonBigCats <? NCats (cMap f')); [apply BestCatSplitBig_sim; exact H|].
        destruct (NCats (cMap f') =? 2); [apply BestBinSplit_sim; exact H|apply BestCatSplit_sim; exact H].
    Qed.
  End Search.

  (** ** Applying splits *)
  Lemma missq_sim has ms ms' c : reads ms ms' -> missq has ms (g c) = missq has ms' c.
  Proof. intros H. unfold missq. destruct has; [apply H|reflexivity]. Qed.
  Lemma cLeftCoded_sim f f' code c : cat_rows f f' -> cLeftCoded f code (g c) = cLeftCoded f' code c.
  Proof. intros (_ & _ & _ & _ & Hd & _). unfold cLeftCoded. destruct code; rewrite ?Hd; reflexivity. Qed.
  Lemma fSplitPoints_sim f f' code cs : rows f f' ->
    fSplitPoints f code (map g cs) = rmap mb (fSplitPoints f' code cs).
  Proof.
    destruct f as [f|f], f' as [f'|f']; cbn [rows fSplitPoints]; try contradiction; intros H.
    - unfold nSplitPoints. destruct code; try reflexivity. destruct H as (_ & Hh & Hd & Hm). rewrite Hh.
      apply (split_loop_sim g); [intros c _; apply missq_sim; exact Hm|intros c _ _; rewrite Hd; reflexivity].
    - unfold cSplitPoints. pose proof H as (_ & _ & _ & Hh & Hd & Hm). rewrite Hh.
      apply (split_loop_sim g); [intros c _; apply missq_sim; exact Hm|intros c _ _; apply cLeftCoded_sim; exact H].
  Qed.
  Lemma fSplit_points f code cs : fSplit f code cs = bind (fSplitPoints f code cs) cut3.
  Proof. destruct f as [f|f]; cbn [fSplit fSplitPoints]; [|reflexivity]. unfold nSplit, nSplitPoints. destruct code; reflexivity. Qed.
  Lemma fSplit_sim f f' code cs : rows f f' -> fSplit f code (map g cs) = rmap (map_sr g) (fSplit f' code cs).
  Proof.
    intros H. rewrite !fSplit_points. apply (bind_sim mb); [apply fSplitPoints_sim; exact H|]. intros x. apply cut3_map.
  Qed.
  Lemma fDecodeSplit_sim f f' code : rows f f' -> fDecodeSplit f code = fDecodeSplit f' code.
  Proof.
    destruct f as [f|f], f' as [f'|f']; cbn [rows fDecodeSplit]; try contradiction.
    - intros (Hn & _). unfold nDecodeSplit. rewrite Hn. reflexivity.
    - intros (Hc & Hn & _). unfold cDecodeSplit. rewrite Hc, Hn. reflexivity.
  Qed.

  (** ** Related outcomes *)
  Definition alike {A A'} (R : A -> A' -> Prop) (m : res A) (m' : res A') : Prop :=
    match m, m' with
    | Ok a, Ok a' => R a a'
    | Panic, Panic => True
    | Spin, Spin => True
    | _, _ => False
    end.
  Lemma alike_bind {A A' C C'} (R : A -> A' -> Prop) (Q : C -> C' -> Prop) m m' f f' :
    alike R m m' -> (forall a a', R a a' -> alike Q (f a) (f' a')) -> alike Q (bind m f) (bind m' f').
  Proof. destruct m, m'; cbn; auto; try contradiction. Qed.
  Lemma alike_rmap {A A' C C'} (h : A' -> A) (Q : C -> C' -> Prop) m m' f f' :
    m = rmap h m' -> (forall a, m' = Ok a -> alike Q (f (h a)) (f' a)) -> alike Q (bind m f) (bind m' f').
  Proof. intros ->. destruct m'; cbn; auto. Qed.
  Lemma alike_same {A C C'} (Q : C -> C' -> Prop) (m m' : res A) f f' :
    m = m' -> (forall a, m' = Ok a -> alike Q (f a) (f' a)) -> alike Q (bind m f) (bind m' f').
  Proof. intros ->. destruct m'; cbn; auto. Qed.

  Section Grow.
    Variable A : arith.
    Variable St : Type.
    Variables T T' : target A St.
    Variables predict predict' : list nat -> res string.
    Variable rnd : nat -> nat.
    Variable K : Type.
    Variables kCopyFrom kCopyFrom' : K -> K.
    Variable kShuffleCases : (nat -> nat) -> list nat -> K -> res K.
    Variable kTarget : K -> target A St.
    Variables p p' : params.
    Variable RK : K -> K -> Prop.

    Definition same_params : Prop :=
      pTry p = pTry p' /\ pLeaf p = pLeaf p' /\ pForce p = pForce p' /\ pVet p = pVet p' /\ pEvalOob p = pEvalOob p' /\
      pExtra p = pExtra p' /\ pMaxDepth p = pMaxDepth p' /\ pSplitMissing p = pSplitMissing p'.
    Hypothesis HT : target_rows T T'.
    Hypothesis Hpred : forall l, predict (map g l) = predict' l.
    Hypothesis Hp : same_params.
    Hypothesis Hdata : Forall2 rows (pData p) (pData p').
    (** The contrast target of vetting. *)
    Hypothesis Hcopy : forall k k', pVet p = true -> RK k k' -> RK (kCopyFrom k) (kCopyFrom' k').
    Hypothesis Hshuf : forall r l k k', pVet p = true -> RK k k' -> alike RK (kShuffleCases r (map g l) k) (kShuffleCases r l k').
    Hypothesis Hktgt : forall k k', pVet p = true -> RK k k' -> target_rows (kTarget k) (kTarget k').

    (** The out of bag cases count only with -evaloob. *)
    Definition orel (o o' : list nat) : Prop := pEvalOob p = true -> o = map g o'.
    Definition brel (s s' : bstate A St K) : Prop :=
      bCans s = bCans s' /\ bCases s = map g (bCases s') /\ orel (bOob s) (bOob s') /\ bConsts s = bConsts s' /\
      bDrawn s = bDrawn s' /\ bLast s = bLast s' /\ bFi s = bFi s' /\ bCode s = bCode s' /\ bDec s = bDec s' /\
      bAl s = bAl s' /\ RK (bK s) (bK s').

    Lemma data_at i : alike rows (get (pData p) i) (get (pData p') i).
    Proof.
      unfold get. revert i. induction Hdata as [|f f' l l' H Hl IH]; intros [|i]; cbn; auto.
    Qed.

    Lemma draw_sim s s' : brel s s' ->
      alike (fun x x' => brel (fst x) (fst x') /\ snd x = snd x') (draw_candidate A St rnd K s) (draw_candidate A St rnd K s').
    Proof.
      intros (E1 & E2 & E3 & E4 & E5 & E6 & E7 & E8 & E9 & E10 & E11). unfold draw_candidate. rewrite E1, E4, E5, E6, E7, E8, E9, E10.
      destruct (bDrawn s' + bLast s' <? length (bCans s')).
      2:{ cbn. repeat split; auto. }
      apply alike_same; [reflexivity|]. intros k _. destruct (length (bCans s') - bConsts s' <=? bLast s' + k).
      - cbn. repeat split; auto.
      - apply alike_same; [reflexivity|]. intros cans _. cbn. repeat split; auto.
    Qed.

    Lemma eval_oob_sim f f' code dec inner oob oob' al : rows f f' -> orel oob oob' ->
      alike (fun '((a, o, b) : A * list nat * allocs St) '((a', o', b') : A * list nat * allocs St) => a = a' /\ orel o o' /\ b = b')
        (eval_oob A St T p f code dec inner oob al) (eval_oob A St T' p' f' code dec inner oob' al).
    Proof.
      intros Hf Ho. unfold eval_oob. pose proof Hp as (_ & _ & _ & _ & Eo & _). rewrite <- Eo.
      destruct (pEvalOob p) eqn:Ee; cbn [andb]; [|cbn; auto]. destruct (nltb A dec inner); [|cbn; auto].
      rewrite (Ho Ee). apply (alike_rmap (map_sr g)); [apply fSplit_sim; exact Hf|]. intros sp _. cbn [map_sr srCases srL srR srM].
      rewrite (tr_imp _ _ HT). apply alike_same; [reflexivity|]. intros [imp tg] _.
      pose proof (tr_split _ _ HT (srL sp) (srR sp) (Some (srM sp)) tg) as E; cbn [option_map] in E; rewrite E; clear E.
      apply alike_same; [reflexivity|]. intros [simp tg1] _. cbn. repeat split; auto; intros _; reflexivity.
    Qed.

    Lemma vet_sim f f' parentImp dec inner cases oob oob' al k k' : rows f f' -> RK k k' -> orel oob oob' ->
      alike (fun '((a, c, o, b, k) : A * list nat * list nat * allocs St * K) '((a', c', o', b', k') : A * list nat * list nat * allocs St * K) =>
               a = a' /\ c = map g c' /\ orel o o' /\ b = b' /\ RK k k')
        (vet_split A St rnd K kShuffleCases kTarget p f parentImp dec inner (map g cases) oob al k)
        (vet_split A St rnd K kShuffleCases kTarget p' f' parentImp dec inner cases oob' al k').
    Proof.
      intros Hf Hk Ho. unfold vet_split. pose proof Hp as (_ & E1 & _ & Ev & E2 & E3 & _). rewrite <- E1, <- E2, <- E3, <- Ev.
      destruct (pVet p) eqn:Hv; cbn [andb]; [|cbn; auto]. destruct (nltb A dec inner); [|cbn; auto].
      set (cp := if pEvalOob p then oob' else cases).
      assert (Ec : (if pEvalOob p then oob else map g cases) = map g cp) by (unfold cp; destruct (pEvalOob p) eqn:Ee; [apply Ho; exact Ee|reflexivity]).
      rewrite Ec, map_length.
      apply (alike_bind RK); [apply Hshuf; auto|]. intros k1 k1' Hk1.
      apply (alike_rmap (mfound A St)); [apply BestSplit_sim; auto|]. intros r _. cbn [mfound fDec fCases fAl].
      destruct (pEvalOob p) eqn:Ee; cbn; repeat split; auto; intros _; reflexivity.
    Qed.

    Lemma try_sim parentImp s s' : brel s s' ->
      alike brel (try_candidate A St T rnd K kShuffleCases kTarget p parentImp s) (try_candidate A St T' rnd K kShuffleCases kTarget p' parentImp s').
    Proof.
      intros (E1 & E2 & E3 & E4 & E5 & E6 & E7 & E8 & E9 & E10 & E11). unfold try_candidate. rewrite E1, E2, E4, E5, E6, E7, E8, E9, E10.
      apply alike_same; [reflexivity|]. intros i _. apply (alike_bind rows); [apply data_at|]. intros f f' Hf.
      pose proof Hp as (_ & E12 & _ & _ & _ & E13 & _). rewrite E12, E13.
      apply (alike_rmap (mfound A St)); [apply BestSplit_sim; auto|]. intros r _. cbn [mfound fDec fCases fAl fConst fCode].
      apply alike_same; [reflexivity|]. intros [[[cans nc] dc] last] _.
      eapply alike_bind; [apply (eval_oob_sim f f'); eauto|].
      intros [[inner oob] al] [[inner' oob'] al'] (-> & Ho & ->).
      eapply alike_bind; [apply (vet_sim f f'); eauto|]. intros [[[[a1 c1] o1] b1] k1] [[[[a2 c2] o2] b2] k2] (-> & -> & Ho2 & -> & Hk).
      cbn [alike]. destruct (nltb A (bDec s') a2); repeat split; auto.
    Qed.

    Lemma splitter_loop_sim parentImp s s' : brel s s' ->
      alike brel (splitter_loop A St T rnd K kShuffleCases kTarget p parentImp s) (splitter_loop A St T' rnd K kShuffleCases kTarget p' parentImp s').
    Proof.
      intros Hs. unfold splitter_loop. pose proof Hp as (E1 & _ & E3 & _). rewrite E1, E3.
      assert (El : length (bCans s) = length (bCans s')) by (f_equal; apply Hs). rewrite El.
      generalize (pTry p' + length (bCans s') + 2) as fuel. generalize 0 as j. intros j fuel. clear El. revert j s s' Hs.
      induction fuel as [|fuel IH]; intros j s s' Hs; cbn [loop]; [exact I|].
      pose proof Hs as (B1 & _ & _ & B4 & B5 & _). rewrite B1, B4, B5.
      destruct (pForce p' && (pTry p' <=? j) && (j <=? bDrawn s') || (j <? pTry p')); [|cbn [bind alike]; exact Hs].
      destruct (length (bCans s') <=? bConsts s'); [cbn [bind alike]; exact Hs|].
      apply (alike_bind (fun x x' => match x, x' with Next (j1, s1), Next (j2, s2) => j1 = j2 /\ brel s1 s2 | Done s1, Done s2 => brel s1 s2 | _, _ => False end)).
      2:{ intros [[j1 s1]|r1] [[j2 s2]|r2]; try contradiction; cbn; auto. intros [-> H]. apply IH. exact H. }
      eapply alike_bind; [apply draw_sim; exact Hs|]. intros [s1 e1] [s2 e2] [H1 H2]. cbn [fst snd] in H1, H2. subst e2. destruct e1; [|cbn; auto].
      eapply alike_bind; [apply try_sim; exact H1|]. intros s3 s4 H3. cbn. auto.
    Qed.

    Lemma BestSplitter_sim cases cans oob oob' ncb al k k' : RK k k' -> orel oob oob' ->
      alike brel (BestSplitter A St T rnd K kCopyFrom kShuffleCases kTarget p (map g cases) cans oob ncb al k)
                 (BestSplitter A St T' rnd K kCopyFrom' kShuffleCases kTarget p' cases cans oob' ncb al k').
    Proof.
      intros Hk Ho. unfold BestSplitter. rewrite (tr_imp _ _ HT). pose proof Hp as (_ & _ & _ & Ev & _). rewrite <- Ev.
      assert (Hk1 : RK (if pVet p then kCopyFrom k else k) (if pVet p then kCopyFrom' k' else k')) by (destruct (pVet p) eqn:E; auto).
      apply alike_same; [reflexivity|]. intros [imp tg] _.
      destruct (nleb A imp (minImp A) && nleb A (nofZ A 0) imp).
      - cbn. repeat split; auto.
      - apply splitter_loop_sim. repeat split; auto.
    Qed.

    Definition grel (s s' : gstate A St K) : Prop :=
      gCans s = gCans s' /\ orel (gOob s) (gOob s') /\ gAl s = gAl s' /\ RK (gK s) (gK s') /\ gImp s = gImp s' /\ gDepth s = gDepth s'.
    Definition vrel (v v' : visited) : Prop :=
      gvD v = gvD v' /\ gvL v = gvL v' /\ gvR v = gvR v' /\ gvM v = gvM v' /\ gvFi v = gvFi v' /\ gvSplit v = gvSplit v' /\
      gvConsts v = gvConsts v' /\ gvCases v = map g (gvCases v').

    Lemma grow_visit_sim d l r m cases depth ncb s s' : grel s s' ->
      alike (fun x x' => vrel (fst x) (fst x') /\ grel (snd x) (snd x'))
        (grow_visit A St T predict rnd K kCopyFrom kShuffleCases kTarget p d l r m (map g cases) depth ncb s)
        (grow_visit A St T' predict' rnd K kCopyFrom' kShuffleCases kTarget p' d l r m cases depth ncb s').
    Proof.
      intros Hs. pose proof Hs as (G1 & G2 & G3 & G4 & G5 & G6). unfold grow_visit. rewrite map_length.
      pose proof Hp as (_ & P2 & _ & _ & _ & _ & P7 & P8). rewrite P2, P7, P8.
      destruct (((depth <? pMaxDepth p') || (pMaxDepth p' <=? 0)) && (2 * pLeaf p' <=? length cases)).
      2:{ rewrite Hpred. apply alike_same; [reflexivity|]. intros q _. cbn. repeat split; auto. }
      rewrite G1, G3, G5, G6. eapply alike_bind; [apply BestSplitter_sim; [exact G4|exact G2]|].
      intros b b' (B1 & B2 & B3 & B4 & B5 & B6 & B7 & B8 & B9 & B10 & B11). rewrite B1, B2, B4, B7, B8, B9, B10.
      destruct (isCNil (bCode b')).
      - rewrite Hpred. apply alike_same; [reflexivity|]. intros q _. cbn. repeat split; auto.
      - apply alike_same; [reflexivity|]. intros [imp du] _. eapply alike_bind; [apply data_at|]. intros f f' Hf.
        rewrite (fDecodeSplit_sim f f' _ Hf). apply alike_same; [reflexivity|]. intros spl _. cbn. repeat split; auto.
    Qed.

    Lemma grow_node_sim fuel : forall n cases depth ncb s s', grel s s' ->
      alike (fun x x' => fst x = fst x' /\ grel (snd x) (snd x'))
        (grow_node A St T predict rnd K kCopyFrom kShuffleCases kTarget fuel p n (map g cases) depth ncb s)
        (grow_node A St T' predict' rnd K kCopyFrom' kShuffleCases kTarget fuel p' n cases depth ncb s').
    Proof.
      induction fuel as [|fuel IH]; intros n cases depth ncb s s' Hs; cbn [grow_node]; [exact I|]. destruct n as [|d l r m]; [exact I|].
      eapply alike_bind; [apply grow_visit_sim; exact Hs|]. intros [v s1] [v' s1'] [(V1 & V2 & V3 & V4 & V5 & V6 & V7 & V8) H1].
      cbn [fst snd] in *. rewrite V1, V2, V3, V4, V5, V6, V7, V8.
      destruct (isCNil (gvSplit v')); [cbn; auto|].
      eapply alike_bind; [apply data_at|]. intros f f' Hf.
      apply (alike_rmap mb); [apply fSplitPoints_sim; exact Hf|]. intros [[cs li] ri] _. cbn [mb]. rewrite map_length.
      apply (alike_rmap (map g)); [apply slice_map|]. intros lc _.
      eapply alike_bind; [apply IH; exact H1|]. intros [l1 s2] [l1' s2'] [E2 H2]. cbn [fst snd] in E2, H2. subst l1'.
      apply (alike_rmap (map g)); [apply slice_map|]. intros rc _.
      eapply alike_bind; [apply IH; exact H2|]. intros [r1 s3] [r1' s3'] [E3 H3]. cbn [fst snd] in E3, H3. subst r1'.
      apply (alike_bind (fun x x' => fst x = fst x' /\ grel (snd x) (snd x'))).
      { destruct (negb (li =? ri) && negb (isNil (gvM v'))); [|cbn; auto].
        apply (alike_rmap (map g)); [apply slice_map|]. intros mc _. apply IH. exact H3. }
      intros [m1 s4] [m1' s4'] [E4 H4]. cbn [fst snd] in *. subst. cbn. auto.
    Qed.
  End Grow.
End Rows.

(** ** The targets read their column at the cases only *)
Definition natural {B} {A : arith} {St} (F : list B -> target A St) : Prop :=
  forall g d d', reads g d d' -> target_rows g (F d) (F d').

Lemma CountPerCat_sim g d d' l k : reads g d d' -> CountPerCat d (map g l) k = CountPerCat d' l k.
Proof. intros H. unfold CountPerCat. apply foreach_same. intros a s. rewrite H. reflexivity. Qed.
Lemma MoveCounts_sim g d d' l a b : reads g d d' -> MoveCountsRtoL d (map g l) a b = MoveCountsRtoL d' l a b.
Proof. intros H. unfold MoveCountsRtoL. apply foreach_same. intros c [x y]. rewrite H. reflexivity. Qed.
Lemma has_m_map g m : has_m (option_map (map g) m) = option_map (map g) (has_m m).
Proof. destruct m as [[|c m]|]; reflexivity. Qed.
Lemma len_map A g l : len A (map g l) = len A l.
Proof. unfold len. rewrite map_length. reflexivity. Qed.

Lemma SplitImpurity_sim g A imp imp' l r m k : (forall l c, imp (map g l) c = imp' l c) ->
  SplitImpurity A imp (map g l) (map g r) (option_map (map g) m) k = SplitImpurity A imp' l r m k.
Proof.
  intros H. unfold SplitImpurity. rewrite !H, has_m_map, !len_map. destruct (has_m m) as [mm|]; cbn [option_map]; [rewrite H, len_map|]; reflexivity.
Qed.
Lemma UpdateSImp_sim g A d d' from l r m k mv : reads g d d' -> (forall l c, from (map g l) c = from l c) ->
  UpdateSImp A d from (map g l) (map g r) (option_map (map g) m) k (map g mv) = UpdateSImp A d' from l r m k mv.
Proof.
  intros Hd H. unfold UpdateSImp. rewrite (MoveCounts_sim g d d' mv _ _ Hd). apply bind_ext. intros [lc rc] _.
  rewrite !H, has_m_map, !len_map. destruct (has_m m) as [mm|]; cbn [option_map]; [rewrite H, len_map|]; reflexivity.
Qed.
Lemma UpdateSImp_gini_sim g A d d' from l r m k mv : reads g d d' -> (forall l c, from (map g l) c = from l c) ->
  UpdateSImp_gini A d from (map g l) (map g r) (option_map (map g) m) k (map g mv) = UpdateSImp_gini A d' from l r m k mv.
Proof.
  intros Hd H. unfold UpdateSImp_gini. rewrite (MoveCounts_sim g d d' mv _ _ Hd). apply bind_ext. intros [lc rc] _.
  rewrite !H, has_m_map, !len_map. destruct (has_m m) as [mm|]; cbn [option_map]; [rewrite H, len_map|]; reflexivity.
Qed.

Lemma gini_natural A : natural (gini_target A).
Proof.
  intros g d d' H.
  assert (Hi : forall l c, GiniWithoutAlocate A d (map g l) c = GiniWithoutAlocate A d' l c).
  { intros l c. unfold GiniWithoutAlocate. rewrite map_length, (CountPerCat_sim g d d' l c H). reflexivity. }
  constructor; unfold gini_target, counting_target; cbn [tImp tSplit tUpdate].
  - intros l s. rewrite Hi. reflexivity.
  - intros l r m s. rewrite (SplitImpurity_sim g A _ _ l r m _ Hi). reflexivity.
  - intros l r m mv s. rewrite (UpdateSImp_gini_sim g A d d' (GiniFromCounts A) l r m _ mv H); [reflexivity|].
    intros l0 c. unfold GiniFromCounts. rewrite map_length. reflexivity.
Qed.
Lemma entropy_natural A nlog : natural (entropy_target A nlog).
Proof.
  intros g d d' H.
  assert (Hi : forall l c, EntropyImpurity A nlog d (map g l) c = EntropyImpurity A nlog d' l c).
  { intros l c. unfold EntropyImpurity. rewrite map_length, (CountPerCat_sim g d d' l c H). reflexivity. }
  constructor; unfold entropy_target, counting_target; cbn [tImp tSplit tUpdate].
  - intros l s. rewrite Hi. reflexivity.
  - intros l r m s. rewrite (SplitImpurity_sim g A _ _ l r m _ Hi). reflexivity.
  - intros l r m mv s. rewrite (UpdateSImp_sim g A d d' (EntropyFromCounts A nlog) l r m _ mv H); [reflexivity|].
    intros l0 c. unfold EntropyFromCounts. rewrite map_length. reflexivity.
Qed.
Lemma sums_sim g (A : arith) (d d' : list A) l : reads g d d' -> SumAndSumSquares A d (map g l) = SumAndSumSquares A d' l.
Proof. intros H. unfold SumAndSumSquares. apply foreach_same. intros a [s q]. rewrite H. reflexivity. Qed.
Lemma num_natural A : natural (num_target A).
Proof.
  intros g d d' H. constructor; unfold num_target; cbn [tImp tSplit tUpdate].
  - intros l s. unfold NumImpurity. rewrite (sums_sim g A d d' l H), len_map. reflexivity.
  - intros l r m s. unfold NumSplitImpurity. rewrite !(sums_sim g A d d' _ H), !len_map, has_m_map.
    destruct (has_m m) as [mm|]; cbn [option_map]; [rewrite (sums_sim g A d d' _ H), len_map|]; reflexivity.
  - intros l r m mv s. unfold NumUpdate. rewrite !(sums_sim g A d d' _ H), !len_map, has_m_map.
    destruct (has_m m) as [mm|]; cbn [option_map]; [rewrite len_map|]; reflexivity.
Qed.
Lemma gbsum_sim g (A : arith) (d d' : list A) l : reads g d d' -> GBSum A d (map g l) = GBSum A d' l.
Proof. intros H. unfold GBSum. apply foreach_same. intros a s. rewrite H. reflexivity. Qed.
Lemma grad_natural A : natural (grad_target A).
Proof.
  intros g d d' H. constructor; unfold grad_target; cbn [tImp tSplit tUpdate].
  - intros l s. unfold NumImpurity. rewrite (sums_sim g A d d' l H), len_map. reflexivity.
  - intros l r m s. unfold GBSplit, FriedmanScore. rewrite !(gbsum_sim g A d d' _ H), !len_map. reflexivity.
  - intros l r m mv s. unfold GBUpdate, FriedmanScore. rewrite !(gbsum_sim g A d d' _ H), !len_map. reflexivity.
Qed.

(** The predictions of leaves. *)
Lemma cFindPredicted_sim g f f' l : cat_rows g f f' -> cFindPredicted f (map g l) = cFindPredicted f' l.
Proof.
  intros (Hc & _ & _ & _ & Hd & Hm). unfold cFindPredicted, cMode, cModei, mode_counts. rewrite Hc. f_equal. f_equal.
  apply foreach_same. intros a s. rewrite Hm, Hd. reflexivity.
Qed.
Lemma nMean_sim g f f' l : num_rows g f f' -> nMean f (map g l) = nMean f' l.
Proof.
  intros (_ & _ & Hd & Hm). unfold nMean. f_equal. apply foreach_same. intros a [m n]. rewrite Hm, Hd. reflexivity.
Qed.

(** ** Shuffling the contrast target *)
Lemma swapl_reads {B} g (d d' : list B) i j : reads g d d' -> (forall a b, a < length d' -> b < length d' -> g a = g b -> a = b) ->
  alike (fun e e' => reads g e e' /\ length e = length d /\ length e' = length d') (swapl d (g i) (g j)) (swapl d' i j).
Proof.
  intros H Hi. unfold swapl. rewrite !H. destruct (get d' i) as [x| |] eqn:Ei; cbn; auto. destruct (get d' j) as [y| |] eqn:Ej; cbn; auto.
  assert (Gi : get d (g i) = Ok x) by (rewrite H; exact Ei). assert (Gj : get d (g j) = Ok y) by (rewrite H; exact Ej).
  apply get_inv in Ei. apply get_inv in Ej. apply get_inv in Gi. apply get_inv in Gj.
  assert (L1 : i < length d') by (apply nth_error_Some; congruence). assert (L2 : j < length d') by (apply nth_error_Some; congruence).
  assert (L3 : g i < length d) by (apply nth_error_Some; congruence). assert (L4 : g j < length d) by (apply nth_error_Some; congruence).
  rewrite !set_ok by auto. cbn [bind]. rewrite !set_ok by (rewrite upd_length; auto). cbn. rewrite !upd_length. split; [|auto].
  assert (U : forall i0 v (e e' : list B), reads g e e' -> length e = length d -> length e' = length d' -> i0 < length d' -> g i0 < length d -> reads g (upd e (g i0) v) (upd e' i0 v)).
  { intros i0 v e e' He La Lb Hl Hg c. unfold get. destruct (Nat.eq_dec c i0) as [->|Hn].
    - rewrite !nth_error_upd_eq by lia. reflexivity.
    - rewrite (nth_error_upd_neq e' v) by auto. destruct (lt_dec c (length e')) as [Lc|Lc].
      + rewrite nth_error_upd_neq; [apply (He c)|]. intros Hx. apply Hn. symmetry. apply Hi; try lia; auto.
      + specialize (He c). unfold get in He. rewrite (proj2 (nth_error_None e' c)) in * by lia.
        destruct (nth_error e (g c)) as [z|] eqn:Ez; [discriminate|]. apply nth_error_None in Ez.
        rewrite (proj2 (nth_error_None _ _)); [reflexivity|]. rewrite upd_length. exact Ez. }
  apply U; rewrite ?upd_length; auto.
Qed.
Lemma shuffle_sim {B} g rnd cs (ms ms' : list bool) (d d' : list B) n : reads g ms ms' -> reads g d d' -> length ms' = n -> length d' = n ->
  (forall a b, a < n -> b < n -> g a = g b -> a = b) ->
  alike (fun x x' => reads g (fst x) (fst x') /\ reads g (snd x) (snd x') /\ length (fst x') = n /\ length (snd x') = n /\
                     length (fst x) = length ms /\ length (snd x) = length d)
    (shuffleCases rnd (map g cs) ms d) (shuffleCases rnd cs ms' d').
Proof.
  intros H1 H2 L1 L2 Hi. unfold shuffleCases. rewrite map_length.
  enough (G : forall m lo x x', (reads g (fst x) (fst x') /\ reads g (snd x) (snd x') /\ length (fst x') = n /\ length (snd x') = n /\
      length (fst x) = length ms /\ length (snd x) = length d) ->
    alike (fun x x' => reads g (fst x) (fst x') /\ reads g (snd x) (snd x') /\ length (fst x') = n /\ length (snd x') = n /\
                     length (fst x) = length ms /\ length (snd x) = length d)
     (for_up m lo (fun j st => let* targeti := get (map g cs) j in let* r := intn (rnd j) (length cs - j) in
        let* sourcei := get (map g cs) (j + r) in swap2 targeti sourcei st) x)
     (for_up m lo (fun j st => let* targeti := get cs j in let* r := intn (rnd j) (length cs - j) in
        let* sourcei := get cs (j + r) in swap2 targeti sourcei st) x')) by (apply G; cbn [fst snd]; repeat split; auto).
  induction m as [|m IH]; intros lo x x' Hx; cbn [for_up]; [exact Hx|].
  eapply alike_bind with (R := fun y y' => reads g (fst y) (fst y') /\ reads g (snd y) (snd y') /\ length (fst y') = n /\ length (snd y') = n /\
      length (fst y) = length ms /\ length (snd y) = length d); [|intros y y' Hy; apply IH; exact Hy].
  apply (alike_rmap g); [apply get_map|]. intros t _. apply alike_same; [reflexivity|]. intros r _.
  apply (alike_rmap g); [apply get_map|]. intros u _. destruct x as [m1 d1], x' as [m1' d1']. cbn [fst snd] in Hx.
  destruct Hx as (X1 & X2 & X3 & X4 & X5 & X6). cbn [swap2].
  eapply alike_bind; [apply (swapl_reads g m1 m1'); [exact X1|rewrite X3; exact Hi]|]. intros e e' (Y1 & Y2 & Y3).
  eapply alike_bind; [apply (swapl_reads g d1 d1'); [exact X2|rewrite X4; exact Hi]|]. intros f f' (Z1 & Z2 & Z3).
  cbn. repeat split; auto; lia.
Qed.
