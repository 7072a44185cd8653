(** A target whose impurities are never comparable never causes a split. *)
From Verif Require Import Go GoLemmas F64 ModelFeature ModelSplit ModelSample ModelSearch ModelBallot ModelTree ModelGrow.
Local Open Scope nat_scope.
Local Open Scope list_scope.

Lemma bind_ok {X Y} (m : res X) (k : X -> res Y) y : bind m k = Ok y -> exists x, m = Ok x /\ k x = Ok y.
Proof. destruct m; cbn; try discriminate. eauto. Qed.
Lemma for_up_ifok {S0} (Inv : S0 -> Prop) body n : forall lo s s',
  for_up n lo body s = Ok s' -> Inv s -> (forall i s s', Inv s -> body i s = Ok s' -> Inv s') -> Inv s'.
Proof.
  induction n as [|n IH]; intros lo s s' E Hi Hb; cbn [for_up] in E; [injection E as <-; auto|].
  apply bind_ok in E as (s1 & E1 & E2). eauto.
Qed.
Lemma loop_ifok {S0 R0} (Inv : S0 -> Prop) (Q : R0 -> Prop) body :
  forall n s r, loop n body s = Ok r -> Inv s ->
  (forall s o, Inv s -> body s = Ok o -> match o with Next s' => Inv s' | Done r => Q r end) -> Q r.
Proof.
  induction n as [|n IH]; intros s r E Hi Hb; cbn [loop] in E; [discriminate|].
  destruct (body s) as [o| |] eqn:Eb; try discriminate.
  pose proof (Hb s o Hi Eb). destruct o; cbn [bind] in E; eauto. injection E as <-. auto.
Qed.

Section Blind.
  Variable A : arith.
  Variable St : Type.
  Variable T : target A St.
  (** [bad] values of the impurity: no decrease computed from two of them counts. *)
  Variable bad : A -> Prop.
  Hypothesis bad_imp : forall cs s e s', tImp T cs s = Ok (e, s') -> bad e.
  Hypothesis bad_split : forall l r m s e s', tSplit T l r m s = Ok (e, s') -> bad e.
  Hypothesis bad_update : forall l r m v s e s', tUpdate T l r m v s = Ok (e, s') -> bad e.
  Hypothesis bad_worse : forall p e d, bad p -> bad e -> nltb A d (decrease A p e) = false.
  Hypothesis minImp_irrefl : nltb A (minImp A) (minImp A) = false.
  Hypothesis zero_small : nltb A (minImp A) (nofZ A 0) = false.

  Variable rnd : nat -> nat.
  Local Notation dull r := (nltb A (minImp A) (fDec (A := A) (St := St) r) = false).

  Ltac bound E x := apply bind_ok in E as (x & ?E & E).

  Lemma blind_step cs vs p i a b d sf tg s' : bad p ->
    num_step A St T cs vs p i (a, b, d, sf, tg) = Ok s' -> snd (fst (fst s')) = d.
  Proof.
    intros Hp E. unfold num_step in E. apply bind_ok in E as (vi & _ & E). apply bind_ok in E as (vl & _ & E).
    destruct (fleb vi (fadd vl f1e_7)); [injection E as <-; reflexivity|].
    apply bind_ok in E as (lm & _ & E). apply bind_ok in E as (rm & _ & E).
    apply bind_ok in E as ([imp tg'] & E1 & E).
    assert (Hb : bad imp).
    { destruct (a =? 0); [eapply bad_split; eauto|]. apply bind_ok in E1 as (mm & _ & E1). eapply bad_update; eauto. }
    cbv zeta in E. rewrite (bad_worse p imp d Hp Hb) in E. injection E as <-. reflexivity.
  Qed.

  Lemma blind_num f cases p leaf rs al r : bad p -> BestNumSplit A St T rnd f cases p leaf rs al = Ok r -> dull r.
  Proof.
    intros Hp E. unfold BestNumSplit in E. destruct (2 * leaf <=? length cases); [|injection E as <-; exact minImp_irrefl].
    apply bind_ok in E as (vals & _ & E). apply bind_ok in E as ([cs vs] & _ & E). cbv zeta in E.
    apply bind_ok in E as (v0 & _ & E). apply bind_ok in E as (vn & _ & E).
    destruct (fleb vn (fadd v0 f1e_7)); [injection E as <-; exact minImp_irrefl|].
    apply bind_ok in E as ([[lo stop] d] & _ & E). apply bind_ok in E as ([[[[a b] dec] sf] tg] & E1 & E).
    injection E as <-. cbn [fDec].
    assert (H : snd (fst (fst (a, b, dec, sf, tg))) = minImp A).
    { eapply (for_up_ifok (fun s => snd (fst (fst s)) = minImp A)); [exact E1|reflexivity|].
      intros i [[[[a' b'] d'] sf'] tg'] s' Hs Es. cbn in Hs. rewrite <- Hs. eapply blind_step; eauto. }
    cbn in H. subst dec. exact minImp_irrefl.
  Qed.

  Lemma blind_missing has missing search cases p al r :
    (forall cs p al r, bad p -> search cs p al = Ok r -> dull r) -> bad p ->
    with_missing A St T has missing search cases p al = Ok r -> dull r.
  Proof.
    intros Hs Hp E. unfold with_missing in E. destruct has; [|eauto].
    apply bind_ok in E as ([ms nms] & _ & E). destruct (length nms =? 0); [injection E as <-; exact zero_small|].
    cbv zeta in E. apply bind_ok in E as ([pimp tg] & E1 & E). apply bind_ok in E as ([mimp tg'] & E2 & E).
    apply bind_ok in E as (s & E3 & E). injection E as <-. cbn [fDec].
    assert (H : dull s) by (eapply Hs; [eapply bad_imp; eauto|eauto]).
    rewrite H, andb_false_r. exact H.
  Qed.

  Lemma blind_iter bit setb n data cases p leaf tg best dec tg' : bad p ->
    iter_search A St T bit setb n data cases p leaf tg = Ok (best, dec, tg') -> nltb A (minImp A) dec = false.
  Proof.
    intros Hp E. unfold iter_search in E.
    assert (H : (fun r : Z * A * St => snd (fst r) = minImp A) (best, dec, tg')).
    { eapply (loop_ifok (fun s : Z * A * St * nat => snd (fst (fst s)) = minImp A) (fun r : Z * A * St => snd (fst r) = minImp A));
        [exact E|reflexivity|].
      intros [[[b d] t] j] o Hd Eo. cbn in Hd. subst d. destruct (j <? n); [|injection Eo as <-; reflexivity].
      apply bind_ok in Eo as ([[isp iimp] t'] & E1 & Eo).
      assert (H : snd (fst (isp, iimp, t')) = minImp A).
      { eapply (for_up_ifok (fun s : Z * A * St => snd (fst s) = minImp A)); [exact E1|reflexivity|].
        intros i [[a c] t0] s' Hc Es. cbn in Hc. subst c. unfold iter_step in Es. destruct (bit b i); [injection Es as <-; reflexivity|].
        apply bind_ok in Es as ([l r] & _ & Es). destruct ((length l <? leaf) || (length r <? leaf)); [injection Es as <-; reflexivity|].
        apply bind_ok in Es as ([imp t1] & E2 & Es). cbv zeta in Es.
        rewrite bad_worse in Es by eauto. injection Es as <-. reflexivity. }
      cbn in H. subst iimp. rewrite minImp_irrefl in Eo. injection Eo as <-. reflexivity. }
    cbn in H. subst dec. exact minImp_irrefl.
  Qed.

  Lemma blind_cat_step ex p leaf i cs cached best dec c tg d s' : bad p ->
    cat_step A St T rnd ex p leaf i (cs, cached, best, dec, c, tg, d) = Ok s' ->
    snd (fst (fst (fst s'))) = dec.
  Proof.
    intros Hp E. unfold cat_step in E.
    destruct (if ex then _ else _) as [bits d'].
    apply bind_ok in E as ([[[cs' ca'] l] r] & _ & E).
    destruct ((l <? leaf) || (length cs' - r <? leaf)); [injection E as <-; reflexivity|].
    apply bind_ok in E as (lm & _ & E). apply bind_ok in E as (rm & _ & E). apply bind_ok in E as ([imp tg'] & E2 & E).
    cbv zeta in E. rewrite bad_worse in E by eauto. injection E as <-. reflexivity.
  Qed.

  Lemma blind_cat f cases p leaf al r : bad p -> cBestSplit A St T rnd f cases p leaf al = Ok r -> dull r.
  Proof.
    intros Hp E. unfold cBestSplit in E. eapply blind_missing; [|exact Hp|exact E]. clear cases p al r E Hp.
    intros cs p al r Hp E.
    destruct (negb (cRandom f) && (maxNonBigCats <? NCats (cMap f))).
    { unfold BestCatSplitIterBig in E. apply bind_ok in E as ([[b d] t] & E1 & E). injection E as <-. eapply blind_iter; eauto. }
    destruct (negb (cRandom f) && (maxExhaustiveCats <? NCats (cMap f))).
    { unfold BestCatSplitIter in E. apply bind_ok in E as ([[b d] t] & E1 & E). injection E as <-. eapply blind_iter; eauto. }
    destruct (maxNonBigCats <? NCats (cMap f)).
    { unfold BestCatSplitBig in E. apply bind_ok in E as ([[[b d] t] dr] & E1 & E). injection E as <-. cbn [fDec].
      assert (H : snd (fst (fst (b, d, t, dr))) = minImp A).
      { eapply (for_up_ifok (fun s : Z * A * St * nat => snd (fst (fst s)) = minImp A)); [exact E1|reflexivity|].
        intros i [[[b' d'] t'] dr'] s' Hs Es. cbn in Hs. subst d'.
        destruct (NCats (cMap f) <=? maxNonRandomExahustive); apply bind_ok in Es as ([l rr] & _ & Es);
        (destruct ((length l <? leaf) || (length rr <? leaf)); [injection Es as <-; reflexivity|]);
        apply bind_ok in Es as ([imp t1] & E2 & Es); cbv zeta in Es; rewrite bad_worse in Es by eauto; injection Es as <-; reflexivity. }
      cbn in H. subst d. exact minImp_irrefl. }
    destruct (NCats (cMap f) =? 2).
    { unfold BestBinSplit in E. apply bind_ok in E as ([[cs' l] rr] & _ & E).
      destruct ((l <? leaf) || (length cs' - rr <? leaf)); [injection E as <-; exact zero_small|].
      apply bind_ok in E as (lm & _ & E). apply bind_ok in E as (rm & _ & E). apply bind_ok in E as ([imp tg'] & E2 & E).
      injection E as <-. cbn [fDec]. eauto. }
    unfold BestCatSplit in E. apply bind_ok in E as (ca & _ & E). cbv zeta in E.
    apply bind_ok in E as ([[[[[[cs' ca'] b] d] c] t] dr] & E1 & E). injection E as <-. cbn [fDec].
    assert (H : snd (fst (fst (fst (cs', ca', b, d, c, t, dr)))) = minImp A).
    { eapply (for_up_ifok (fun s : list nat * list Z * Z * A * bool * St * nat => snd (fst (fst (fst s))) = minImp A));
        [exact E1|reflexivity|].
      intros i [[[[[[cs1 ca1] b1] d1] c1] t1] dr1] s' Hs Es. cbn in Hs. subst d1. eapply blind_cat_step; eauto. }
    cbn in H. subst d. exact minImp_irrefl.
  Qed.

  Lemma blind_search f cases p leaf rs al r : bad p -> BestSplit A St T rnd f cases p leaf rs al = Ok r -> dull r.
  Proof.
    intros Hp E. destruct f as [f|f]; cbn [BestSplit] in E.
    - unfold nBestSplit in E. eapply blind_missing; [|exact Hp|exact E]. intros cs p0 al0 r0 H H0. exact (blind_num f cs p0 leaf rs al0 r0 H H0).
    - eapply blind_cat; eauto.
  Qed.

  Section Growing.
    Variable predict : list nat -> res string.
    Variable K : Type.
    Variable kCopyFrom : K -> K.
    Variable kShuffleCases : (nat -> nat) -> list nat -> K -> res K.
    Variable kTarget : K -> target A St.

    Lemma blind_try p imp s s' : bad imp -> bDec A St K s = minImp A -> bCode A St K s = CNil ->
      try_candidate A St T rnd K kShuffleCases kTarget p imp s = Ok s' ->
      bDec A St K s' = minImp A /\ bCode A St K s' = CNil.
    Proof.
      intros Hp Hd Hc E. unfold try_candidate in E. apply bind_ok in E as (i & _ & E). apply bind_ok in E as (f & _ & E).
      apply bind_ok in E as (r & E1 & E). apply blind_search in E1; auto.
      apply bind_ok in E as ([[[cans nc] dc] last] & _ & E).
      unfold eval_oob, vet_split in E. rewrite Hd, E1, andb_false_r in E. cbn [bind] in E.
      rewrite E1, andb_false_r in E. cbn [bind] in E. rewrite E1 in E. injection E as <-. cbn. auto.
    Qed.

    Lemma blind_splitter p cases cans oob ncb al k b :
      BestSplitter A St T rnd K kCopyFrom kShuffleCases kTarget p cases cans oob ncb al k = Ok b ->
      bCode A St K b = CNil.
    Proof.
      intros E. unfold BestSplitter in E. apply bind_ok in E as ([imp tg] & E1 & E). cbv zeta in E.
      destruct (nleb A imp (minImp A) && nleb A (nofZ A 0) imp); [injection E as <-; reflexivity|].
      apply bad_imp in E1. unfold splitter_loop in E.
      assert (H : (fun s => bDec A St K s = minImp A /\ bCode A St K s = CNil) b); [|apply H].
      eapply (loop_ifok (fun s : nat * bstate A St K => bDec A St K (snd s) = minImp A /\ bCode A St K (snd s) = CNil)
        (fun s => bDec A St K s = minImp A /\ bCode A St K s = CNil));
        [exact E|split; reflexivity|].
      intros [j s] o [H1 H2] Eo. cbn [snd] in *. destruct ((_ && _ && _) || _); [|injection Eo as <-; auto].
      destruct (length (bCans A St K s) <=? bConsts A St K s); [injection Eo as <-; auto|].
      apply bind_ok in Eo as ([s1 ev] & E2 & Eo).
      assert (H : bDec A St K s1 = minImp A /\ bCode A St K s1 = CNil).
      { unfold draw_candidate in E2. destruct (_ <? length (bCans A St K s)); [|injection E2 as <- <-; auto].
        apply bind_ok in E2 as (x & _ & E2). cbv zeta in E2. destruct (_ <=? _ + x); [injection E2 as <- <-; auto|].
        apply bind_ok in E2 as (y & _ & E2). injection E2 as <- <-; auto. }
      destruct ev; [|injection Eo as <-; auto].
      apply bind_ok in Eo as (s2 & E3 & Eo). injection Eo as <-. cbn [snd]. destruct H as [Ha Hb]. exact (blind_try p imp s1 s2 E1 Ha Hb E3).
    Qed.

    (** Whatever is grown is one leaf. *)
    Lemma blind_grow fuel p d l r m cases g t g' :
      Grow A St T predict rnd K kCopyFrom kShuffleCases kTarget fuel p (Node d l r m) cases g = Ok (t, g') ->
      exists cases' pred, predict cases' = Ok pred /\ t = Node (mkNd CNil (dFeat d) pred None) l r m.
    Proof.
      intros E. unfold Grow in E. destruct fuel as [|fuel]; cbn [grow_node] in E; [discriminate|].
      apply bind_ok in E as ([v g1] & E1 & E).
      assert (H : gvSplit v = CNil /\ exists cases' pred, predict cases' = Ok pred /\
        Node (gvD v) (gvL v) (gvR v) (gvM v) = Node (mkNd CNil (dFeat d) pred None) l r m).
      { unfold grow_visit in E1. cbv zeta in E1. destruct (_ && _).
        - apply bind_ok in E1 as (b & E2 & E1). apply blind_splitter in E2. rewrite E2 in E1. cbn [isCNil] in E1.
          apply bind_ok in E1 as (pr & E3 & E1). injection E1 as <- <-. cbn. split; auto. do 2 eexists. eauto.
        - apply bind_ok in E1 as (pr & E3 & E1). injection E1 as <- <-. cbn. split; auto. do 2 eexists. eauto. }
      destruct H as [H1 (cs & pr & H2 & H3)]. rewrite H1 in E. cbn [isCNil] in E. injection E as <- <-. eauto.
    Qed.
  End Growing.
End Blind.
