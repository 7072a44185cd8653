(** C39-C42, C71, C78, C79: growing trees. *)
From Verif Require Import Go GoLemmas F64 Exact F64Order F64Round ModelFeature ModelSplit SplitSpec SplitProofs ModelTree TreeSpec
  ModelBallot ModelSearch SearchSpec GrowSpec TotalSearch ModelTargets TargetProofs ModelGrow SplitterProofs Dependable GrownSpec
  GrowProofs.
From Verif Require PropTree PropFeatureSearch PropSearch PropCatSearch PropSplitter.
Local Open Scope string_scope.
Local Open Scope nat_scope.
Local Open Scope list_scope.

(** ** Facts about grown trees *)

Lemma at_path_nil q : at_path Nil q = Nil.
Proof. induction q as [|s q IH]; cbn; auto. Qed.

Lemma terminal_turn fm d c : terminal d = true -> turn fm d c = None.
Proof.
  unfold terminal, turn, test_of. destruct (dCode d); cbn; try discriminate. destruct (dSpl d); congruence.
Qed.

Lemma path_step (s : dir) (q q' : path) :
  (if path_dec (s :: q') (s :: q) then true else false) = (if path_dec q' q then true else false).
Proof.
  destruct (path_dec q' q) as [->|N].
  - destruct (path_dec (s :: q) (s :: q)); [reflexivity|congruence].
  - destruct (path_dec (s :: q') (s :: q)) as [E|]; [|reflexivity]. injection E as E. contradiction.
Qed.
Lemma path_off (s t : dir) (q q' : path) : s <> t -> (if path_dec (s :: q') (t :: q) then true else false) = false.
Proof. intros N. destruct (path_dec (s :: q') (t :: q)) as [E|]; [|reflexivity]. injection E as E _. contradiction. Qed.

(** The cases that arrive at a terminal node are those that end there. *)
Lemma arriving_ends fm q : forall n cases d l r m, at_path n q = Node d l r m -> terminal d = true ->
  arriving fm n q cases = filter (ends_at fm n q) cases.
Proof.
  induction q as [|s q IH]; intros n cases d l r m E Ht; cbn [at_path arriving] in *.
  - subst n. unfold ends_at. cbn [follow]. symmetry. induction cases as [|c cases IHc]; auto. cbn [filter].
    rewrite IHc. rewrite (terminal_turn fm d c Ht). destruct (path_dec [] []); congruence.
  - destruct n as [|d0 l0 r0 m0]; [cbn in E; rewrite at_path_nil in E; discriminate|].
    rewrite (IH _ _ _ _ _ _ E Ht). rewrite filter_filter. apply filter_ext. intros c.
    unfold heads, ends_at. cbn [follow child]. destruct (turn fm d0 c) as [t|] eqn:Et.
    + destruct (dir_dec t s) as [->|N]; cbn [andb].
      * destruct s; cbn [option_map].
        -- destruct (follow fm l0 c) as [q'|]; cbn [option_map]; [symmetry; apply path_step|reflexivity].
        -- destruct (follow fm r0 c) as [q'|]; cbn [option_map]; [symmetry; apply path_step|reflexivity].
        -- destruct (follow fm m0 c) as [q'|]; cbn [option_map]; [symmetry; apply path_step|reflexivity].
      * destruct t; [destruct (follow fm l0 c)|destruct (follow fm r0 c)|destruct (follow fm m0 c)];
          cbn [option_map]; try reflexivity; symmetry; apply path_off; auto.
    + cbn [andb]. destruct (path_dec [] (s :: q)); [discriminate|reflexivity].
Qed.

Lemma column_at p fm i f : fmData fm = pData p -> nth_error (pData p) i = Some f -> column fm i = f.
Proof. intros E H. unfold column. rewrite E. apply nth_error_nth. auto. Qed.

Lemma code_not_nil f code : code_fits f code -> isCNil code = false.
Proof. destruct f, code; cbn; tauto. Qed.

(** Where a split node sends its cases. *)
Lemma heads_split p fm d f cases : fmData fm = pData p -> nth_error (pData p) (dFeat d) = Some f ->
  code_fits f (dCode d) ->
  filter (heads fm d DL) cases = to_left f (dCode d) cases /\
  filter (heads fm d DR) cases = to_right f (dCode d) cases /\
  filter (heads fm d DM) cases = to_missing f cases.
Proof.
  intros E Ef Cf. pose proof (column_at p fm _ _ E Ef) as Ec.
  assert (H : forall c, turn fm d c = Some (if fmissing f c then DM else if coded_left f (dCode d) c then DL else DR)).
  { intros c. unfold turn, test_of. rewrite Ec. destruct (dCode d) eqn:Ed; auto.
    apply code_not_nil in Cf. discriminate. }
  unfold heads, to_left, to_right, to_missing.
  split; [|split]; apply filter_ext; intros c; rewrite H; destruct (fmissing f c), (coded_left f (dCode d) c); reflexivity.
Qed.

Section Tree.
  Variable A : arith.
  Variable St : Type.
  Variable T : target A St.
  Variable predict : list nat -> res string.
  Variable rnd : nat -> nat.
  Variable K : Type.
  Variable kCopyFrom : K -> K.
  Variable kShuffleCases : (nat -> nat) -> list nat -> K -> res K.
  Variable kTarget : K -> target A St.
  Variable p : params.
  Variable cans0 : list nat.
  Local Notation grown := (grown A St T predict rnd K kCopyFrom kShuffleCases kTarget p cans0).
  Local Notation grow_node := (grow_node A St T predict rnd K kCopyFrom kShuffleCases kTarget).
  Local Notation Grow := (Grow A St T predict rnd K kCopyFrom kShuffleCases kTarget).

  (** Every node of a grown tree was grown from the cases that arrive at it, except
      for the missing branches no training case goes to. *)
  Lemma grown_at fm : fmData fm = pData p -> forall n depth cases us q d l r m,
    grown depth cases n us -> at_path n q = Node d l r m ->
    (exists us', grown (depth + length q) (arriving fm n q cases) (Node d l r m) us') \/
    (pSplitMissing p = true /\ Node d l r m = newNode /\ arriving fm n q cases = [] /\ exists q', q = q' ++ [DM]).
  Proof.
    intros Efm. induction n as [|d0 l0 IHl r0 IHr m0 IHm]; intros depth cases us q d l r m H E; [destruct H|].
    destruct q as [|s q].
    { cbn in E. injection E as -> -> -> ->. left. exists us. rewrite Nat.add_0_r. exact H. }
    cbn [GrownSpec.grown] in H. destruct (terminal d0).
    { destruct H as (-> & -> & -> & _). destruct s; cbn in E; rewrite at_path_nil in E; discriminate. }
    destruct H as (f & dec & ul & ur & um & H0 & H1 & H2 & H3 & H4 & H5 & H5' & H6 & H7 & H8 & H9 & H10 & H11).
    destruct (heads_split p fm d0 f cases Efm H1 H2) as (EL & ER & EM).
    assert (Back : forall X (a : node) (b : list nat) dd,
       X \/ (pSplitMissing p = true /\ a = newNode /\ b = [] /\ (exists q', q = q' ++ [DM])) ->
       X \/ (pSplitMissing p = true /\ a = newNode /\ b = [] /\ (exists q', dd :: q = q' ++ [DM]))).
    { intros X a b dd [HX|(B1 & B2 & B3 & q' & ->)]; [left; auto|right]. do 3 (split; auto). exists (dd :: q'). auto. }
    cbn [at_path child arriving length] in *. replace (depth + S (length q)) with (S depth + length q) by lia.
    destruct s; cbn [child] in E.
    - rewrite EL. apply Back. eapply IHl; eauto.
    - rewrite ER. apply Back. eapply IHr; eauto.
    - rewrite EM. destruct (pSplitMissing p && negb (length (to_missing f cases) =? 0)) eqn:B.
      + apply Back. eapply IHm; eauto.
      + destruct H10 as [-> ->]. destruct (pSplitMissing p) eqn:Sm; [|rewrite at_path_nil in E; discriminate].
        cbn [andb] in B. apply negb_false_iff, Nat.eqb_eq, length_zero_iff_nil in B.
        right. split; auto. destruct q as [|s q].
        * rewrite B. cbn in *. split; [symmetry; auto|]. split; auto. exists []. auto.
        * exfalso. destruct s; cbn in E; rewrite at_path_nil in E; discriminate.
  Qed.

  (** The uses are the splits of the tree. *)
  Definition use_at (fm : fmatrix) (n : node) (depth : nat) (cases : list nat) (u : use A) (q : path) : Prop :=
    match at_path n q with
    | Nil => False
    | Node d l r m =>
        terminal d = false /\ uFeat u = dFeat d /\ uDepth u = depth + length q /\
        nltb A (least A) (uDec u) = true /\
        GrownSpec.reported A St T rnd K kCopyFrom kShuffleCases kTarget p (arriving fm n q cases) (dFeat d) (dCode d) (uDec u)
    end.
  Lemma grown_uses fm : fmData fm = pData p -> forall n depth cases us, grown depth cases n us ->
    Forall2 (use_at fm n depth cases) us (split_paths n).
  Proof.
    intros Efm. induction n as [|d l IHl r IHr m IHm]; intros depth cases us H; [destruct H|].
    cbn [GrownSpec.grown split_paths] in *. destruct (terminal d) eqn:Ht.
    { destruct H as (_ & _ & _ & -> & _). constructor. }
    destruct H as (f & dec & ul & ur & um & H0 & H1 & H2 & H3 & H4 & H5 & H5' & H6 & H7 & Hl & Hr & Hm & ->).
    destruct (heads_split p fm d f cases Efm H1 H2) as (EL & ER & EM).
    assert (Lift : forall s n' cs us', child (Node d l r m) s = n' -> filter (heads fm d s) cases = cs ->
      Forall2 (use_at fm n' (S depth) cs) us' (split_paths n') ->
      Forall2 (use_at fm (Node d l r m) depth cases) us' (map (cons s) (split_paths n'))).
    { intros s n' cs us' Ec Ef F. induction F as [|u q us' qs Hu F IH]; cbn [map]; constructor; auto.
      unfold use_at in *. cbn [at_path arriving length]. rewrite Ec, Ef. destruct (at_path n' q); auto.
      destruct Hu as (U1 & U2 & U3 & U4). do 2 (split; auto). split; [lia|auto]. }
    constructor; [|apply Forall2_app; [|apply Forall2_app]].
    - unfold use_at. cbn. rewrite Nat.add_0_r. auto.
    - eapply Lift; [reflexivity|exact EL|eauto].
    - eapply Lift; [reflexivity|exact ER|eauto].
    - eapply Lift; [reflexivity|exact EM|]. cbn [child].
      destruct (pSplitMissing p && negb (length (to_missing f cases) =? 0)); [eauto|].
      destruct Hm as [-> ->]. destruct (pSplitMissing p); constructor.
  Qed.

  Lemma grown_wf : forall n depth cases us, grown depth cases n us -> n <> Nil /\ well_formed n.
  Proof.
    induction n as [|d l IHl r IHr m IHm]; intros depth cases us H; [destruct H|]. split; [congruence|].
    cbn [GrownSpec.grown well_formed] in *. destruct (terminal d).
    { destruct H as (-> & -> & -> & _). cbn. auto 10. }
    destruct H as (f & dec & ul & ur & um & _ & _ & _ & _ & _ & _ & _ & _ & _ & Hl & Hr & Hm & ->).
    apply IHl in Hl as [Hl1 Hl2]. apply IHr in Hr as [Hr1 Hr2]. split; auto. split; auto. split; auto.
    destruct (pSplitMissing p && negb (length (to_missing f cases) =? 0)); [eapply IHm; eauto|].
    destruct Hm as [-> _]. destruct (pSplitMissing p); cbn; auto 10.
  Qed.

  Lemma grown_usable fm cases : fmData fm = pData p ->
    (forall i f, In i cans0 -> nth_error (pData p) i = Some f -> flag_sound f /\ Forall (has_case f) cases) ->
    forall n depth cs us, grown depth cs n us -> usable fm cases n.
  Proof.
    intros Efm Hd. induction n as [|d l IHl r IHr m IHm]; intros depth cs us H; [destruct H|].
    cbn [GrownSpec.grown usable] in *. destruct (terminal d) eqn:Ht.
    { destruct H as (-> & -> & -> & _). cbn. split; auto. unfold answers, terminal in *.
      destruct (dCode d); cbn in Ht; try discriminate. destruct (dSpl d); [discriminate|auto]. }
    destruct H as (f & dec & ul & ur & um & H0 & H1 & H2 & _ & _ & _ & _ & _ & _ & Hl & Hr & Hm & ->).
    split; [|split; [eauto|split; [eauto|]]].
    - pose proof (column_at p fm _ _ Efm H1) as Ec. destruct (Hd _ _ H0 H1) as [D1 D2].
      unfold answers. rewrite Ec.
      assert (Lf : dFeat d < length (fmData fm)) by (rewrite Efm; eapply nth_error_some_lt; eauto).
      destruct (dCode d) eqn:Ed; auto. apply code_not_nil in H2. discriminate.
    - destruct (pSplitMissing p && negb (length (to_missing f cs) =? 0)); [eauto|].
      destruct Hm as [-> _]. destruct (pSplitMissing p); cbn; auto 10.
  Qed.

End Tree.

Section Growth.
  Variable A : arith.
  Variable St : Type.
  Variable T : target A St.
  Variable predict : list nat -> res string.
  Variable rnd : nat -> nat.
  Variable K : Type.
  Variable kCopyFrom : K -> K.
  Variable kShuffleCases : (nat -> nat) -> list nat -> K -> res K.
  Variable kTarget : K -> target A St.
  Variable p : params.
  Local Notation grown := (grown A St T predict rnd K kCopyFrom kShuffleCases kTarget p).
  Local Notation Grow := (Grow A St T predict rnd K kCopyFrom kShuffleCases kTarget).
  Local Notation reported := (reported A St T rnd K kCopyFrom kShuffleCases kTarget p).

  (** What growing a tree relies on. *)
  Record growable (ok : nat -> Prop) (ready : St -> Prop) (kok : K -> Prop) (cases : list nat) (g : gstate A St K) : Prop := {
    (* target, arithmetic and predictions answer *)
    gr_dep : dependable T ok ready;
    gr_sane : sane A;
    gr_predict : forall cs, Forall ok cs -> exists s, predict cs = Ok s;
    gr_cases : Forall ok cases;
    (* parameters *)
    gr_leaf : 1 <= pLeaf p;
    gr_try : pTry p <= length (gCans g);
    (* the candidates are features whose splits are applied as they are evaluated *)
    gr_data : forall i, In i (gCans g) -> exists f, nth_error (pData p) i = Some f /\ searchable f cases /\ faithful f cases /\
      (pEvalOob p = true -> searchable f (gOob g));
    (* scratch space and counters are large enough *)
    gr_room : roomy (gAl g) (length cases);
    gr_ready : ready (aTgt (gAl g));
    gr_imp : forall l, gImp g = Some l -> Forall (fun i => i < length l) (gCans g);
    gr_depth : forall l, gDepth g = Some l -> Forall (fun i => i < length l) (gCans g);
    (* the options vet and evaloob *)
    gr_vet : pVet p = true -> vettable A St K kCopyFrom kShuffleCases kTarget ok ready kok /\ kok (gK g);
    gr_oob : pEvalOob p = true -> Forall ok (gOob g) /\ roomy (gAl g) (length (gOob g))
  }.

  Lemma growth_once ok ready kok cases g N : growable ok ready kok cases g -> length cases <= N -> roomy (gAl g) N ->
    exists n g' us, Grow (S (length cases)) p newNode cases g = Ok (n, g') /\
      grown (gCans g) 0 cases n us /\ fine A St K p ready kok (gCans g) (gOob g) N g' /\
      counted us (gImp g) (gImp g') /\ deep us (gDepth g) (gDepth g').
  Proof.
    intros [H1 H2 H3 H4 H5 H6 H7 H8 H9 H10 H11 H12 H13] HN HR.
    destruct (grow_fresh A St T predict rnd K kCopyFrom kShuffleCases kTarget p ok ready kok H1 H2 H5) with
      (cans0 := gCans g) (oob0 := gOob g) (N := N) (fuel := S (length cases)) (cases := cases) (depth := 0) (nb := 0) (g := g)
      as (n & g' & us & E & G & F & [S1 S2 S3]); auto; try lia.
    - intros V. apply H12; auto.
    - intros O. apply H13; auto.
    - constructor; auto; intros; try (apply H12; auto); try (apply H13; auto).
    - intros _ i Hi. rewrite Nat.sub_0_r, skipn_all in Hi. destruct Hi.
    - exists n, g', us. auto.
  Qed.

  Lemma growth ok ready kok cases g : growable ok ready kok cases g ->
    exists n g' us, (forall fuel, length cases < fuel -> Grow fuel p newNode cases g = Ok (n, g')) /\
      grown (gCans g) 0 cases n us /\ counted us (gImp g) (gImp g') /\ deep us (gDepth g) (gDepth g') /\
      (forall cases', growable ok ready kok cases' g -> growable ok ready kok cases' g').
  Proof.
    intros Hg. destruct (growth_once ok ready kok cases g (length cases) Hg (Nat.le_refl _) (gr_room _ _ _ _ _ Hg))
      as (n & g' & us & E & G & F & C1 & C2).
    exists n, g', us. split; [intros fuel Hf; eapply grow_enough; [|exact E]; lia|]. do 3 (split; auto).
    intros cases' Hg'.
    assert (R : roomy (gAl g') (length cases')).
    { destruct (le_lt_dec (length cases) (length cases')) as [Hl|Hl].
      - destruct (growth_once ok ready kok cases g (length cases') Hg Hl (gr_room _ _ _ _ _ Hg')) as (n2 & g2 & us2 & E2 & _ & F2 & _).
        assert (g2 = g') by congruence. subst. apply F2.
      - destruct (fi_room _ _ _ _ _ _ _ _ _ _ F). split; lia. }
    destruct F as [F1 F2 F3 F4 F5 F6 F7 F8]. destruct Hg' as [H1 H2 H3 H4 H5 H6 H7 H8 H9 H10 H11 H12 H13].
    constructor; auto.
    - rewrite <- (Permutation_length F1). auto.
    - intros i Hi. destruct (H7 i) as (f & E1 & E2 & E3 & E4).
      { eapply Permutation_in; [symmetry; exact F1|auto]. }
      exists f. do 3 (split; auto). intros O. eapply searchable_perm; [exact F2|auto].
    - intros l El. eapply Permutation_Forall; [exact F1|auto].
    - intros l El. eapply Permutation_Forall; [exact F1|auto].
    - intros V. split; auto. apply H12; auto.
    - intros O. split; [eapply Permutation_Forall; [exact F2|apply H13; auto]|].
      rewrite <- (Permutation_length F2). auto.
  Qed.

(** C39: every node of a grown tree respects the limits. *)
Theorem C39_limits_respected : forall ok ready kok cases g fm,
  growable ok ready kok cases g -> fmData fm = pData p ->
  forall fuel n g', length cases < fuel -> Grow fuel p newNode cases g = Ok (n, g') ->
  forall q d l r m, at_path n q = Node d l r m ->
  (0 < pMaxDepth p -> length q <= pMaxDepth p) /\
  (terminal d = false ->
     (0 < pMaxDepth p -> length q < pMaxDepth p) /\
     l <> Nil /\ r <> Nil /\ (m <> Nil <-> pSplitMissing p = true) /\
     2 * pLeaf p <= length (arriving fm n q cases) /\
     pLeaf p <= length (arriving fm n (q ++ [DL]) cases) /\
     pLeaf p <= length (arriving fm n (q ++ [DR]) cases)).
Proof.
  intros ok ready kok cases g fm Hg Efm fuel n g' Hf E q d l r m Eq.
  destruct (growth ok ready kok cases g Hg) as (n' & g2 & us & En & G & _).
  rewrite (En fuel Hf) in E. injection E as -> ->.
  assert (Deep : forall q d l r m us', grown (gCans g) (0 + length q) (arriving fm n q cases) (Node d l r m) us' ->
    terminal d = false -> may_split p (length q) (arriving fm n q cases)).
  { intros q0 d0 l0 r0 m0 us' H Ht. cbn [GrownSpec.grown] in H. rewrite Ht in H. destruct H as (f & dec & ul & ur & um & H). apply H. }
  assert (App : forall n q s cs d l r m, at_path n q = Node d l r m ->
    arriving fm n (q ++ [s]) cs = filter (heads fm d s) (arriving fm n q cs)).
  { clear. intros n q. revert n. induction q as [|t q IH]; intros n s cs d l r m E.
    - cbn in E. subst n. reflexivity.
    - cbn [app arriving at_path] in *. destruct n as [|d0 l0 r0 m0]; [cbn in E; rewrite at_path_nil in E; discriminate|].
      eapply IH. exact E. }
  split.
  - intros Hm. destruct q as [|s q] using rev_ind; [cbn; lia|]. clear IHq.
    assert (exists d0 l0 r0 m0, at_path n q = Node d0 l0 r0 m0 /\ child (Node d0 l0 r0 m0) s = Node d l r m) as (d0 & l0 & r0 & m0 & E0 & Ec).
    { clear -Eq. revert n Eq. induction q as [|t q IH]; intros n Eq; cbn in *.
      - destruct n as [|d0 l0 r0 m0]; [discriminate|]. eauto 10.
      - apply IH. exact Eq. }
    rewrite app_length. cbn [length].
    destruct (grown_at A St T predict rnd K kCopyFrom kShuffleCases kTarget p (gCans g) fm Efm n 0 cases us q d0 l0 r0 m0 G E0)
      as [(us' & G')|(_ & Ew & _)].
    + destruct (terminal d0) eqn:Ht.
      { cbn [GrownSpec.grown] in G'. rewrite Ht in G'. destruct G' as (-> & -> & -> & _). destruct s; discriminate. }
      destruct (Deep q d0 l0 r0 m0 us' G' Ht) as [_ [D|D]]; lia.
    + rewrite Ew in Ec. destruct s; discriminate.
  - intros Ht.
    destruct (grown_at A St T predict rnd K kCopyFrom kShuffleCases kTarget p (gCans g) fm Efm n 0 cases us q d l r m G Eq)
      as [(us' & G')|(_ & Ew & _)].
    2:{ injection Ew as -> _ _ _. discriminate. }
    destruct (Deep _ _ _ _ _ _ G' Ht) as [D1 D2]. split; [lia|].
    cbn [GrownSpec.grown] in G'. rewrite Ht in G'.
    destruct G' as (f & dec & ul & ur & um & H0 & H1 & H2 & H3 & H4 & H5 & H5' & H6 & H7 & H8 & H9 & H10 & H11).
    split; [intros ->; exact H8|]. split; [intros ->; exact H9|].
    split.
    { destruct (pSplitMissing p) eqn:Sm; cbn [andb] in H10.
      - split; auto. intros _ ->. destruct (negb (length (to_missing f (arriving fm n q cases)) =? 0)); [exact H10|].
        destruct H10; discriminate.
      - destruct H10 as [-> _]. split; congruence. }
    split; auto.
    rewrite !(App _ _ _ _ _ _ _ _ Eq).
    destruct (heads_split p fm d f (arriving fm n q cases) Efm H1 H2) as (-> & -> & _). auto.
Qed.

(** C40: with splits that are applied as they are evaluated, growing ends; the number
    of steps needed downwards is at most the number of cases. *)
Theorem C40_growing_ends_partial : forall ok ready kok cases g,
  growable ok ready kok cases g ->
  exists n g', (forall fuel, length cases < fuel -> Grow fuel p newNode cases g = Ok (n, g')) /\
    (* and the next tree can be grown with what is left *)
    (forall cases', growable ok ready kok cases' g -> growable ok ready kok cases' g').
Proof.
  intros ok ready kok cases g Hg. destruct (growth ok ready kok cases g Hg) as (n & g' & us & E & _ & _ & _ & R).
  exists n, g'. auto.
Qed.

(** C42: the training cases are partitioned among the leaves, and a leaf predicts
    FindPredicted of exactly the cases that reach it. *)
Theorem C42_leaves_predict_their_cases : forall ok ready kok cases g fm,
  growable ok ready kok cases g -> fmData fm = pData p ->
  forall fuel n g', length cases < fuel -> Grow fuel p newNode cases g = Ok (n, g') ->
  n <> Nil /\ well_formed n /\ usable fm cases n /\
  (* every leaf, except an empty missing branch *)
  (forall q d l r m, at_path n q = Node d l r m -> terminal d = true ->
     (exists cs, Permutation (filter (ends_at fm n q) cases) cs /\ predict cs = Ok (dPred d)) \/
     (pSplitMissing p = true /\ (exists q', q = q' ++ [DM]) /\ filter (ends_at fm n q) cases = [])) /\
  (* every case reaches one leaf *)
  (forall c, In c cases -> (pSplitMissing p = true \/ Forall (fun d => turn fm d c <> Some DM) (route fm n c)) ->
     exists q d l r m, follow fm n c = Some q /\ at_path n q = Node d l r m /\ terminal d = true).
Proof.
  intros ok ready kok cases g fm Hg Efm fuel n g' Hf E.
  destruct (growth ok ready kok cases g Hg) as (n' & g2 & us & En & G & _).
  rewrite (En fuel Hf) in E. injection E as -> ->.
  destruct (grown_wf A St T predict rnd K kCopyFrom kShuffleCases kTarget p (gCans g) n 0 cases us G) as [W1 W2].
  split; auto. split; auto. split.
  { eapply grown_usable; [exact Efm| |exact G]. intros i f Hi Ei.
    destruct (gr_data _ _ _ _ _ Hg i Hi) as (f' & E1 & (S1 & S2 & _) & _). assert (f' = f) by congruence. subst. auto. }
  split.
  - intros q d l r m Eq Ht. rewrite <- (arriving_ends fm q n cases d l r m Eq Ht).
    destruct (grown_at A St T predict rnd K kCopyFrom kShuffleCases kTarget p (gCans g) fm Efm n 0 cases us q d l r m G Eq)
      as [(us' & G')|(Sm & Ew & Ea & Eq')]; [left|right; auto].
    cbn [GrownSpec.grown] in G'. rewrite Ht in G'. destruct G' as (_ & _ & _ & _ & G' & _). exact G'.
  - intros c Hc Hm. clear En Hf. revert Hc Hm G. generalize 0 as depth. clear W1 W2. revert us. generalize cases at 1 2 as cs.
    revert n. induction n as [|d l IHl r IHr m IHm]; intros cs us depth Hc Hm G; [destruct G|].
    cbn [GrownSpec.grown follow route] in *. destruct (terminal d) eqn:Ht.
    { rewrite (terminal_turn fm d c Ht). exists [], d, l, r, m. auto. }
    destruct G as (f & dec & ul & ur & um & H0 & H1 & H2 & H3 & H4 & H5 & H5' & H6 & H7 & H8 & H9 & H10 & H11).
    destruct (heads_split p fm d f cs Efm H1 H2) as (EL & ER & EM).
    assert (Ht2 : turn fm d c = Some DL \/ turn fm d c = Some DR \/ turn fm d c = Some DM).
    { destruct (turn fm d c) as [[]|] eqn:Et; auto. exfalso. unfold turn, test_of in Et.
      destruct (dCode d) eqn:Ed; try discriminate. apply code_not_nil in H2. discriminate. }
    destruct Ht2 as [Et|[Et|Et]]; rewrite Et in *.
    + destruct (IHl (to_left f (dCode d) cs) ul (S depth)) as (q & d' & l' & r' & m' & F1 & F2 & F3); auto.
      { rewrite <- EL. apply filter_In. split; auto. unfold heads. rewrite Et. reflexivity. }
      { destruct Hm as [Hm|Hm]; auto. right. inversion Hm; auto. }
      rewrite F1. exists (DL :: q), d', l', r', m'. auto.
    + destruct (IHr (to_right f (dCode d) cs) ur (S depth)) as (q & d' & l' & r' & m' & F1 & F2 & F3); auto.
      { rewrite <- ER. apply filter_In. split; auto. unfold heads. rewrite Et. reflexivity. }
      { destruct Hm as [Hm|Hm]; auto. right. inversion Hm; auto. }
      rewrite F1. exists (DR :: q), d', l', r', m'. auto.
    + assert (Hi : In c (to_missing f cs)).
      { rewrite <- EM. apply filter_In. split; auto. unfold heads. rewrite Et. reflexivity. }
      destruct Hm as [Hm|Hm].
      2:{ inversion Hm as [|x y Hx _]; subst. rewrite Et in Hx. congruence. }
      rewrite Hm in H10. destruct (Nat.eqb_spec (length (to_missing f cs)) 0) as [E0|N0].
      { apply length_zero_iff_nil in E0. rewrite E0 in Hi. destruct Hi. }
      cbn in H10.
      destruct (IHm (to_missing f cs) um (S depth)) as (q & d' & l' & r' & m' & F1 & F2 & F3); auto.
      rewrite F1. exists (DM :: q), d', l', r', m'. auto.
Qed.

(** C79: a feature that the search in a node leaves out as constant has no split on
    the cases of that node, whatever was done to the candidate list in between. *)
Theorem C79_skipped_features_are_constant : forall ok ready kok cases0 g0 cases depth nb g,
  growable ok ready kok cases0 g0 -> plain_search p ->
  invoked A St T predict rnd K kCopyFrom kShuffleCases kTarget p cases0 g0 cases depth nb g ->
  PropFeatureSearch.part_of cases cases0 /\ Permutation (gCans g0) (gCans g) /\
  forall i, In i (skipn (length (gCans g) - nb) (gCans g)) ->
  exists f, nth_error (pData p) i = Some f /\ hopeless f (pLeaf p) cases /\
    (forall parent rs al, roomy al (length cases) -> ready (aTgt al) ->
       exists r, BestSplit A St T rnd f cases parent (pLeaf p) rs al = Ok r /\ nltb A (least A) (fDec r) = false).
Proof.
  intros ok ready kok cases0 g0 cases depth nb g [H1 H2 H3 H4 H5 H6 H7 H8 H9 H10 H11 H12 H13] Ps Hi.
  destruct (invoked_fits A St T predict rnd K kCopyFrom kShuffleCases kTarget p ok ready kok H1 H2 H5) with
    (cans0 := gCans g0) (oob0 := gOob g0) (N := length cases0) (cases0 := cases0) (g0 := g0)
    (cases := cases) (depth := depth) (nb := nb) (g := g) as (P & F & Hn & Hc); auto.
  - intros V. apply H12; auto.
  - intros O. apply H13; auto.
  - constructor; auto; intros; try (apply H12; auto); try (apply H13; auto).
  - split; auto. split; [apply F|]. intros i Hi'. destruct (Hc Ps i Hi') as (f & Ef & Hh).
    exists f. split; auto. split; auto. intros parent rs al Ra Ry.
    assert (Hin : In i (gCans g0)).
    { eapply Permutation_in; [symmetry; apply F|]. rewrite <- (firstn_skipn (length (gCans g) - nb) (gCans g)).
      apply in_or_app. auto. }
    destruct (H7 i Hin) as (f' & Ef' & Sf & _). assert (f' = f) by congruence. subst f'.
    eapply PropFeatureSearch.hopeless_search; eauto.
    + rewrite Forall_forall in *. intros c Hx. apply H4. eapply part_incl; eauto.
    + eapply searchable_sub; [eapply part_incl; eauto|auto].
Qed.
End Growth.

(** ** C71: importance *)

(** A counter that has been given the values [xs]. *)
Definition mean_of (xs : list R) (rm : rmean XR) : Prop :=
  rmCount rm = Some (INR (length xs)) /\ rmMean rm = Some (Rsum xs / INR (length xs))%R.

Lemma mean_add xs x rm : mean_of xs rm -> mean_of (xs ++ [x]) (rmAdd XR (Some x) rm).
Proof.
  intros [E1 E2]. unfold rmAdd, WeightedAdd, mean_of. cbn. rewrite E1, E2. cbn.
  rewrite app_length, plus_INR, Rsum_app. cbn [length Rsum INR].
  pose proof (pos_INR (length xs)) as Hp.
  destruct (Req_EM_T (INR (length xs) + 1) 0) as [E0|N0]; [lra|]. split; auto. f_equal.
  destruct xs as [|y xs].
  - cbn. unfold Rdiv. rewrite !Rmult_0_r. f_equal. lra.
  - cbn [length] in *. rewrite S_INR in *. pose proof (pos_INR (length xs)). field. lra.
Qed.
Lemma mean_adds ys : forall xs rm, mean_of xs rm ->
  mean_of (xs ++ ys) (fold_left (fun rm x => rmAdd XR x rm) (map Some ys) rm).
Proof.
  induction ys as [|y ys IH]; intros xs rm H; cbn; [rewrite app_nil_r; auto|].
  replace (xs ++ y :: ys) with ((xs ++ [y]) ++ ys) by (rewrite <- app_assoc; auto).
  apply IH, mean_add, H.
Qed.
Lemma mean_new size i rm : nth_error (NewRunningMeans XR size) i = Some rm -> mean_of [] rm.
Proof.
  intros H. apply nth_error_In, repeat_spec in H. subst. unfold mean_of. cbn. split; auto. f_equal. lra.
Qed.

Lemma real_decreases (us : list (use XR)) : Forall (fun u => nltb XR (least XR) (uDec u) = true) us ->
  forall i, exists ys, decreases_of i us = map Some ys.
Proof.
  intros F i. unfold decreases_of. induction F as [|u us Hu F IH]; [exists []; auto|].
  destruct IH as (ys & E). cbn [filter]. destruct (uFeat u =? i); [|eauto]. cbn [map]. rewrite E.
  destruct u as [[a b] [x|]]; [exists (x :: ys); auto|]. exfalso.
  assert (Hn : forall y : XR, nltb XR y None = false) by (intros [y|]; reflexivity).
  unfold uDec in Hu. cbn [snd] in Hu. rewrite Hn in Hu. discriminate.
Qed.

Section Importance.
  Variable St : Type.
  Variable T : target XR St.
  Variable predict : list nat -> res string.
  Variable rnd : nat -> nat.
  Variable K : Type.
  Variable kCopyFrom : K -> K.
  Variable kShuffleCases : (nat -> nat) -> list nat -> K -> res K.
  Variable kTarget : K -> target XR St.
  Variable p : params.
  Local Notation Grow := (Grow XR St T predict rnd K kCopyFrom kShuffleCases kTarget).
  Local Notation growable := (growable XR St T predict K kCopyFrom kShuffleCases kTarget p).
  Local Notation use_at := (use_at XR St T rnd K kCopyFrom kShuffleCases kTarget p).

  (** Trees grown one after the other with the same state. *)
  Fixpoint grow_all (bags : list (list nat)) (g : gstate XR St K) : res (list node * gstate XR St K) :=
    match bags with
    | [] => Ok ([], g)
    | cs :: bags =>
        let* (n, g) := Grow (S (length cs)) p newNode cs g in
        let* (ns, g) := grow_all bags g in
        Ok (n :: ns, g)
    end.

(** C71: after growing trees, the counter of every feature has been given the
    decreases reported for exactly the splits on it (exact arithmetic). *)
Theorem C71_importance : forall ok ready kok fm, fmData fm = pData p ->
  forall bags g l, Forall (fun cs => growable ok ready kok cs g) bags -> gImp g = Some l ->
  exists ns g' l' uss,
    grow_all bags g = Ok (ns, g') /\ gImp g' = Some l' /\ length l' = length l /\
    (* the uses: one for every split node of every tree, with the decrease reported there *)
    Forall2 (fun '(cs, n) us => Forall2 (use_at fm n 0 cs) us (split_paths n)) (combine bags ns) uss /\
    length ns = length bags /\
    (* and the counters *)
    forall i rm xs, nth_error l i = Some rm -> mean_of xs rm ->
      exists rm' ys, nth_error l' i = Some rm' /\ decreases_of i (concat uss) = map Some ys /\ mean_of (xs ++ ys) rm'.
Proof.
  intros ok ready kok fm Efm. induction bags as [|cs bags IH]; intros g l Hb Hl.
  - exists [], g, l, []. cbn. do 3 (split; auto). split; [constructor|]. split; auto. intros i rm xs E H.
    exists rm, []. rewrite app_nil_r. auto.
  - inversion Hb as [|? ? Hg Hb']; subst.
    destruct (growth XR St T predict rnd K kCopyFrom kShuffleCases kTarget p ok ready kok cs g Hg) as (n & g1 & us & En & G & Hc & _ & Hnext).
    rewrite Hl in Hc. cbn in Hc. destruct (gImp g1) as [l1|] eqn:El1; [|destruct Hc]. destruct Hc as [Ll Hc].
    destruct (IH g1 l1) as (ns & g' & l' & uss & Ea & El' & Ll' & Hu & Ln & Hm); auto.
    { eapply Forall_impl; [|exact Hb']. intros a Ha. apply Hnext, Ha. }
    exists (n :: ns), g', l', (us :: uss). cbn [grow_all]. rewrite En by lia. cbn [bind]. rewrite Ea. cbn [bind].
    pose proof (grown_uses XR St T predict rnd K kCopyFrom kShuffleCases kTarget p (gCans g) fm Efm n 0 cs us G) as Hus.
    do 2 (split; auto). split; [congruence|]. split; [constructor; auto|]. split; [cbn; auto|].
    intros i rm xs E Hx.
    destruct (real_decreases us) with (i := i) as (ys & Ey).
    { clear -Hus. induction Hus as [|u q us qs Hu F IH]; constructor; auto. unfold PropGrow.use_at in Hu.
      destruct (at_path n q); [destruct Hu|]. apply Hu. }
    pose proof (Hc i rm E) as E1. rewrite Ey in E1. apply (mean_adds ys) in Hx.
    destruct (Hm i _ _ E1 Hx) as (rm' & zs & E2 & Ez & Hz). exists rm', (ys ++ zs).
    split; auto. split; [|rewrite app_assoc; auto].
    cbn [concat]. unfold decreases_of in *. rewrite filter_app, map_app, Ey, Ez, map_app. reflexivity.
Qed.
End Importance.

(** The recorded depth. *)
Lemma shallower_pos ds : Forall (fun x => 0 < x) ds -> forall d, 0 < d ->
  let e := fold_left shallower ds d in (e = d \/ In e ds) /\ e <= d /\ Forall (fun x => e <= x) ds /\ 0 < e.
Proof.
  induction 1 as [|x ds Hx F IH]; intros d Hd; [cbn; auto|]. cbn [fold_left].
  assert (E : shallower d x = Nat.min d x).
  { unfold shallower. destruct (Nat.eqb_spec d 0); [lia|]. cbn [orb]. destruct (Nat.ltb_spec x d); lia. }
  rewrite E. destruct (IH (Nat.min d x)) as (A1 & A2 & A3 & A4); [lia|]. cbv zeta. split; [|split; [lia|split; [constructor; auto; lia|auto]]].
  destruct A1 as [A1|A1]; [|cbn; auto]. rewrite A1. destruct (Nat.min_spec d x) as [[_ ->]|[_ ->]]; cbn; auto.
Qed.
Lemma shallower_min ds : Forall (fun x => 0 < x) ds ->
  let e := fold_left shallower ds 0 in (ds = [] /\ e = 0) \/ (In e ds /\ Forall (fun x => e <= x) ds).
Proof.
  destruct ds as [|x ds]; intros F; cbn; auto. right. inversion F; subst.
  destruct (shallower_pos ds H2 x H1) as (A1 & A2 & A3 & _). split; [destruct A1 as [E|]; auto|].
  constructor; auto.
Qed.

Section Depth.
  Variable A : arith.
  Variable St : Type.
  Variable T : target A St.
  Variable predict : list nat -> res string.
  Variable rnd : nat -> nat.
  Variable K : Type.
  Variable kCopyFrom : K -> K.
  Variable kShuffleCases : (nat -> nat) -> list nat -> K -> res K.
  Variable kTarget : K -> target A St.
  Variable p : params.
  Local Notation Grow := (Grow A St T predict rnd K kCopyFrom kShuffleCases kTarget).
  Local Notation growable := (growable A St T predict K kCopyFrom kShuffleCases kTarget p).

  Definition splits_on (n : node) (i : nat) (q : path) : Prop :=
    exists d l r m, at_path n q = Node d l r m /\ terminal d = false /\ dFeat d = i.

  Lemma split_paths_all cans0 : forall n depth cases us q i,
    grown A St T predict rnd K kCopyFrom kShuffleCases kTarget p cans0 depth cases n us ->
    splits_on n i q -> In q (split_paths n).
  Proof.
    induction n as [|d l IHl r IHr m IHm]; intros depth cases us q i G (d' & l' & r' & m' & Eq & Ht' & Ei); [destruct G|].
    cbn [GrownSpec.grown split_paths] in *. destruct (terminal d) eqn:Ht.
    { destruct G as (-> & -> & -> & _). destruct q as [|[] q]; cbn in Eq; try (rewrite at_path_nil in Eq; discriminate).
      injection Eq as -> _ _ _. congruence. }
    destruct G as (f & dec & ul & ur & um & H0 & H1 & H2 & H3 & H4 & H5 & H5' & H6 & H7 & Hl & Hr & Hm & ->).
    destruct q as [|s q]; [left; auto|right]. rewrite !in_app_iff, !in_map_iff.
    assert (S' : splits_on (child (Node d l r m) s) i q) by (exists d', l', r', m'; auto).
    destruct s; cbn [child] in S'.
    - left. exists q. split; auto. eapply IHl; eauto.
    - right. left. exists q. split; auto. eapply IHr; eauto.
    - right. right. exists q. split; auto.
      destruct (pSplitMissing p && negb (length (to_missing f cases) =? 0)); [eapply IHm; eauto|].
      destruct Hm as [-> _]. destruct S' as (d2 & l2 & r2 & m2 & E2 & T2 & _).
      destruct (pSplitMissing p); [|rewrite at_path_nil in E2; discriminate].
      destruct q as [|[] q]; cbn in E2; try (rewrite at_path_nil in E2; discriminate).
      injection E2 as <- _ _ _. discriminate.
  Qed.

  (** C71, depths: for a feature that was not used before and is not used at the root
      of the tree, the recorded depth is the smallest depth at which it is used. *)
Theorem C71_depth_partial : forall ok ready kok cases g l fm fuel n g',
  growable ok ready kok cases g -> fmData fm = pData p -> gDepth g = Some l ->
  length cases < fuel -> Grow fuel p newNode cases g = Ok (n, g') ->
  exists l', gDepth g' = Some l' /\ length l' = length l /\
  forall i, nth_error l i = Some 0 -> ~ splits_on n i [] ->
  exists e, nth_error l' i = Some e /\
    ((e = 0 /\ forall q, ~ splits_on n i q) \/
     ((exists q, splits_on n i q /\ length q = e) /\ forall q, splits_on n i q -> e <= length q)).
Proof.
  intros ok ready kok cases g l fm fuel n g' Hg Efm Hl Hf E.
  destruct (growth A St T predict rnd K kCopyFrom kShuffleCases kTarget p ok ready kok cases g Hg) as (n' & g2 & us & En & G & _ & Hd & _).
  rewrite (En fuel Hf) in E. injection E as -> ->.
  rewrite Hl in Hd. cbn in Hd. destruct (gDepth g') as [l'|]; [|destruct Hd]. destruct Hd as [Ll Hd].
  exists l'. split; auto. split; auto. intros i Ei Hroot. exists (fold_left shallower (depths_of i us) 0). split; auto.
  pose proof (grown_uses A St T predict rnd K kCopyFrom kShuffleCases kTarget p (gCans g) fm Efm n 0 cases us G) as Hu.
  assert (U1 : forall e, In e (depths_of i us) -> exists q, splits_on n i q /\ length q = e).
  { intros e He. unfold depths_of in He. apply in_map_iff in He as (u & Eu & He). apply filter_In in He as [He Hi].
    apply Nat.eqb_eq in Hi. clear -Hu He Hi Eu. induction Hu as [|u' q us qs Hu F IH]; [destruct He|].
    destruct He as [->|He]; [|auto]. exists q. unfold use_at in Hu. unfold splits_on.
    destruct (at_path n q) as [|d l r m] eqn:Eq; [destruct Hu|]. destruct Hu as (T1 & T2 & T3 & _).
    split; [|lia]. exists d, l, r, m. split; auto. split; auto. congruence. }
  assert (U2 : forall q, splits_on n i q -> In (length q) (depths_of i us)).
  { intros q Hs. pose proof (split_paths_all (gCans g) n 0 cases us q i G Hs) as Hin.
    unfold depths_of. clear -Hu Hin Hs. induction Hu as [|u q' us qs Hu F IH]; [destruct Hin|].
    cbn [filter]. destruct Hin as [->|Hin].
    - unfold use_at in Hu. destruct Hs as (d & l & r & m & Eq & T1 & T2). rewrite Eq in Hu.
      destruct Hu as (_ & F1 & F2 & _). rewrite F1, T2, Nat.eqb_refl. left. exact F2.
    - destruct (uFeat u =? i); [right|]; auto. }
  assert (Pos : Forall (fun x => 0 < x) (depths_of i us)).
  { apply Forall_forall. intros e He. destruct (U1 e He) as (q & Hs & Lq). destruct q; cbn in *; [contradiction|lia]. }
  destruct (shallower_min _ Pos) as [[E0 E1]|[E0 E1]].
  - left. split; auto. intros q Hs. apply U2 in Hs. rewrite E0 in Hs. destruct Hs.
  - right. split; [apply U1; auto|]. intros q Hs. rewrite Forall_forall in E1. apply E1, U2, Hs.
Qed.
End Depth.

(** ** C41: growing into an old tree *)

(** What counts of a tree: below a node without split nothing, and the feature of
    such a node is not used. *)
Fixpoint prune (n : node) : node :=
  match n with
  | Nil => Nil
  | Node d l r m =>
      if terminal d then Node (mkNd (dCode d) 0 (dPred d) (dSpl d)) Nil Nil Nil
      else Node d (prune l) (prune r) (prune m)
  end.
Fixpoint no_missing (n : node) : Prop :=
  match n with Nil => True | Node d l r m => m = Nil /\ no_missing l /\ no_missing r end.
Definition pruned {G} (r : res (node * G)) : res (node * G) :=
  match r with Ok (n, g) => Ok (prune n, g) | Panic => Panic | Spin => Spin end.

(** Growing into an old tree without missing branches makes the same searches and
    gives the same splits and predictions as growing from scratch; only the stale
    nodes below the new leaves remain. *)
Theorem C41_same_up_to_stale_nodes_partial :
  forall (A : arith) (St : Type) (T : target A St) predict rnd (K : Type) kCopyFrom kShuffleCases kTarget p old cases g fuel,
  old <> Nil -> (pSplitMissing p = false -> no_missing old) ->
  pruned (Grow A St T predict rnd K kCopyFrom kShuffleCases kTarget fuel p old cases g) =
  pruned (Grow A St T predict rnd K kCopyFrom kShuffleCases kTarget fuel p newNode cases g).
Proof.
  intros A St T predict rnd K kC kS kT p old cases g fuel. unfold Grow. generalize 0 at 1 3 as depth. generalize 0 as nb.
  intros nb depth. revert old cases depth nb g.
  induction fuel as [|fuel IH]; intros old cases depth nb g Hn Hm; [reflexivity|].
  destruct old as [|d l r m]; [congruence|]. cbn [grow_node newNode]. unfold grow_visit.
  destruct (((depth <? pMaxDepth p) || (pMaxDepth p <=? 0)) && (2 * pLeaf p <=? length cases)).
  2:{ destruct (predict cases) as [s| |]; reflexivity. }
  destruct (BestSplitter A St T rnd K kC kS kT p cases (gCans g) (gOob g) nb (gAl g) (gK g)) as [b| |]; try reflexivity.
  cbn [bind]. destruct (isCNil (bCode b)) eqn:Nb.
  { destruct (predict (bCases b)) as [s| |]; reflexivity. }
  destruct (book A (bFi b) depth (bDec b) _ _) as [[imp du]| |]; try reflexivity. cbn [bind].
  destruct (get (pData p) (bFi b)) as [f| |] eqn:Ef; try reflexivity. cbn [bind].
  destruct (fDecodeSplit f (bCode b)) as [spl| |]; try reflexivity. cbn [bind isNil orb gvSplit gvFi gvCases gvL gvR gvM gvD gvConsts].
  rewrite Nb, Ef. cbn [bind].
  destruct (fSplitPoints f (bCode b) (bCases b)) as [[[cs li] ri]| |]; try reflexivity. cbn [bind].
  destruct (slice cs 0 li) as [lc| |]; try reflexivity. cbn [bind].
  set (g2 := mkG A St K _ _ _ _ _ _). clearbody g2.
  set (l1 := if isNil l || isNil r then newNode else l). set (r1 := if isNil l || isNil r then newNode else r).
  assert (Nl : l1 <> Nil) by (unfold l1, newNode; destruct l, r; discriminate).
  assert (Nr : r1 <> Nil) by (unfold r1, newNode; destruct l, r; discriminate).
  assert (Ml : pSplitMissing p = false -> no_missing l1).
  { intros Sm. destruct (Hm Sm) as (_ & M1 & M2). unfold l1. destruct (isNil l || isNil r); cbn; auto. }
  assert (Mr : pSplitMissing p = false -> no_missing r1).
  { intros Sm. destruct (Hm Sm) as (_ & M1 & M2). unfold r1. destruct (isNil l || isNil r); cbn; auto. }
  assert (Em : (if pSplitMissing p then newNode else m) = (if pSplitMissing p then newNode else Nil)).
  { destruct (pSplitMissing p) eqn:Sm; auto. apply (Hm eq_refl). }
  rewrite Em. clearbody l1 r1.
  pose proof (IH l1 lc (S depth) (bConsts b) g2 Nl Ml) as Hl.
  destruct (grow_node A St T predict rnd K kC kS kT fuel p l1 lc (S depth) (bConsts b) g2) as [[l' g3]| |],
    (grow_node A St T predict rnd K kC kS kT fuel p newNode lc (S depth) (bConsts b) g2) as [[l'' g3']| |];
    cbn [pruned bind] in *; try discriminate; try reflexivity.
  injection Hl as Hl ->.
  destruct (slice cs ri (length cs)) as [rc| |]; try reflexivity. cbn [bind].
  pose proof (IH r1 rc (S depth) (bConsts b) g3' Nr Mr) as Hr.
  destruct (grow_node A St T predict rnd K kC kS kT fuel p r1 rc (S depth) (bConsts b) g3') as [[r' g4]| |],
    (grow_node A St T predict rnd K kC kS kT fuel p newNode rc (S depth) (bConsts b) g3') as [[r'' g4']| |];
    cbn [pruned bind] in *; try discriminate; try reflexivity.
  injection Hr as Hr ->.
  match goal with |- pruned (bind ?X _) = pruned (bind ?Y _) =>
    change X with Y; destruct Y as [[m' g5]| |]; cbn [bind pruned]; auto end.
  cbn [prune]. unfold terminal. cbn [dCode dSpl]. rewrite Nb. cbn [andb]. rewrite Hl, Hr. reflexivity.
Qed.
