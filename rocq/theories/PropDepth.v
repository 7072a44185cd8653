(** C152: a depth limit that no tree can reach. *)
From Verif Require Import Go GoLemmas F64 ModelFeature ModelSplit SplitSpec SplitProofs ModelTree TreeSpec
  ModelBallot ModelSearch SearchSpec GrowSpec TotalSearch ModelTargets ModelGrow SplitterProofs GrownSpec SortProofs GrowProofs PropGrow PropGrow2.
From Verif Require PropFeatureSearch PropSearch PropSplitter Lockstep TargetProofs.
Local Open Scope string_scope.
Local Open Scope nat_scope.
Local Open Scope list_scope.

(** ** C152.  The claim in full: with n cases a -maxDepth of n / leafSize - 1 or more is no
    limit: the tree, the importances, the depths used and all else are those of unlimited growth. *)
Definition limited (D : nat) (p : params) : params :=
  mkP (pData p) (pTry p) (pLeaf p) (pForce p) (pVet p) (pEvalOob p) (pExtra p) D (pSplitMissing p).

Lemma slice_len {B} (l : list B) lo hi w : slice l lo hi = Ok w -> lo <= hi <= length l /\ length w = hi - lo.
Proof. intros E. apply Lockstep.slice_inv in E as [H ->]. split; [exact H|]. rewrite firstn_length, skipn_length. lia. Qed.

Section Depth.
  Variable A : arith.
  Variable St : Type.
  Variable T : target A St.
  Variable predict : list nat -> res string.
  Variable rnd : nat -> nat.
  Variable K : Type.
  Variable kCopyFrom : K -> K.
  Variable kShuffleCases : (nat -> nat) -> list nat -> K -> res K.
  Variable kTarget : K -> target A St.
  Variable p : params.
  Variables (ok : nat -> Prop) (ready : St -> Prop) (kok : K -> Prop).
  Hypothesis Dep : dependable T ok ready.
  Hypothesis Hsane : sane A.
  Hypothesis Hleaf : 1 <= pLeaf p.
  Hypothesis Hvet : pVet p = true -> vettable A St K kCopyFrom kShuffleCases kTarget ok ready kok.
  Hypothesis Hpred : forall cs, Forall ok cs -> exists s, predict cs = Ok s.
  Variables (cans0 oob0 : list nat).
  Hypothesis Htry : pTry p <= length cans0.
  Hypothesis Hoob : pEvalOob p = true -> Forall ok oob0.
  Local Notation gst := (gstate A St K).
  Local Notation visit_new q := (grow_visit A St T predict rnd K kCopyFrom kShuffleCases kTarget q (mkNd CNil 0 EmptyString None) Nil Nil Nil).
  Local Notation grow_node := (grow_node A St T predict rnd K kCopyFrom kShuffleCases kTarget).
  Local Notation fine := (fine A St K p ready kok cans0 oob0).
  Local Notation data_fits := (data_fits p cans0 oob0).
  Local Notation invoked := (invoked A St T predict rnd K kCopyFrom kShuffleCases kTarget p).

  Lemma visit_sizes N cases depth nb (g : gst) v g1 f cs li ri :
    length cases <= N -> Forall ok cases -> data_fits cases -> fine N g -> nb <= length cans0 ->
    (plain_search p -> constants_hopeless p (gCans g) nb cases) ->
    visit_new p cases depth nb g = Ok (v, g1) -> isCNil (gvSplit v) = false ->
    get (pData p) (gvFi v) = Ok f -> fSplitPoints f (gvSplit v) (gvCases v) = Ok (cs, li, ri) ->
    pLeaf p <= li /\ li <= ri /\ ri + pLeaf p <= length cs /\ length cs = length cases.
  Proof.
    intros HN Hok Hd Hg Hnb Hh. unfold ModelGrow.grow_visit. cbn [dFeat].
    destruct (((depth <? pMaxDepth p) || (pMaxDepth p <=? 0)) && (2 * pLeaf p <=? length cases)) eqn:Can.
    2:{ destruct (Hpred cases Hok) as (s & Es). rewrite Es. cbn [bind]. intros E. injection E as <- <-. discriminate. }
    destruct (search_fits A St T rnd K kCopyFrom kShuffleCases kTarget p ok ready kok Dep Hsane Hleaf Hvet cans0 oob0 Htry Hoob N cases nb g HN Hok Hd Hg Hnb Hh)
      as (b & Eb & Hg1 & Hst & Pc & Hn1 & Hn2 & Hrep & Hhop & Hcode).
    rewrite Eb. cbn [bind]. fold (moved A St K g b).
    destruct (isCNil (bCode b)) eqn:Nil.
    { assert (Ok2 : Forall ok (bCases b)) by (eapply Permutation_Forall; eauto).
      destruct (Hpred (bCases b) Ok2) as (s & Es). rewrite Es. cbn [bind]. intros E. injection E as <- <-. discriminate. }
    assert (Nc : bCode b <> CNil) by (intros E; apply isCNil_spec in E; congruence).
    destruct (Hcode Nc) as (Hdec & Hin & f0 & Ef & Sf & Cf & Ad1 & Ad2).
    intros E. apply bind_ok in E as ([imp du] & Ebk & E). rewrite (get_nth _ _ Ef) in E. cbn [bind] in E. apply bind_ok in E as (spl & Es & E). injection E as <- <-.
    cbn [gvSplit gvFi gvCases]. intros _ Ef' Esp'. rewrite (get_nth _ _ Ef) in Ef'. injection Ef' as <-.
    assert (Sf2 : searchable f0 (bCases b)) by (eapply searchable_perm; eauto).
    destruct Sf2 as (Sf2 & Sc2 & _).
    destruct (fSplit_ok f0 (bCode b) (bCases b) Cf Sf2 Sc2) as (cs2 & ll & lr & r & Esp & _ & [T1 T2 T3 T4 T5] & Ecs & El & Er).
    subst cs2 ll lr. rewrite T1 in Esp. rewrite Esp in Esp'. injection Esp' as <- <- <-.
    assert (PL : Permutation (srL r) (to_left f0 (bCode b) cases)).
    { rewrite T3. apply perm_filter. symmetry; auto. }
    assert (PM : Permutation (srM r) (to_missing f0 cases)).
    { rewrite T4. apply perm_filter. symmetry; auto. }
    assert (PR : Permutation (srR r) (to_right f0 (bCode b) cases)).
    { rewrite T5. apply perm_filter. symmetry; auto. }
    assert (NL : pLeaf p <= length (to_left f0 (bCode b) cases)).
    { unfold side, present in Ad1. rewrite filter_filter in Ad1. exact Ad1. }
    assert (NR : pLeaf p <= length (to_right f0 (bCode b) cases)).
    { unfold other, present in Ad2. rewrite filter_filter in Ad2. exact Ad2. }
    pose proof (three_lengths p Hleaf cans0 Htry f0 (bCode b) cases) as TL.
    pose proof (Permutation_length PL) as LL. pose proof (Permutation_length PR) as LR. pose proof (Permutation_length PM) as LM.
    rewrite !app_length. lia.
  Qed.

  (** Every level costs leafSize cases. *)
  Lemma invoked_small N cases0 g0 cases depth nb g :
    length cases0 <= N -> Forall ok cases0 -> data_fits cases0 -> fine N g0 -> invoked cases0 g0 cases depth nb g ->
    pLeaf p * depth + length cases <= length cases0.
  Proof.
    intros HN Hok Hd Hg H.
    assert (Fits : forall cases depth nb g, invoked cases0 g0 cases depth nb g -> length cases <= N /\ Forall ok cases /\ data_fits cases /\ fine N g /\ nb <= length cans0 /\
      (plain_search p -> constants_hopeless p (gCans g) nb cases)).
    { intros cs dp n1 g1 Hi. destruct (invoked_fits A St T predict rnd K kCopyFrom kShuffleCases kTarget p ok ready kok Dep Hsane Hleaf Hvet Hpred cans0 oob0 Htry Hoob N cases0 g0 cs dp n1 g1 HN Hok Hd Hg Hi)
        as (P & F & B & C). split; [destruct P as (rest & P); apply Permutation_length in P; rewrite app_length in P; lia|].
      split; [rewrite Forall_forall in *; intros c Hc; apply Hok; eapply part_incl; eauto|]. split; [eapply data_fits_sub; [eapply part_incl; eauto|exact Hd]|auto]. }
    induction H as [|cases depth nb g v g1 f cs li ri lc Hi IH Ev Ec Ef Es El|cases depth nb g v g1 f cs li ri lc rc fuel l' g2 Hi IH Ev Ec Ef Es El Eg Er
      |cases depth nb g v g1 f cs li ri lc rc mc fuel l' g2 r' g3 Hi IH Ev Ec Ef Es El Eg Er Eg2 Em Ek]; [lia|..];
      destruct (Fits _ _ _ _ Hi) as (F1 & F2 & F3 & F4 & F5 & F6);
      destruct (visit_sizes N _ _ _ _ _ _ _ _ _ _ F1 F2 F3 F4 F5 F6 Ev Ec Ef Es) as (S1 & S2 & S3 & S4).
    - apply slice_len in El. nia.
    - apply slice_len in Er. nia.
    - apply slice_len in Ek. nia.
  Qed.

  (** Node by node the same. *)
  Variable D : nat.
  Hypothesis Hmax : pMaxDepth p = 0.
  Lemma visit_limited cases depth nb (g : gst) : (2 * pLeaf p <= length cases -> depth < D) ->
    visit_new (limited D p) cases depth nb g = visit_new p cases depth nb g.
  Proof.
    intros H. unfold ModelGrow.grow_visit. cbn [limited pMaxDepth pLeaf pData pSplitMissing]. rewrite Hmax.
    replace (((depth <? D) || (D <=? 0)) && (2 * pLeaf p <=? length cases)) with (((depth <? 0) || (0 <=? 0)) && (2 * pLeaf p <=? length cases)); [reflexivity|].
    destruct (Nat.leb_spec (2 * pLeaf p) (length cases)) as [Hl|Hl]; [|rewrite !andb_false_r; reflexivity]. rewrite (proj2 (Nat.ltb_lt _ _) (H Hl)). reflexivity.
  Qed.
  Lemma grow_limited N cases0 g0 : length cases0 <= N -> Forall ok cases0 -> data_fits cases0 -> fine N g0 -> length cases0 < pLeaf p * (D + 2) ->
    forall fuel cases depth nb g, invoked cases0 g0 cases depth nb g ->
    grow_node fuel (limited D p) newNode cases depth nb g = grow_node fuel p newNode cases depth nb g.
  Proof.
    intros HN Hok Hd Hg Hn. induction fuel as [|fuel IH]; intros cases depth nb g Hi; [reflexivity|].
    cbn [ModelGrow.grow_node newNode]. rewrite visit_limited.
    2:{ intros H2. pose proof (invoked_small N cases0 g0 cases depth nb g HN Hok Hd Hg Hi). nia. }
    destruct (visit_new p cases depth nb g) as [[v g1]| |] eqn:Ev; [|reflexivity..]. cbn [bind].
    destruct (isCNil (gvSplit v)) eqn:Ec; [reflexivity|]. cbn [limited pData].
    destruct (invoked_fits A St T predict rnd K kCopyFrom kShuffleCases kTarget p ok ready kok Dep Hsane Hleaf Hvet Hpred cans0 oob0 Htry Hoob N cases0 g0 cases depth nb g HN Hok Hd Hg Hi)
      as (P & F & B & C).
    assert (F1 : length cases <= N) by (destruct P as (rest & P); apply Permutation_length in P; rewrite app_length in P; lia).
    assert (F2 : Forall ok cases) by (rewrite Forall_forall in *; intros c Hc; apply Hok; eapply part_incl; eauto).
    assert (F3 : data_fits cases) by (eapply data_fits_sub; [eapply part_incl; eauto|exact Hd]).
    destruct (visit_split A St T predict rnd K kCopyFrom kShuffleCases kTarget p ok ready kok Dep Hsane Hleaf Hvet Hpred cans0 oob0 Htry Hoob N cases depth nb g v g1 F1 F2 F3 F B C Ev Ec)
      as (f & lc & mc & rc & Ef & Es & _ & EL & ER & EM & _).
    rewrite EL, ER, EM, Ef. cbn [bind]. rewrite Es. cbn [bind].
    destruct (slice (lc ++ mc ++ rc) 0 (length lc)) as [lw| |] eqn:El; cbn [bind]; [|reflexivity..].
    rewrite (IH lw (S depth) (gvConsts v) g1) by (eapply inv_left; eauto).
    destruct (grow_node fuel p newNode lw (S depth) (gvConsts v) g1) as [[l' g2]| |] eqn:Eg; cbn [bind]; [|reflexivity..].
    rewrite <- EL in Eg.
    destruct (slice (lc ++ mc ++ rc) (length lc + length mc) (length (lc ++ mc ++ rc))) as [rw| |] eqn:Er; cbn [bind]; [|reflexivity..].
    rewrite (IH rw (S depth) (gvConsts v) g2) by (eapply inv_right; eauto).
    destruct (grow_node fuel p newNode rw (S depth) (gvConsts v) g2) as [[r' g3]| |] eqn:Eg2; cbn [bind]; [|reflexivity..].
    rewrite <- ER in Eg2.
    destruct (pSplitMissing p) eqn:Sm; [|cbn [isNil negb]; rewrite andb_false_r; reflexivity].
    destruct (negb (length lc =? length lc + length mc) && negb (isNil newNode)) eqn:Em; [|reflexivity].
    destruct (slice (lc ++ mc ++ rc) (length lc) (length lc + length mc)) as [mw| |] eqn:Ek; cbn [bind]; [|reflexivity..].
    rewrite (IH mw (S depth) (gvConsts v) g3); [reflexivity|]. rewrite <- EM in Em. eapply inv_missing; eauto.
  Qed.
End Depth.

(** Every tree that is grown as BestSplitter evaluates its splits (C40), all results and the state it leaves. *)
Theorem C152_no_limit : forall A St (T : target A St) predict rnd K kCopyFrom kShuffleCases kTarget p ok ready kok cases g D,
  growable A St T predict K kCopyFrom kShuffleCases kTarget p ok ready kok cases g -> length cases < pLeaf p * (D + 2) ->
  forall fuel, Grow A St T predict rnd K kCopyFrom kShuffleCases kTarget fuel (limited D p) newNode cases g =
    Grow A St T predict rnd K kCopyFrom kShuffleCases kTarget fuel (limited 0 p) newNode cases g.
Proof.
  intros A St T predict rnd K kCopyFrom kShuffleCases kTarget p ok ready kok cases g D Hg Hn fuel.
  destruct Hg as [H1 H2 H3 H4 H5 H6 H7 H8 H9 H10 H11 H12 H13]. unfold Grow.
  change (limited D p) with (limited D (limited 0 p)).
  apply (grow_limited A St T predict rnd K kCopyFrom kShuffleCases kTarget (limited 0 p) ok ready kok H1 H2 H5 (fun V => proj1 (H12 V)) H3 (gCans g) (gOob g) H6
    (fun O => proj1 (H13 O)) D eq_refl (length cases) cases g (Nat.le_refl _) H4 H7); [|exact Hn|constructor].
  constructor; auto; intros; try (apply H12; auto); try (apply H13; auto).
Qed.
Print Assumptions C152_no_limit.

(** Values 1, 2, 3 with classes x, y, x and leafSize 1: nine cases, so a limit of eight is none; a limit of one is. *)
Definition depth_tree (deep : nat) : option node := tree_of (gini_grow band_class 10 (band_p deep false) newNode (seq 0 9) (start 9 1)).
Example C152_ex : limited 8 (band_p 0 false) = band_p 8 false /\ length (seq 0 9) < pLeaf (band_p 0 false) * (8 + 2) /\
  depth_tree 8 = depth_tree 0 /\ option_map (fun n => length (nodes_of n)) (depth_tree 0) = Some 5 /\
  option_map (fun n => length (nodes_of n)) (depth_tree 1) = Some 3.
Proof. split; [reflexivity|]. split; [cbn; lia|]. vm_compute. auto. Qed.
Example C152_ex_growable : growable F64 cst (gini_target F64 band_class) (cFindPredicted (label band_class)) unit (fun k => k) (fun _ _ k => Ok k)
  (fun _ => gini_target F64 band_class) (band_p 0 false) (TargetProofs.in_data band_class 2) (TargetProofs.cst_ready 2) (fun _ => True) (seq 0 9) (start 9 1).
Proof. apply ex_band_growable. Qed.
