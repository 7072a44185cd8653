(** C129: a tree depends on the values of the cases it is grown from, and on nothing else. *)
From Verif Require Import Go GoLemmas F64 ModelFeature ModelSample ModelImpurity ModelSplit ModelSort ModelSearch ModelTargets ModelTree ModelGrow PropByName
  SplitterProofs GrowProofs RowsProofs.
From Verif Require PropSearch PropCatSearch.
Local Open Scope string_scope.
Local Open Scope nat_scope.
Local Open Scope list_scope.

(** ** C129.  The claim in full: the tree grown from a list of cases depends only on the values
    the features and the target have for these cases, in their order: not on the numbers of the
    cases, and not on the values of other cases.  (With -evaloob the out of bag cases count too.) *)

(** What two columns have in common apart from their values. *)
Definition same_header (f f' : feature) : Prop :=
  match f, f' with
  | FNum f, FNum f' => nName f = nName f' /\ nHas f = nHas f'
  | FCat f, FCat f' => cMap f = cMap f' /\ cName f = cName f' /\ cRandom f = cRandom f' /\ cHas f = cHas f'
  | _, _ => False
  end.
(** Both columns have a value for the case, and it is the same. *)
Definition same_at {B} (d d' : list B) (c c' : nat) : Prop := exists x, nth_error d c = Some x /\ nth_error d' c' = Some x.
Definition same_cell (f f' : feature) (c c' : nat) : Prop :=
  match f, f' with
  | FNum f, FNum f' => same_at (nData f) (nData f') c c' /\ same_at (nMissing f) (nMissing f') c c'
  | FCat f, FCat f' => same_at (cData f) (cData f') c c' /\ same_at (cMissing f) (cMissing f') c c'
  | _, _ => False
  end.
Definition same_values (f f' : feature) (cs cs' : list nat) : Prop := same_header f f' /\ Forall2 (same_cell f f') cs cs'.
(** The cases that count. *)
Definition seen (p : params) (cases oob : list nat) : list nat := if pEvalOob p then cases ++ oob else cases.
Definition whole (f : feature) : Prop :=
  match f with FNum f => length (nData f) = length (nMissing f) | FCat f => length (cData f) = length (cMissing f) end.
(** The data of one run and of the other agree on the cases that count. *)
Record same_sample (p p' : params) (tf tf' : feature) (cases cases' oob oob' : list nat) : Prop := mkSS {
  ss_params : same_params p p';
  ss_length : length cases = length cases';
  ss_data : Forall2 (fun f f' => same_values f f' (seen p cases oob) (seen p cases' oob')) (pData p) (pData p');
  ss_target : same_values tf tf' (seen p cases oob) (seen p cases' oob');
  (** Vetting shuffles the target in place: there no case may be listed twice. *)
  ss_vet : pVet p = true -> NoDup (seen p cases oob) /\ NoDup (seen p cases' oob') /\ whole tf /\ whole tf'
}.

(** ** The table that holds the cases that count *)
Definition pickn {B} (d : B) (l : list B) (cs : list nat) : list B := map (fun c => nth c l d) cs.
Definition pick (cs : list nat) (f : feature) : feature :=
  match f with
  | FNum f => FNum (mkNum (pickn f0 (nData f) cs) (pickn false (nMissing f) cs) (nName f) (nHas f))
  | FCat f => FCat (mkCat (cMap f) (pickn 0 (cData f) cs) (pickn false (cMissing f) cs) (cName f) (cRandom f) (cHas f))
  end.
Definition flen (f : feature) : nat :=
  match f with FNum f => Nat.max (length (nData f)) (length (nMissing f)) | FCat f => Nat.max (length (cData f)) (length (cMissing f)) end.

Lemma nth_in_range {B} (l : list B) i d x : nth_error l i = Some x -> nth i l d = x.
Proof. revert i. induction l; destruct i; cbn; intros H; try discriminate; [congruence|auto]. Qed.

Lemma pickn_same {B} (d : B) l l' cs cs' : Forall2 (same_at l l') cs cs' -> pickn d l cs = pickn d l' cs'.
Proof.
  unfold pickn. induction 1 as [|c c' cs cs' (x & E & E') H IH]; cbn [map]; [reflexivity|]. rewrite (nth_in_range _ _ d _ E), (nth_in_range _ _ d _ E'), IH. reflexivity.
Qed.
Lemma F2_and {B C} (P Q : B -> C -> Prop) l l' : Forall2 (fun a b => P a b /\ Q a b) l l' -> Forall2 P l l' /\ Forall2 Q l l'.
Proof. induction 1 as [|a b l l' [H1 H2] H [IH1 IH2]]; split; constructor; auto. Qed.
Lemma F2_length {B C} (P : B -> C -> Prop) l l' : Forall2 P l l' -> length l = length l'.
Proof. induction 1; cbn; auto. Qed.
Lemma pick_same f f' cs cs' : same_values f f' cs cs' -> pick cs f = pick cs' f'.
Proof.
  intros [Hh Hc]. destruct f as [f|f], f' as [f'|f']; cbn [same_header] in Hh; try contradiction; cbn [same_cell] in Hc; apply F2_and in Hc as [H1 H2]; cbn [pick].
  - destruct Hh as (-> & ->). rewrite (pickn_same _ _ _ _ _ H1), (pickn_same _ _ _ _ _ H2). reflexivity.
  - destruct Hh as (-> & -> & -> & ->). rewrite (pickn_same _ _ _ _ _ H1), (pickn_same _ _ _ _ _ H2). reflexivity.
Qed.

Section Pick.
  Variables (cs : list nat) (big : nat).
  Definition to_case (i : nat) : nat := nth i cs big.

  Lemma reads_pick {B} (d : B) l : Forall (fun c => c < length l) cs -> length l <= big -> reads to_case l (pickn d l cs).
  Proof.
    intros Hc Hb i. unfold to_case, pickn, get. rewrite nth_error_map. destruct (nth_error cs i) as [c|] eqn:E; cbn [option_map].
    - rewrite (nth_in_range _ _ big _ E). rewrite (nth_error_nth' l d); [reflexivity|]. rewrite Forall_forall in Hc. apply Hc. eapply nth_error_In; eauto.
    - apply nth_error_None in E. rewrite nth_overflow by exact E. rewrite (proj2 (nth_error_None l big) Hb). reflexivity.
  Qed.

  Definition in_range (f : feature) : Prop :=
    match f with
    | FNum f => Forall (fun c => c < length (nData f)) cs /\ Forall (fun c => c < length (nMissing f)) cs
    | FCat f => Forall (fun c => c < length (cData f)) cs /\ Forall (fun c => c < length (cMissing f)) cs
    end.
  Lemma rows_pick f : in_range f -> flen f <= big -> rows to_case f (pick cs f).
  Proof.
    destruct f as [f|f]; cbn [in_range flen pick rows]; intros [H1 H2] Hb; repeat split; cbn;
      try (apply reads_pick; [assumption|lia]); auto.
  Qed.
  Lemma to_case_inj : NoDup cs -> forall a b, a < length cs -> b < length cs -> to_case a = to_case b -> a = b.
  Proof. intros H a b Ha Hb. unfold to_case. intros E. rewrite NoDup_nth with (d := big) in H. apply H; auto. Qed.
  Lemma map_to_case : map to_case (seq 0 (length cs)) = cs.
  Proof.
    unfold to_case. generalize big. induction cs as [|c l IH]; intros b; cbn [length seq map nth]; [reflexivity|]. f_equal.
    rewrite <- seq_shift, map_map. cbn. apply IH.
  Qed.
End Pick.
Lemma same_values_range f f' cs cs' : same_values f f' cs cs' -> in_range cs f /\ in_range cs' f'.
Proof.
  intros [_ H]. assert (G : forall B (d d' : list B), Forall2 (same_at d d') cs cs' -> Forall (fun c => c < length d) cs /\ Forall (fun c => c < length d') cs').
  { clear H. intros B d d'. induction 1 as [|c c' l l' (x & E & E') Hl [IH1 IH2]]; split; constructor; auto; apply nth_error_Some; congruence. }
  destruct f as [f|f], f' as [f'|f']; cbn [same_cell] in H.
  - apply F2_and in H as [H1 H2]. apply G in H1. apply G in H2. cbn. tauto.
  - destruct cs; cbn; [|inversion H; contradiction]. inversion H. cbn. auto.
  - destruct cs; cbn; [|inversion H; contradiction]. inversion H. cbn. auto.
  - apply F2_and in H as [H1 H2]. apply G in H1. apply G in H2. cbn. tauto.
Qed.

Definition picked (cs : list nat) (p : params) : params :=
  mkP (map (pick cs) (pData p)) (pTry p) (pLeaf p) (pForce p) (pVet p) (pEvalOob p) (pExtra p) (pMaxDepth p) (pSplitMissing p).
Lemma picked_same p p' cs cs' : same_params p p' -> Forall2 (fun f f' => same_values f f' cs cs') (pData p) (pData p') -> picked cs p = picked cs' p'.
Proof.
  intros (E1 & E2 & E3 & E4 & E5 & E6 & E7 & E8) H. unfold picked. rewrite E1, E2, E3, E4, E5, E6, E7, E8. f_equal. clear - H. induction H as [|f f' l l' H Hl IH]; cbn; [reflexivity|].
  rewrite (pick_same _ _ _ _ H), IH. reflexivity.
Qed.
Definition bigness (tf : feature) (p : params) : nat := list_max (map flen (tf :: pData p)).
Lemma bigness_le tf p f : In f (tf :: pData p) -> flen f <= bigness tf p.
Proof.
  intros H. pose proof (proj1 (list_max_le (map flen (tf :: pData p)) (bigness tf p)) (le_n _)) as Hm.
  rewrite Forall_forall in Hm. apply Hm. apply in_map. exact H.
Qed.

(** ** What a run returns: the tree, the candidates, the scratch space with the number of draws,
    the importance and the depths. *)
Definition outcome {A St K} (m : res (node * gstate A St K)) : res (node * list nat * allocs St * option (list (rmean A)) * option (list nat)) :=
  rmap (fun '((n, g) : node * gstate A St K) => (n, gCans g, gAl g, gImp g, gDepth g)) m.
Lemma alike_outcome {A St K} g p RK (m m' : res (node * gstate A St K)) :
  alike (fun x x' => fst x = fst x' /\ grel g A St K p RK (snd x) (snd x')) m m' -> outcome m = outcome m'.
Proof.
  destruct m as [[n s]| |], m' as [[n' s']| |]; cbn; try contradiction; auto. intros (-> & H1 & _ & H3 & _ & H5 & H6).
  rewrite H1, H3, H5, H6. reflexivity.
Qed.

Lemma copyinto_full {B} (dst src : list B) : length dst = length src -> copyinto dst src = src.
Proof. intros H. unfold copyinto. rewrite H, firstn_all, <- H, skipn_all, app_nil_r. reflexivity. Qed.

(** ** Categorical targets *)
Section Categorical.
  Variable A : arith.
  Variable St : Type.
  Variable F : list nat -> target A St.
  Hypothesis HF : natural F.
  Variable P : catF -> list nat -> res string.
  Hypothesis HP : forall g f f' l, cat_rows g f f' -> P f (map g l) = P f' l.
  Variable rnd : nat -> nat.

  (** growforest.go:541 NewBestSplitAllocs and tree.go:96 Grow for a categorical target [tf]. *)
  Definition grow_cat (tf : catF) (fuel : nat) (p : params) (root : node) (cases cans oob : list nat) (al : allocs St)
      (imp : option (list (rmean A))) (du : option (list nat)) : res (node * gstate A St catF) :=
    Grow A St (F (cData tf)) (P tf) rnd catF (cCopyInTo tf) cShuffleCases (fun k => F (cData k)) fuel p root cases
      (mkG A St catF cans oob al (cCopy tf) imp du).

  (** The contrast target of a run and of the run on the picked rows. *)
  Definition contrast_cat (p : params) (cs : list nat) (big : nat) (tf : catF) (k k' : catF) : Prop :=
    pVet p = true -> reads (to_case cs big) (cData k) (cData k') /\ reads (to_case cs big) (cMissing k) (cMissing k') /\
    length (cData k) = length (cData tf) /\ length (cMissing k) = length (cMissing tf) /\
    length (cData k') = length cs /\ length (cMissing k') = length cs.

  Lemma picked_cat tf p cases oob fuel root cans al imp du :
    let cs := seen p cases oob in
    Forall (in_range cs) (pData p) -> in_range cs (FCat tf) -> (pVet p = true -> NoDup cs /\ whole (FCat tf)) ->
    outcome (grow_cat tf fuel p root cases cans oob al imp du) =
    outcome (grow_cat (match pick cs (FCat tf) with FCat f => f | _ => tf end) fuel (picked cs p) root
       (seq 0 (length cases)) cans (if pEvalOob p then seq (length cases) (length oob) else []) al imp du).
  Proof.
    intros cs Hd Ht Hv. cbn [pick]. set (tf' := mkCat _ _ _ _ _ _). set (big := bigness (FCat tf) p). set (g := to_case cs big).
    assert (Hr : cat_rows g tf tf').
    { apply (rows_pick cs big (FCat tf) Ht). apply bigness_le. left. reflexivity. }
    assert (Ecs : map g (seq 0 (length cases)) = cases).
    { unfold g, to_case, cs, seen. destruct (pEvalOob p).
      - transitivity (map (fun i => nth i cases big) (seq 0 (length cases))); [|apply map_to_case].
        apply map_ext_in. intros i Hi. apply in_seq in Hi. rewrite app_nth1 by lia. reflexivity.
      - apply map_to_case. }
    rewrite <- Ecs at 1. unfold grow_cat, Grow.
    apply (alike_outcome g p (contrast_cat p cs big tf)). apply grow_node_sim.
    - apply HF. apply Hr.
    - intros l. apply HP. exact Hr.
    - unfold same_params, picked. cbn. tauto.
    - unfold picked. cbn [pData]. assert (Hb : forall f, In f (pData p) -> flen f <= big) by (intros f Hf; apply bigness_le; right; exact Hf).
      clearbody big. subst g. revert Hd Hb. generalize (pData p) as fs. induction fs as [|f fs IH]; intros Hd Hb; cbn [map]; constructor.
      + inversion Hd; subst. apply rows_pick; [assumption|]. apply Hb. left. reflexivity.
      + inversion Hd; subst. apply IH; [assumption|]. intros f1 Hf1. apply Hb. right. exact Hf1.
    - intros k k' Ev Hk Ev'. destruct (Hk Ev) as (K1 & K2 & K3 & K4 & K5 & K6). destruct (Hv Ev) as [_ Hw]. cbn [whole] in Hw.
      unfold cCopyInTo. cbn [cData cMissing tf']. unfold tf'. cbn [cData cMissing].
      assert (L1 : length (pickn 0 (cData tf) cs) = length cs) by apply map_length.
      assert (L2 : length (pickn false (cMissing tf) cs) = length cs) by apply map_length.
      rewrite !copyinto_full by congruence. repeat split; auto; apply Hr.
    - intros r l k k' Ev Hk. destruct (Hk Ev) as (K1 & K2 & K3 & K4 & K5 & K6). unfold cShuffleCases.
      eapply alike_bind; [apply (shuffle_sim g r l _ _ _ _ (length cs) K2 K1 K6 K5); apply to_case_inj; apply (Hv Ev)|].
      intros [m1 d1] [m2 d2] (X1 & X2 & X3 & X4 & X5 & X6). cbn [fst snd] in *. cbn. intros _. cbn. repeat split; auto; congruence.
    - intros k k' Ev Hk. apply HF. apply (Hk Ev).
    - refine (conj eq_refl (conj _ (conj eq_refl (conj _ (conj eq_refl eq_refl))))); cbn [gOob gK].
      + intros Ee. rewrite Ee. pose proof (map_to_case cs big) as Em. fold g in Em.
        assert (E : cs = cases ++ oob) by (unfold cs, seen; rewrite Ee; reflexivity).
        assert (El : length cs = length cases + length oob) by (rewrite E; apply app_length).
        rewrite El, seq_app, map_app, Ecs in Em. apply (app_inv_head cases). rewrite <- E, <- Em at 1. reflexivity.
      + intros Ev. destruct (Hv Ev) as [_ Hw]. cbn [whole] in Hw. unfold cCopy. cbn [cData cMissing].
        rewrite !copyinto_full; rewrite ?repeat_length; unfold tf'; cbn [cData cMissing]; unfold pickn; rewrite ?map_length; auto.
        destruct Hr as (_ & _ & _ & _ & R1 & R2). repeat split; auto.
  Qed.

Theorem C129_classification : forall tf tf' p p' cases cases' oob oob' fuel root cans al imp du,
    same_sample p p' (FCat tf) (FCat tf') cases cases' oob oob' ->
    outcome (grow_cat tf fuel p root cases cans oob al imp du) = outcome (grow_cat tf' fuel p' root cases' cans oob' al imp du).
  Proof.
    intros tf tf' p p' cases cases' oob oob' fuel root cans al imp du [Hp Hl Hd Ht Hv].
    pose proof Hp as (_ & _ & _ & Ev & Eo & _).
    assert (Hs : seen p' cases' oob' = seen p cases' oob') by (unfold seen; rewrite Eo; reflexivity).
    rewrite (picked_cat tf p), (picked_cat tf' p'); rewrite ?Hs.
    - assert (Et := pick_same _ _ _ _ Ht). cbn [pick] in Et |- *. injection Et as -> -> -> -> -> ->.
      rewrite (picked_same p p' _ _ Hp Hd), Hl, <- Eo. f_equal. f_equal. destruct (pEvalOob p) eqn:Ee; [|reflexivity]. f_equal.
      destruct Ht as [_ Ht]. apply F2_length in Ht. unfold seen in Ht. rewrite Ee, !app_length in Ht. lia.
    - clear - Hd. induction Hd as [|f f' l l' H Hl IH]; constructor; auto. apply same_values_range in H. apply H.
    - apply same_values_range in Ht. apply Ht.
    - intros E. rewrite <- ?Ev in E. apply Hv in E. tauto.
    - clear - Hd. induction Hd as [|f f' l l' H Hl IH]; constructor; auto. apply same_values_range in H. apply H.
    - apply same_values_range in Ht. apply Ht.
    - intros E. rewrite <- ?Ev in E. apply Hv in E. tauto.
  Qed.
End Categorical.

(** ** Numerical targets *)
Section Numerical.
  Variable A : arith.
  Variable St : Type.
  Variable F : list f64 -> target A St.
  Hypothesis HF : natural F.
  Variable P : numF -> list nat -> res string.
  Hypothesis HP : forall g f f' l, num_rows g f f' -> P f (map g l) = P f' l.
  Variable rnd : nat -> nat.

  (** growforest.go:541 NewBestSplitAllocs and tree.go:96 Grow for a numerical target [tf]. *)
  Definition grow_num (tf : numF) (fuel : nat) (p : params) (root : node) (cases cans oob : list nat) (al : allocs St)
      (imp : option (list (rmean A))) (du : option (list nat)) : res (node * gstate A St numF) :=
    Grow A St (F (nData tf)) (P tf) rnd numF (nCopyInTo tf) nShuffleCases (fun k => F (nData k)) fuel p root cases
      (mkG A St numF cans oob al (nCopy tf) imp du).

  (** The contrast target of a run and of the run on the picked rows. *)
  Definition contrast_num (p : params) (cs : list nat) (big : nat) (tf : numF) (k k' : numF) : Prop :=
    pVet p = true -> reads (to_case cs big) (nData k) (nData k') /\ reads (to_case cs big) (nMissing k) (nMissing k') /\
    length (nData k) = length (nData tf) /\ length (nMissing k) = length (nMissing tf) /\
    length (nData k') = length cs /\ length (nMissing k') = length cs.

  Lemma picked_num tf p cases oob fuel root cans al imp du :
    let cs := seen p cases oob in
    Forall (in_range cs) (pData p) -> in_range cs (FNum tf) -> (pVet p = true -> NoDup cs /\ whole (FNum tf)) ->
    outcome (grow_num tf fuel p root cases cans oob al imp du) =
    outcome (grow_num (match pick cs (FNum tf) with FNum f => f | _ => tf end) fuel (picked cs p) root
       (seq 0 (length cases)) cans (if pEvalOob p then seq (length cases) (length oob) else []) al imp du).
  Proof.
    intros cs Hd Ht Hv. cbn [pick]. set (tf' := mkNum _ _ _ _). set (big := bigness (FNum tf) p). set (g := to_case cs big).
    assert (Hr : num_rows g tf tf').
    { apply (rows_pick cs big (FNum tf) Ht). apply bigness_le. left. reflexivity. }
    assert (Ecs : map g (seq 0 (length cases)) = cases).
    { unfold g, to_case, cs, seen. destruct (pEvalOob p).
      - transitivity (map (fun i => nth i cases big) (seq 0 (length cases))); [|apply map_to_case].
        apply map_ext_in. intros i Hi. apply in_seq in Hi. rewrite app_nth1 by lia. reflexivity.
      - apply map_to_case. }
    rewrite <- Ecs at 1. unfold grow_num, Grow.
    apply (alike_outcome g p (contrast_num p cs big tf)). apply grow_node_sim.
    - apply HF. apply Hr.
    - intros l. apply HP. exact Hr.
    - unfold same_params, picked. cbn. tauto.
    - unfold picked. cbn [pData]. assert (Hb : forall f, In f (pData p) -> flen f <= big) by (intros f Hf; apply bigness_le; right; exact Hf).
      clearbody big. subst g. revert Hd Hb. generalize (pData p) as fs. induction fs as [|f fs IH]; intros Hd Hb; cbn [map]; constructor.
      + inversion Hd; subst. apply rows_pick; [assumption|]. apply Hb. left. reflexivity.
      + inversion Hd; subst. apply IH; [assumption|]. intros f1 Hf1. apply Hb. right. exact Hf1.
    - intros k k' Ev Hk Ev'. destruct (Hk Ev) as (K1 & K2 & K3 & K4 & K5 & K6). destruct (Hv Ev) as [_ Hw]. cbn [whole] in Hw.
      unfold nCopyInTo. cbn [nData nMissing tf']. unfold tf'. cbn [nData nMissing].
      assert (L1 : length (pickn f0 (nData tf) cs) = length cs) by apply map_length.
      assert (L2 : length (pickn false (nMissing tf) cs) = length cs) by apply map_length.
      rewrite !copyinto_full by congruence. repeat split; auto; apply Hr.
    - intros r l k k' Ev Hk. destruct (Hk Ev) as (K1 & K2 & K3 & K4 & K5 & K6). unfold nShuffleCases.
      eapply alike_bind; [apply (shuffle_sim g r l _ _ _ _ (length cs) K2 K1 K6 K5); apply to_case_inj; apply (Hv Ev)|].
      intros [m1 d1] [m2 d2] (X1 & X2 & X3 & X4 & X5 & X6). cbn [fst snd] in *. cbn. intros _. cbn. repeat split; auto; congruence.
    - intros k k' Ev Hk. apply HF. apply (Hk Ev).
    - refine (conj eq_refl (conj _ (conj eq_refl (conj _ (conj eq_refl eq_refl))))); cbn [gOob gK].
      + intros Ee. rewrite Ee. pose proof (map_to_case cs big) as Em. fold g in Em.
        assert (E : cs = cases ++ oob) by (unfold cs, seen; rewrite Ee; reflexivity).
        assert (El : length cs = length cases + length oob) by (rewrite E; apply app_length).
        rewrite El, seq_app, map_app, Ecs in Em. apply (app_inv_head cases). rewrite <- E, <- Em at 1. reflexivity.
      + intros Ev. destruct (Hv Ev) as [_ Hw]. cbn [whole] in Hw. unfold nCopy. cbn [nData nMissing].
        rewrite !copyinto_full; rewrite ?repeat_length; unfold tf'; cbn [nData nMissing]; unfold pickn; rewrite ?map_length; auto.
        destruct Hr as (_ & _ & R1 & R2). repeat split; auto.
  Qed.

Theorem C129_regression : forall tf tf' p p' cases cases' oob oob' fuel root cans al imp du,
    same_sample p p' (FNum tf) (FNum tf') cases cases' oob oob' ->
    outcome (grow_num tf fuel p root cases cans oob al imp du) = outcome (grow_num tf' fuel p' root cases' cans oob' al imp du).
  Proof.
    intros tf tf' p p' cases cases' oob oob' fuel root cans al imp du [Hp Hl Hd Ht Hv].
    pose proof Hp as (_ & _ & _ & Ev & Eo & _).
    assert (Hs : seen p' cases' oob' = seen p cases' oob') by (unfold seen; rewrite Eo; reflexivity).
    rewrite (picked_num tf p), (picked_num tf' p'); rewrite ?Hs.
    - assert (Et := pick_same _ _ _ _ Ht). cbn [pick] in Et |- *. injection Et as -> -> -> ->.
      rewrite (picked_same p p' _ _ Hp Hd), Hl, <- Eo. f_equal. f_equal. destruct (pEvalOob p) eqn:Ee; [|reflexivity]. f_equal.
      destruct Ht as [_ Ht]. apply F2_length in Ht. unfold seen in Ht. rewrite Ee, !app_length in Ht. lia.
    - clear - Hd. induction Hd as [|f f' l l' H Hl IH]; constructor; auto. apply same_values_range in H. apply H.
    - apply same_values_range in Ht. apply Ht.
    - intros E. rewrite <- ?Ev in E. apply Hv in E. tauto.
    - clear - Hd. induction Hd as [|f f' l l' H Hl IH]; constructor; auto. apply same_values_range in H. apply H.
    - apply same_values_range in Ht. apply Ht.
    - intros E. rewrite <- ?Ev in E. apply Hv in E. tauto.
  Qed.
End Numerical.
Print Assumptions C129_classification.
Print Assumptions C129_regression.

(** ** The targets of the code *)
Corollary C129_gini : forall A rnd tf tf' p p' cases cases' oob oob' fuel root cans al imp du,
  same_sample p p' (FCat tf) (FCat tf') cases cases' oob oob' ->
  outcome (grow_cat A cst (gini_target A) cFindPredicted rnd tf fuel p root cases cans oob al imp du) =
  outcome (grow_cat A cst (gini_target A) cFindPredicted rnd tf' fuel p' root cases' cans oob' al imp du).
Proof. intros A rnd. apply C129_classification; [apply gini_natural|intros; apply cFindPredicted_sim; assumption]. Qed.
Corollary C129_entropy : forall A nlog rnd tf tf' p p' cases cases' oob oob' fuel root cans al imp du,
  same_sample p p' (FCat tf) (FCat tf') cases cases' oob oob' ->
  outcome (grow_cat A cst (entropy_target A nlog) cFindPredicted rnd tf fuel p root cases cans oob al imp du) =
  outcome (grow_cat A cst (entropy_target A nlog) cFindPredicted rnd tf' fuel p' root cases' cans oob' al imp du).
Proof. intros A nlog rnd. apply C129_classification; [apply entropy_natural|intros; apply cFindPredicted_sim; assumption]. Qed.
(** densenumfeature.go:581-583 FindPredicted: the formatted mean. *)
Definition predict_mean (fmtF : f64 -> string) (f : numF) (cases : list nat) : res string := rmap fmtF (nMean f cases).
Lemma predict_mean_sim fmtF g f f' l : num_rows g f f' -> predict_mean fmtF f (map g l) = predict_mean fmtF f' l.
Proof. intros H. unfold predict_mean. rewrite (nMean_sim g f f' l H). reflexivity. Qed.
Corollary C129_squared_error : forall fmtF rnd tf tf' p p' cases cases' oob oob' fuel root cans al imp du,
  same_sample p p' (FNum tf) (FNum tf') cases cases' oob oob' ->
  outcome (grow_num F64 (sums F64) (num_target F64) (predict_mean fmtF) rnd tf fuel p root cases cans oob al imp du) =
  outcome (grow_num F64 (sums F64) (num_target F64) (predict_mean fmtF) rnd tf' fuel p' root cases' cans oob' al imp du).
Proof. intros fmtF rnd. exact (C129_regression F64 (sums F64) (num_target F64) (num_natural F64) (predict_mean fmtF) (predict_mean_sim fmtF) rnd). Qed.
Corollary C129_gradient : forall fmtF rnd tf tf' p p' cases cases' oob oob' fuel root cans al imp du,
  same_sample p p' (FNum tf) (FNum tf') cases cases' oob oob' ->
  outcome (grow_num F64 (F64 * F64) (grad_target F64) (predict_mean fmtF) rnd tf fuel p root cases cans oob al imp du) =
  outcome (grow_num F64 (F64 * F64) (grad_target F64) (predict_mean fmtF) rnd tf' fuel p' root cases' cans oob' al imp du).
Proof. intros fmtF rnd. exact (C129_regression F64 (F64 * F64) (grad_target F64) (grad_natural F64) (predict_mean fmtF) (predict_mean_sim fmtF) rnd). Qed.
Print Assumptions C129_gini.
Print Assumptions C129_entropy.
Print Assumptions C129_squared_error.
Print Assumptions C129_gradient.

(** Growing from a sample is growing from all the rows of the table of the sample, whether or
    not cases were drawn twice (without vetting). *)
Corollary C129_sample_as_table : forall A rnd tf p cases fuel root cans al imp du,
  pEvalOob p = false -> pVet p = false ->
  Forall (in_range cases) (pData p) -> in_range cases (FCat tf) ->
  outcome (grow_cat A cst (gini_target A) cFindPredicted rnd tf fuel p root cases cans [] al imp du) =
  outcome (grow_cat A cst (gini_target A) cFindPredicted rnd
     (mkCat (cMap tf) (pickn 0 (cData tf) cases) (pickn false (cMissing tf) cases) (cName tf) (cRandom tf) (cHas tf))
     fuel (picked cases p) root (seq 0 (length cases)) cans [] al imp du).
Proof.
  intros A rnd tf p cases fuel root cans al imp du He Hv Hd Ht.
  pose proof (picked_cat A cst (gini_target A) (gini_natural A) cFindPredicted (fun g f f' l H => cFindPredicted_sim g f f' l H) rnd
    tf p cases [] fuel root cans al imp du) as H. cbn zeta in H. unfold seen in H. rewrite He in H. apply H; auto. congruence.
Qed.
Print Assumptions C129_sample_as_table.

(** ** The features a tree splits on are candidates, whatever the target. *)
Definition of_cans (cans : list nat) (d : nd) : Prop := (dCode d = CNil /\ dSpl d = None) \/ (isCNil (dCode d) = false /\ In (dFeat d) cans).
Fixpoint nodes_of (n : node) : list nd :=
  match n with Nil => [] | Node d l r m => d :: nodes_of l ++ nodes_of r ++ nodes_of m end.
Section Uses.
  Variable A : arith.
  Variable St : Type.
  Variable T : target A St.
  Variable predict : list nat -> res string.
  Variable rnd : nat -> nat.
  Variable K : Type.
  Variable kCopyFrom : K -> K.
  Variable kShuffleCases : (nat -> nat) -> list nat -> K -> res K.
  Variable kTarget : K -> target A St.
  Variable p : params.
  Variable cans : list nat.
  Definition from_cans (s : bstate A St K) : Prop := Permutation cans (bCans s) /\ (bCode s = CNil \/ In (bFi s) cans).

  Lemma draw_cans s : from_cans s -> ifok (draw_candidate A St rnd K s) (fun x => from_cans (fst x)).
  Proof.
    intros [H1 H2]. unfold draw_candidate. destruct (bDrawn s + bLast s <? length (bCans s)); [|intros ? HX; inversion HX; split; auto].
    intros x Hx. apply bind_ok in Hx as (k & _ & Hx). destruct (length (bCans s) - bConsts s <=? bLast s + k).
    - inversion Hx. split; auto.
    - apply bind_ok in Hx as (cs & Es & Hx). inversion Hx. split; cbn; auto. etransitivity; [exact H1|]. eapply swapl_perm; eauto.
  Qed.
  Lemma try_cans imp s : from_cans s -> ifok (try_candidate A St T rnd K kShuffleCases kTarget p imp s) from_cans.
  Proof.
    intros [H1 H2] x Hx. unfold try_candidate in Hx.
    apply bind_ok in Hx as (i & Ei & Hx). apply bind_ok in Hx as (f & _ & Hx). apply bind_ok in Hx as (r & _ & Hx).
    apply bind_ok in Hx as ([[[cs nc] dc] last] & Ec & Hx). apply bind_ok in Hx as ([[inner oob] al] & _ & Hx).
    apply bind_ok in Hx as ([[[[inner2 cases] oob2] al2] k] & _ & Hx).
    assert (Pc : Permutation cans cs).
    { destruct (fConst r); [|inversion Ec; subst; exact H1]. apply bind_ok in Ec as (c2 & Es & Ec). inversion Ec; subst.
      etransitivity; [exact H1|]. eapply swapl_perm; eauto. }
    apply get_inv, nth_error_In in Ei. inversion Hx. destruct (nltb A (bDec s) inner2); split; cbn; auto.
    right. eapply Permutation_in; [symmetry; exact H1|exact Ei].
  Qed.
  Lemma splitter_cans imp s : from_cans s -> ifok (splitter_loop A St T rnd K kShuffleCases kTarget p imp s) from_cans.
  Proof.
    unfold splitter_loop. generalize (pTry p + length (bCans s) + 2) as fuel. generalize 0 as j. intros j fuel. revert j s.
    induction fuel as [|fuel IH]; intros j s Hs x Hx; cbn [loop] in Hx; [discriminate|].
    destruct (pForce p && (pTry p <=? j) && (j <=? bDrawn s) || (j <? pTry p)); [|inversion Hx; subst; exact Hs].
    destruct (length (bCans s) <=? bConsts s); [inversion Hx; subst; exact Hs|].
    apply bind_ok in Hx as (fl & Ef & Hx). apply bind_ok in Ef as ([s1 e] & Ed & Ef). apply (draw_cans s Hs) in Ed. cbn [fst] in Ed.
    destruct e; [|inversion Ef; subst; apply (IH _ _ Ed _ Hx)].
    apply bind_ok in Ef as (s2 & Et & Ef). apply (try_cans imp s1 Ed) in Et. inversion Ef; subst. apply (IH _ _ Et _ Hx).
  Qed.
  Lemma BestSplitter_cans cases cs oob ncb al k : Permutation cans cs ->
    ifok (BestSplitter A St T rnd K kCopyFrom kShuffleCases kTarget p cases cs oob ncb al k) from_cans.
  Proof.
    intros HP x Hx. unfold BestSplitter in Hx. apply bind_ok in Hx as ([imp tg] & _ & Hx).
    destruct (nleb A imp (minImp A) && nleb A (nofZ A 0) imp); [inversion Hx; split; cbn; auto|].
    eapply splitter_cans; [|exact Hx]. split; cbn; auto.
  Qed.
  Lemma grow_cans fuel : forall n cases depth ncb s, Forall (of_cans cans) (nodes_of n) -> Permutation cans (gCans s) ->
    ifok (grow_node A St T predict rnd K kCopyFrom kShuffleCases kTarget fuel p n cases depth ncb s)
      (fun x => Forall (of_cans cans) (nodes_of (fst x)) /\ Permutation cans (gCans (snd x))).
  Proof.
    induction fuel as [|fuel IH]; intros n cases depth ncb s Hn Hs x Hx; cbn [grow_node] in Hx; [discriminate|].
    destruct n as [|d l r m]; [discriminate|]. cbn [nodes_of] in Hn. inversion Hn as [|? ? Hd Hc]; subst. clear Hn.
    rewrite !Forall_app in Hc. destruct Hc as (Hl & Hr & Hm).
    assert (Nn : Forall (of_cans cans) (nodes_of newNode)) by (constructor; [left; split; reflexivity|constructor]).
    apply bind_ok in Hx as ([v s1] & Ev & Hx).
    assert (V : of_cans cans (gvD v) /\ Forall (of_cans cans) (nodes_of (gvL v)) /\ Forall (of_cans cans) (nodes_of (gvR v)) /\
      Forall (of_cans cans) (nodes_of (gvM v)) /\ Permutation cans (gCans s1)).
    { unfold grow_visit in Ev. destruct (((depth <? pMaxDepth p) || (pMaxDepth p <=? 0)) && (2 * pLeaf p <=? length cases)).
      2:{ apply bind_ok in Ev as (q & _ & Ev). inversion Ev; subst; cbn. refine (conj (or_introl (conj eq_refl eq_refl)) _). auto. }
      apply bind_ok in Ev as (b & Eb & Ev). apply (BestSplitter_cans _ _ _ _ _ _ Hs) in Eb as [B1 B2].
      destruct (isCNil (bCode b)) eqn:Ec.
      - apply bind_ok in Ev as (q & _ & Ev). inversion Ev; subst; cbn. refine (conj (or_introl (conj eq_refl eq_refl)) _). auto.
      - apply bind_ok in Ev as ([imp du] & _ & Ev). apply bind_ok in Ev as (f & _ & Ev). apply bind_ok in Ev as (spl & _ & Ev). inversion Ev; subst; cbn.
        refine (conj (or_intror _) (conj _ (conj _ (conj _ B1)))).
        + cbn. destruct B2 as [B2|B2]; [rewrite B2 in Ec; discriminate|auto].
        + destruct (isNil l || isNil r); auto.
        + destruct (isNil l || isNil r); auto.
        + destruct (pSplitMissing p); auto. }
    destruct V as (V1 & V2 & V3 & V4 & V5).
    destruct (isCNil (gvSplit v)).
    { inversion Hx. cbn [fst snd nodes_of]. split; [|exact V5]. constructor; [exact V1|]. rewrite !Forall_app. auto. }
    apply bind_ok in Hx as (f & _ & Hx). apply bind_ok in Hx as ([[cs li] ri] & _ & Hx). apply bind_ok in Hx as (lc & _ & Hx).
    apply bind_ok in Hx as ([l1 s2] & El & Hx). apply (IH _ _ _ _ _ V2 V5) in El as [L1 L2].
    apply bind_ok in Hx as (rc & _ & Hx). apply bind_ok in Hx as ([r1 s3] & Er & Hx). cbn [fst snd] in L1, L2. apply (IH _ _ _ _ _ V3 L2) in Er as [R1 R2].
    cbn [fst snd] in R1, R2. apply bind_ok in Hx as ([m1 s4] & Em & Hx).
    assert (M : Forall (of_cans cans) (nodes_of m1) /\ Permutation cans (gCans s4)).
    { destruct (negb (li =? ri) && negb (isNil (gvM v))); [|inversion Em; subst; auto].
      apply bind_ok in Em as (mc & _ & Em). apply (IH _ _ _ _ _ V4 R2) in Em as M. exact M. }
    inversion Hx. cbn [fst snd nodes_of]. destruct M as [M1 M2]. split; [|exact M2]. constructor; [exact V1|]. rewrite !Forall_app. auto.
  Qed.
End Uses.

(** Such a tree votes alike on matrices that have the same candidates. *)
Lemma split_cans fm fm' cans d cs : of_cans cans d ->
  (forall i, In i cans -> nth_error (fmData fm) i = nth_error (fmData fm') i) -> node_split fm d cs = node_split fm' d cs.
Proof.
  intros Hd H. unfold node_split, get. destruct Hd as [[E1 E2]|[E Hd]].
  - rewrite E1, E2. reflexivity.
  - rewrite E, (H _ Hd). reflexivity.
Qed.
Lemma recurse_cans {St} (r : visit -> St -> res St) fm fm' cans n : 
  (forall i, In i cans -> nth_error (fmData fm) i = nth_error (fmData fm') i) -> Forall (of_cans cans) (nodes_of n) ->
  forall arr lo hi depth st, Recurse r fm n arr lo hi depth st = Recurse r fm' n arr lo hi depth st.
Proof.
  intros H. induction n as [|d l IHl r0 IHr m IHm]; intros Hn arr lo hi depth st; cbn [Recurse]; [reflexivity|].
  cbn [nodes_of] in Hn. inversion Hn as [|? ? Hd Hc]; subst. rewrite !Forall_app in Hc. destruct Hc as (Hl & Hr & Hm).
  apply bind_ext; intros cs _. apply bind_ext; intros st0 _. rewrite (split_cans fm fm' cans d cs Hd H). apply bind_ext; intros [sr|] _; [|reflexivity].
  cbn zeta. rewrite IHl by assumption. apply bind_ext; intros [a1 s1] _. rewrite IHr by assumption. apply bind_ext; intros [a2 s2] _.
  rewrite IHm by assumption. reflexivity.
Qed.
Lemma votes_cans fm fm' cans n tw cases bb : Forall (of_cans cans) (nodes_of n) ->
  (forall i, In i cans -> nth_error (fmData fm) i = nth_error (fmData fm') i) ->
  VoteCases fm n tw cases bb = VoteCases fm' n tw cases bb.
Proof. intros Hn H. apply (recurse_cans _ fm fm' cans n H Hn). Qed.

(** ** Labels of other cases.  The column [ti] of the target is not a candidate.  When labels of
    cases the tree is not grown from are changed, the tree is the same and so are all its votes:
    the vote of a tree for an out of bag case does not depend on the label of that case. *)
Record relabelled (cases : list nat) (tf tf' : catF) : Prop := mkRL {
  rl_header : same_header (FCat tf) (FCat tf');
  rl_whole : whole (FCat tf) /\ whole (FCat tf');
  rl_labels : forall c, In c cases -> nth_error (cData tf') c = nth_error (cData tf) c /\ nth_error (cMissing tf') c = nth_error (cMissing tf) c
}.
Lemma same_values_refl f cs : in_range cs f -> same_values f f cs cs.
Proof.
  assert (G : forall B (d : list B) c, c < length d -> same_at d d c c).
  { intros B d c H. destruct (nth_error d c) as [x|] eqn:E; [exists x; auto|]. apply nth_error_None in E. lia. }
  intros H. split; [destruct f; cbn; auto|]. induction cs as [|c cs IH]; constructor.
  - destruct f as [f|f]; cbn in H |- *; destruct H as [H1 H2]; inversion H1; inversion H2; subst; split; apply G; assumption.
  - apply IH. destruct f; cbn in H |- *; destruct H as [H1 H2]; inversion H1; inversion H2; subst; auto.
Qed.
Lemma relabelled_values cases tf tf' : relabelled cases tf tf' -> in_range cases (FCat tf) -> same_values (FCat tf) (FCat tf') cases cases.
Proof.
  intros [Hh Hw Hl] H. split; [exact Hh|]. cbn in H. destruct H as [H1 H2]. revert Hl H1 H2. clear. induction cases as [|c cs IH]; intros Hl H1 H2; constructor.
  - inversion H1; inversion H2; subst. destruct (Hl c (or_introl eq_refl)) as [E1 E2]. cbn. unfold same_at. rewrite E1, E2.
    destruct (nth_error (cData tf) c) as [x|] eqn:F1; [|apply nth_error_None in F1; lia].
    destruct (nth_error (cMissing tf) c) as [y|] eqn:F2; [|apply nth_error_None in F2; lia]. split; eauto.
  - inversion H1; inversion H2; subst. apply IH; auto. intros c1 Hc1. apply Hl. right. exact Hc1.
Qed.

Lemma F2_upd {B} (R : B -> B -> Prop) l i a b : Forall (fun x => R x x) l -> nth_error l i = Some a -> R a b -> Forall2 R l (upd l i b).
Proof.
  intros H. revert i. induction H as [|x l Hx Hl IH]; intros [|i] E Hr; cbn in *; try discriminate; constructor; auto.
  - injection E as ->. exact Hr.
  - clear - Hl. induction Hl; constructor; auto.
Qed.

Theorem C129_labels_of_others : forall A rnd tf tf' p p' ti cases cans oob fuel al imp du,
  same_params p p' -> pEvalOob p = false -> (pVet p = true -> NoDup cases) ->
  nth_error (pData p) ti = Some (FCat tf) -> pData p' = upd (pData p) ti (FCat tf') -> relabelled cases tf tf' ->
  Forall (in_range cases) (pData p) -> ~ In ti cans ->
  outcome (grow_cat A cst (gini_target A) cFindPredicted rnd tf fuel p newNode cases cans oob al imp du) =
  outcome (grow_cat A cst (gini_target A) cFindPredicted rnd tf' fuel p' newNode cases cans oob al imp du) /\
  forall n s fm fm' tw voters bb,
    grow_cat A cst (gini_target A) cFindPredicted rnd tf fuel p newNode cases cans oob al imp du = Ok (n, s) ->
    fmData fm = pData p -> fmData fm' = pData p' ->
    VoteCases fm n tw voters bb = VoteCases fm' n tw voters bb.
Proof.
  intros A rnd tf tf' p p' ti cases cans oob fuel al imp du Hp He Hv Ht Hp' Hr Hd Hc.
  assert (Hti : ti < length (pData p)) by (apply nth_error_Some; congruence). split.
  - assert (Hin : in_range cases (FCat tf)) by (rewrite Forall_forall in Hd; apply Hd; eapply nth_error_In; eauto).
    assert (S1 : seen p cases oob = cases) by (unfold seen; rewrite He; reflexivity).
    apply C129_gini. constructor; rewrite ?S1; auto.
    + rewrite Hp'. eapply F2_upd; [|exact Ht|apply relabelled_values; auto]. eapply Forall_impl; [|exact Hd]. intros f. apply same_values_refl.
    + apply relabelled_values; auto.
    + intros Ev. destruct Hr as [_ Hw _]. specialize (Hv Ev). tauto.
  - intros n s fm fm' tw voters bb Hg E E'. apply (votes_cans fm fm' cans).
    + apply (grow_cans A cst _ _ rnd catF _ _ _ p cans fuel newNode cases 0 0 _) in Hg; [apply Hg| |reflexivity].
      constructor; [left; split; reflexivity|constructor].
    + intros i Hi. rewrite E, E', Hp'. symmetry. apply nth_error_upd_neq. intros ->. auto.
Qed.
Print Assumptions C129_labels_of_others.

(** The same for regression. *)
Record retargeted (cases : list nat) (tf tf' : numF) : Prop := mkRT {
  rt_header : same_header (FNum tf) (FNum tf');
  rt_whole : whole (FNum tf) /\ whole (FNum tf');
  rt_values : forall c, In c cases -> nth_error (nData tf') c = nth_error (nData tf) c /\ nth_error (nMissing tf') c = nth_error (nMissing tf) c
}.
Lemma retargeted_values cases tf tf' : retargeted cases tf tf' -> in_range cases (FNum tf) -> same_values (FNum tf) (FNum tf') cases cases.
Proof.
  intros [Hh Hw Hl] H. split; [exact Hh|]. cbn in H. destruct H as [H1 H2]. revert Hl H1 H2. clear. induction cases as [|c cs IH]; intros Hl H1 H2; constructor.
  - inversion H1; inversion H2; subst. destruct (Hl c (or_introl eq_refl)) as [E1 E2]. cbn. unfold same_at. rewrite E1, E2.
    destruct (nth_error (nData tf) c) as [x|] eqn:F1; [|apply nth_error_None in F1; lia].
    destruct (nth_error (nMissing tf) c) as [y|] eqn:F2; [|apply nth_error_None in F2; lia]. split; eauto.
  - inversion H1; inversion H2; subst. apply IH; auto. intros c1 Hc1. apply Hl. right. exact Hc1.
Qed.
Theorem C129_values_of_others : forall fmtF rnd tf tf' p p' ti cases cans oob fuel al imp du,
  same_params p p' -> pEvalOob p = false -> (pVet p = true -> NoDup cases) ->
  nth_error (pData p) ti = Some (FNum tf) -> pData p' = upd (pData p) ti (FNum tf') -> retargeted cases tf tf' ->
  Forall (in_range cases) (pData p) -> ~ In ti cans ->
  outcome (grow_num F64 (sums F64) (num_target F64) (predict_mean fmtF) rnd tf fuel p newNode cases cans oob al imp du) =
  outcome (grow_num F64 (sums F64) (num_target F64) (predict_mean fmtF) rnd tf' fuel p' newNode cases cans oob al imp du) /\
  forall n s fm fm' tw voters bb,
    grow_num F64 (sums F64) (num_target F64) (predict_mean fmtF) rnd tf fuel p newNode cases cans oob al imp du = Ok (n, s) ->
    fmData fm = pData p -> fmData fm' = pData p' ->
    VoteCases fm n tw voters bb = VoteCases fm' n tw voters bb.
Proof.
  intros fmtF rnd tf tf' p p' ti cases cans oob fuel al imp du Hp He Hv Ht Hp' Hr Hd Hc.
  assert (Hti : ti < length (pData p)) by (apply nth_error_Some; congruence). split.
  - assert (Hin : in_range cases (FNum tf)) by (rewrite Forall_forall in Hd; apply Hd; eapply nth_error_In; eauto).
    assert (S1 : seen p cases oob = cases) by (unfold seen; rewrite He; reflexivity).
    apply C129_squared_error. constructor; rewrite ?S1; auto.
    + rewrite Hp'. eapply F2_upd; [|exact Ht|apply retargeted_values; auto]. eapply Forall_impl; [|exact Hd]. intros f. apply same_values_refl.
    + apply retargeted_values; auto.
    + intros Ev. destruct Hr as [_ Hw _]. specialize (Hv Ev). tauto.
  - intros n s fm fm' tw voters bb Hg E E'. apply (votes_cans fm fm' cans).
    + apply (grow_cans F64 (sums F64) _ _ rnd numF _ _ _ p cans fuel newNode cases 0 0 _) in Hg; [apply Hg| |reflexivity].
      constructor; [left; split; reflexivity|constructor].
    + intros i Hi. rewrite E, E', Hp'. symmetry. apply nth_error_upd_neq. intros ->. auto.
Qed.
Print Assumptions C129_values_of_others.

(** ** What fails: the flag that a column has missing values is a property of all its cases.
    Seven cases are sampled, the eighth is not; its value of [x] is missing in one matrix and not
    in the other.  In the first one the cases are not left in the order of their values. *)
Definition leak_x (miss : bool) : numF :=
  mkNum (map f_of_Z [1; 3; 2; 10; 11; 12; 13; 20]%Z) [false; false; false; false; false; false; false; miss] "N:x" miss.
Definition leak_t : numF := mkNum (map f_of_Z [10 ^ 16; 1; - 10 ^ 16; 5 * 10 ^ 16; 5 * 10 ^ 16; 5 * 10 ^ 16; 5 * 10 ^ 16; 7]%Z) (repeat false 8) "N:t" false.
Definition leak_p (miss : bool) : params := mkP [FNum (leak_x miss)] 1 3 false false false false 0 false.
Definition leak_fmt (v : f64) : string := if feqb v f0 then "0" else if fltb v f1 then "less than 1" else "more".
Definition leak_al : allocs (sums F64) := mkAl (repeat f0 8) (repeat 0%Z 8) (@mkSums F64 f0 f0 f0 f0 f0 f0) 0.
Definition leak_grow (miss : bool) : res (node * gstate F64 (sums F64) numF) :=
  grow_num F64 (sums F64) (num_target F64) (predict_mean leak_fmt) (fun _ => 0) leak_t 5 (leak_p miss) newNode (seq 0 7) [0] [] leak_al None None.
Definition leaves_say {G} (r : res (node * G)) : list string :=
  match r with Ok (Node _ l r _, _) => [match l with Node d _ _ _ => dPred d | Nil => "none" end; match r with Node d _ _ _ => dPred d | Nil => "none" end] | _ => [] end.
Theorem C129_flag_refuted :
  exists (p p' : params) (tf : numF) (cases : list nat) (fuel : nat) (al : allocs (sums F64)) (fmtF : f64 -> string),
    same_params p p' /\ Forall2 (fun f f' => Forall2 (same_cell f f') cases cases) (pData p) (pData p') /\
    pEvalOob p = false /\ pVet p = false /\
    let tree q := leaves_say (grow_num F64 (sums F64) (num_target F64) (predict_mean fmtF) (fun _ => 0) tf fuel q newNode cases [0] [] al None None) in
    tree p <> tree p'.
Proof.
  exists (leak_p true), (leak_p false), leak_t, (seq 0 7), 5, leak_al, leak_fmt.
  refine (conj _ (conj _ (conj eq_refl (conj eq_refl _)))).
  - repeat split.
  - constructor; [|constructor]. cbn [same_cell leak_x nData nMissing].
    repeat constructor; (eexists; split; [reflexivity|vm_compute; reflexivity]).
  - cbn zeta. intros E. apply (f_equal (fun l => nth 0 l "")) in E.
    change (nth 0 (leaves_say (leak_grow true)) "" = nth 0 (leaves_say (leak_grow false)) "") in E.
    vm_compute in E. discriminate E.
Qed.
Print Assumptions C129_flag_refuted.

(** ** What fails: with -evaloob the labels of the out of bag cases decide whether a node is
    split.  Cases 0 to 3 are sampled, 4 and 5 are out of bag; the label of case 5 is not seen by
    the search, yet with another label for it there is no tree but a leaf. *)
Definition oob_x : numF := PropSearch.plain (map f_of_Z [1; 1; 2; 2; 1; 2]%Z).
Definition oob_t (last : nat) : catF := PropCatSearch.cats ["x"; "y"] [0; 0; 1; 1; 0; last] false.
Definition oob_p (eval : bool) (last : nat) : params := mkP [FNum oob_x; FCat (oob_t last)] 1 1 false false eval false 0 false.
Definition is_split {G} (r : res (node * G)) : option bool :=
  match r with Ok (Node d _ _ _, _) => Some (negb (isCNil (dCode d))) | _ => None end.
Theorem C129_evaloob_refuted :
  exists (p p' : params) (tf tf' : catF) (cases oob : list nat) (fuel : nat) (al : allocs cst),
    same_params p p' /\ pEvalOob p = true /\ pVet p = false /\ nth_error (pData p) 1 = Some (FCat tf) /\
    pData p' = upd (pData p) 1 (FCat tf') /\ relabelled cases tf tf' /\ Forall (in_range cases) (pData p) /\ (forall c, In c oob -> ~ In c cases) /\
    let splits t q := is_split (grow_cat F64 cst (gini_target F64) cFindPredicted (fun _ => 0) t fuel q newNode cases [0] oob al None None) in
    splits tf p = Some true /\ splits tf' p' = Some false.
Proof.
  exists (oob_p true 1), (oob_p true 0), (oob_t 1), (oob_t 0), [0; 1; 2; 3], [4; 5], 5, (PropSearch.fresh 6).
  refine (conj _ (conj eq_refl (conj eq_refl (conj eq_refl (conj eq_refl (conj _ (conj _ (conj _ (conj _ _))))))))).
  - repeat split.
  - constructor; [repeat split| |].
    + split; reflexivity.
    + intros c [<-|[<-|[<-|[<-|[]]]]]; split; reflexivity.
  - repeat constructor.
  - intros c [<-|[<-|[]]] H; cbn in H; intuition discriminate.
  - vm_compute. reflexivity.
  - vm_compute. reflexivity.
Qed.
Print Assumptions C129_evaloob_refuted.

(** ** A concrete case: with the same data and no -evaloob, vetting on, the label of case 5 does
    not matter and the tree is the same; and the tree grown from cases 3, 1, 5, 0 is the one
    grown from the four rows of the table of these cases. *)
Definition row_p (last : nat) : params := mkP [FNum oob_x; FCat (oob_t last)] 1 1 false true false false 0 false.
Example C129_ex :
  same_sample (row_p 0) (row_p 1) (FCat (oob_t 0)) (FCat (oob_t 1)) [0; 1; 2; 3] [0; 1; 2; 3] [4; 5] [4] /\
  is_split (grow_cat F64 cst (gini_target F64) cFindPredicted S (oob_t 0) 5 (row_p 0) newNode [0; 1; 2; 3] [0] [4; 5] (PropSearch.fresh 6) None None) = Some true.
Proof.
  split.
  - constructor.
    + repeat split.
    + reflexivity.
    + repeat constructor; (eexists; split; [reflexivity|vm_compute; reflexivity]).
    + split; [repeat split|]. repeat constructor; (eexists; split; [reflexivity|vm_compute; reflexivity]).
    + intros _. split; [|split; [|split; reflexivity]]; repeat constructor; cbn; intuition discriminate.
  - vm_compute. reflexivity.
Qed.
Example C129_ex_renumbered :
  let p := mkP [FNum oob_x; FCat (oob_t 1)] 1 1 false false false false 0 false in
  let p' := mkP [FNum (PropSearch.plain (map f_of_Z [2; 1; 2; 1]%Z)); FCat (PropCatSearch.cats ["x"; "y"] [1; 0; 1; 0] false)] 1 1 false false false false 0 false in
  same_sample p p' (FCat (oob_t 1)) (FCat (PropCatSearch.cats ["x"; "y"] [1; 0; 1; 0] false)) [3; 1; 5; 0] [0; 1; 2; 3] [] [] /\
  is_split (grow_cat F64 cst (gini_target F64) cFindPredicted S (oob_t 1) 5 p newNode [3; 1; 5; 0] [0] [] (PropSearch.fresh 6) None None) = Some true.
Proof.
  cbn zeta. split.
  - constructor.
    + repeat split.
    + reflexivity.
    + repeat constructor; (eexists; split; [reflexivity|vm_compute; reflexivity]).
    + split; [repeat split|]. repeat constructor; (eexists; split; [reflexivity|vm_compute; reflexivity]).
    + discriminate.
  - vm_compute. reflexivity.
Qed.
