(** C149: the number of lines of forest files. *)
From Verif Require Import Go GoLemmas F64 ModelFeature ModelSplit SplitSpec ModelTree TreeSpec TreeProofs PropTree2 ModelText TextProofs
  ModelFile FileSpec FileProofs FileProofs2 PropFile ModelBallot ModelSearch GrowSpec ModelTargets ModelGrow GrownSpec GrowProofs PropGrow PropGrow2 PropSize.
From Verif Require PropTree PropSearch PropSplitter PropApplied.
Local Open Scope string_scope.
Local Open Scope nat_scope.
Local Open Scope list_scope.

(** ** C149.  The claim in full: a tree takes one line of a forest file for its header and one
    for each of its nodes, so the file of a grown forest is not longer than its trees are large.
    True without -splitmissing.  False with it: WriteNodeAndChildren writes the right branch a
    second time in place of the missing branch, at every level, so the number of lines at
    least doubles with every split along the right branches. *)
Definition lines_of (out : bytes) : nat := count_occ Ascii.ascii_dec out nl.

Lemma lines_app a b : lines_of (a ++ b) = lines_of a + lines_of b.
Proof. apply count_occ_app. Qed.
Lemma lines_none s : no nl s -> lines_of s = 0.
Proof. intros H. apply count_occ_not_In, H. Qed.
Lemma lines_inert s : inert s -> lines_of s = 0.
Proof. intros H. apply lines_none. apply inert_no in H. tauto. Qed.
Lemma lines_rendered fs : Forall field_ok fs -> lines_of (render_line fs) = 1.
Proof.
  intros H. unfold render_line. rewrite lines_app. rewrite lines_none; [reflexivity|].
  induction fs as [|f fs IH]; [intros []|]. inversion H as [|? ? Hf Hfs]; subst.
  destruct fs as [|f' fs]; [cbn; apply render_no; auto|].
  change (join (B ",") (map render (f :: f' :: fs))) with (render f ++ [","%char] ++ join (B ",") (map render (f' :: fs))).
  apply no_app. split; [apply render_no; auto|]. apply no_app. split; [intros [X|[]]; discriminate|]. apply IH. auto.
Qed.

(** The number of nodes that are written. *)
Fixpoint written (n : node) : nat :=
  match n with
  | Nil => 0
  | Node d l r m =>
      match dSpl d with
      | None => 1
      | Some _ => 1 + written l + written r + (if isNil m then 0 else written r)
      end
  end.
Lemma paths_nodes n : length (paths_of n) = length (nodes_of n).
Proof.
  induction n as [|d l IHl r IHr m IHm]; [reflexivity|]. cbn [paths_of nodes_of length]. rewrite !app_length, !map_length. unfold path in *. rewrite IHl, IHr, IHm. lia.
Qed.
Lemma written_filed n : length (paths_of (as_filed n)) = written n.
Proof.
  rewrite paths_nodes. induction n as [|d l IHl r IHr m IHm]; [reflexivity|]. cbn [as_filed written]. destruct (dSpl d); [|reflexivity].
  rewrite nodes_node, IHl, IHr. destruct (isNil m); [reflexivity|rewrite IHr; reflexivity].
Qed.

Section Lines.
  Variable fmtF : f64 -> bytes.
  Variable itoa : nat -> bytes.
  Variable ord : nat -> bytes -> list string -> list string.
  Variable PF : bytes -> option f64.
  Hypothesis Hord : forall i p l, Permutation (ord i p l) l.
  Hypothesis Hnum : numbers_ok fmtF PF itoa.

  Lemma lines_const s : forallb (fun c => negb (Ascii.eqb c nl)) s = true -> lines_of s = 0.
  Proof.
    intros H. apply lines_none. intros X. rewrite forallb_forall in H. apply H in X. rewrite Ascii.eqb_refl in X. discriminate.
  Qed.
  Lemma tree_header_lines i tg w : inert (B tg) -> lines_of (WriteTreeHeader fmtF itoa i tg w) = 1.
  Proof.
    intros H. destruct Hnum as [Hf Hi]. unfold WriteTreeHeader. rewrite !lines_app.
    rewrite (lines_inert (B tg) H), (lines_inert (itoa i)) by (apply Hi).
    rewrite (lines_const (B "TREE=")), (lines_const (B ",TARGET=")), !(lines_const [quote]) by reflexivity.
    pose proof (lines_inert (fmtF w) (proj1 (proj1 (Hf w)))) as W.
    destruct (fleb f0 w); [rewrite lines_app, W|]; reflexivity.
  Qed.
  Lemma forest_header_lines i tg w : inert (B tg) -> lines_of (WriteForestHeader fmtF itoa i tg w) = 1.
  Proof.
    intros H. destruct Hnum as [Hf Hi]. unfold WriteForestHeader. rewrite !lines_app.
    rewrite (lines_inert (B tg) H), (lines_inert (itoa i)) by (apply Hi).
    rewrite (lines_const (B "FOREST=")), (lines_const (B ",TARGET=")), !(lines_const [quote]) by reflexivity.
    pose proof (lines_inert (fmtF w) (proj1 (proj1 (Hf w)))) as W.
    destruct (feqb w f0); [|rewrite lines_app, W]; reflexivity.
  Qed.
  Lemma nodes_lines i a ps : texts_ok a -> (forall p, In p ps -> at_path a p <> Nil) ->
    lines_of (concat (map (node_line fmtF ord i a) ps)) = length ps.
  Proof.
    intros Ha. induction ps as [|p ps IH]; intros H; [reflexivity|]. cbn [map concat length]. rewrite lines_app, IH by (intros; apply H; right; auto).
    unfold node_line at 1. rewrite node_line_fields. rewrite lines_rendered; [reflexivity|].
    eapply node_fields_ok; eauto; [apply texts_at; auto; apply H; left; auto|apply pstr_clean].
  Qed.
  Lemma tree_lines i t : tree_ok t -> lines_of (tree_out fmtF itoa ord i t) = 1 + written (wtRoot t).
  Proof.
    intros (H1 & H2 & H3 & H4). unfold tree_out. rewrite lines_app, tree_header_lines by auto.
    rewrite nodes_lines; [rewrite written_filed; reflexivity|apply texts_filed; auto|intros p Hp; apply paths_of_at; auto].
  Qed.
  Lemma trees_lines : forall ts i, Forall tree_ok ts -> lines_of (trees_out fmtF itoa ord i ts) = list_sum (map (fun t => 1 + written (wtRoot t)) ts).
  Proof.
    induction ts as [|t ts IH]; intros i H; [reflexivity|]. inversion H as [|? ? Ht Hts]; subst. cbn [trees_out map list_sum fold_right].
    rewrite lines_app, tree_lines, IH by auto. reflexivity.
  Qed.
End Lines.

Lemma forest_lines fmtF itoa ord PF f : (forall i p l, Permutation (ord i p l) l) -> numbers_ok fmtF PF itoa -> forest_ok f ->
  Forall (fun t => right_branches (wtRoot t)) (wfTrees f) ->
  exists out, WriteForest fmtF itoa ord f = Ok out /\
    lines_of out = (if feqb (wfIntercept f) f0 then 0 else 1) + list_sum (map (fun t => 1 + written (wtRoot t)) (wfTrees f)).
Proof.
  intros Hord Hnum (Htg & Hts & H0) Hr.
  assert (Hok : Forall tree_ok (wfTrees f)).
  { apply Forall_forall. intros t Ht. rewrite Forall_forall in Hts, Hr. destruct (Hts t Ht) as (A & C & D). repeat split; auto. }
  unfold WriteForest. rewrite writes_trees by auto. eexists. split; [reflexivity|]. rewrite lines_app, (trees_lines fmtF itoa ord PF Hord Hnum) by auto.
  f_equal. destruct (feqb (wfIntercept f) f0); [reflexivity|]. eapply forest_header_lines; eauto.
Qed.

(** One line per node, without missing branches. *)
Theorem C149_lines_partial : forall fmtF itoa ord PF f, (forall i p l, Permutation (ord i p l) l) -> numbers_ok fmtF PF itoa -> forest_ok f ->
  Forall (fun t => no_missing_branch (wtRoot t) /\ leaves_bare (wtRoot t)) (wfTrees f) ->
  exists out, WriteForest fmtF itoa ord f = Ok out /\
    lines_of out = (if feqb (wfIntercept f) f0 then 0 else 1) + list_sum (map (fun t => 1 + length (nodes_of (wtRoot t))) (wfTrees f)).
Proof.
  intros fmtF itoa ord PF f Hord Hnum Hf Hm. destruct (forest_lines fmtF itoa ord PF f Hord Hnum Hf) as (out & E & L).
  { eapply Forall_impl; [|exact Hm]. intros t [H _]. apply no_missing_right, H. }
  exists out. split; [exact E|]. rewrite L. f_equal. f_equal. apply map_ext_in. intros t Ht. rewrite Forall_forall in Hm. destruct (Hm t Ht) as [H1 H2].
  rewrite <- written_filed, (filed_same _ H1 H2), paths_nodes. reflexivity.
Qed.
Print Assumptions C149_lines_partial.

(** With a missing branch at every split: at least 2^k lines for k splits one right of another. *)
Fixpoint missing_branches (n : node) : Prop :=
  match n with
  | Nil => True
  | Node d l r m => (l = Nil /\ r = Nil /\ m = Nil \/ dSpl d <> None /\ l <> Nil /\ r <> Nil /\ m <> Nil) /\ missing_branches l /\ missing_branches r /\ missing_branches m
  end.
Lemma written_pos n : n <> Nil -> 1 <= written n.
Proof. destruct n as [|d l r m]; [congruence|]. intros _. cbn [written]. destruct (dSpl d); lia. Qed.
Lemma doubled : forall k n d l r m, missing_branches n -> at_path n (repeat DR k) = Node d l r m -> 3 * 2 ^ k <= 2 + written n.
Proof.
  induction k as [|k IH]; intros [|d0 l0 r0 m0] d l r m H E.
  - discriminate.
  - cbn [written]. cbn. destruct (dSpl d0); lia.
  - rewrite at_path_nil in E. discriminate.
  - cbn [repeat at_path child] in E. destruct H as (H1 & _ & H4 & _). cbn [written].
    destruct H1 as [(_ & -> & _)|(Hs & Nl & _ & Nm)]; [rewrite at_path_nil in E; discriminate|].
    destruct (dSpl d0) as [s|]; [|congruence]. destruct m0 as [|? ? ? ?]; [congruence|]. cbn [isNil].
    specialize (IH _ _ _ _ _ H4 E). pose proof (written_pos _ Nl). cbn [Nat.pow] in *. lia.
Qed.
Theorem C149_doubled : forall fmtF itoa ord PF f, (forall i p l, Permutation (ord i p l) l) -> numbers_ok fmtF PF itoa -> forest_ok f ->
  Forall (fun t => missing_branches (wtRoot t) /\ right_branches (wtRoot t)) (wfTrees f) ->
  forall t k d l r m, In t (wfTrees f) -> at_path (wtRoot t) (repeat DR k) = Node d l r m ->
  exists out, WriteForest fmtF itoa ord f = Ok out /\ 3 * 2 ^ k <= 1 + lines_of out.
Proof.
  intros fmtF itoa ord PF f Hord Hnum Hf Hm t k d l r m Ht E. destruct (forest_lines fmtF itoa ord PF f Hord Hnum Hf) as (out & Ew & L).
  { eapply Forall_impl; [|exact Hm]. intros t0 [_ H]. exact H. }
  exists out. split; [exact Ew|]. rewrite L. rewrite Forall_forall in Hm. destruct (Hm t Ht) as [H _]. pose proof (doubled k _ _ _ _ _ H E) as D.
  assert (S1 : 1 + written (wtRoot t) <= list_sum (map (fun t => 1 + written (wtRoot t)) (wfTrees f))).
  { clear -Ht. induction (wfTrees f) as [|x ts IH]; [destruct Ht|]. cbn [map list_sum fold_right]. destruct Ht as [->|Ht]; [unfold list_sum; lia|].
    specialize (IH Ht). unfold list_sum in IH. lia. }
  lia.
Qed.
Print Assumptions C149_doubled.

(** ** Grown trees *)
Section Grown.
  Variable A : arith.
  Variable St : Type.
  Variable T : target A St.
  Variable predict : list nat -> res string.
  Variable rnd : nat -> nat.
  Variable K : Type.
  Variable kCopyFrom : K -> K.
  Variable kShuffleCases : (nat -> nat) -> list nat -> K -> res K.
  Variable kTarget : K -> target A St.
  Variable p : params.
  Local Notation grown := (grown A St T predict rnd K kCopyFrom kShuffleCases kTarget p).

  Lemma grown_branches cans : forall n depth cases us, grown cans depth cases n us ->
    n <> Nil /\ leaves_bare n /\ (if pSplitMissing p then missing_branches n /\ right_branches n else no_missing_branch n).
  Proof.
    induction n as [|d l IHl r IHr m IHm]; intros depth cases us H; [destruct H|]. cbn [GrownSpec.grown] in H. split; [discriminate|].
    destruct (terminal d) eqn:Et.
    { destruct H as (-> & -> & -> & _). cbn. destruct (pSplitMissing p); repeat split; auto; congruence. }
    destruct H as (f & dec & ul & ur & um & _ & _ & _ & (s & Hs & _) & _ & _ & _ & _ & _ & Hl & Hr & Hm & _).
    destruct (IHl _ _ _ Hl) as (L1 & L2 & L3). destruct (IHr _ _ _ Hr) as (R1 & R2 & R3).
    assert (M : leaves_bare m /\ (if pSplitMissing p then m <> Nil /\ missing_branches m /\ right_branches m else m = Nil)).
    { destruct (pSplitMissing p); cbn [andb] in Hm.
      - destruct (negb (length (to_missing f cases) =? 0)).
        + destruct (IHm _ _ _ Hm) as (M1 & M2 & M3). tauto.
        + destruct Hm as [-> _]. cbn. repeat split; auto; try congruence; try discriminate; try (left; auto; fail).
      - destruct Hm as [-> _]. cbn. auto. }
    destruct M as [M1 M2]. cbn [leaves_bare]. split; [repeat split; auto; congruence|]. destruct (pSplitMissing p).
    - cbn [missing_branches right_branches]. destruct M2 as (M2 & M3 & M4). destruct L3, R3. repeat split; auto. right. repeat split; auto; congruence.
    - cbn [no_missing_branch]. auto.
  Qed.
End Grown.

(** The file of a grown tree: at most 2 n / leafSize lines without -splitmissing, 3 2^k - 1 at
    least with it. *)
Theorem C149_grown_partial : forall A St (T : target A St) predict rnd K kCopyFrom kShuffleCases kTarget p ok ready kok cases g,
  growable A St T predict K kCopyFrom kShuffleCases kTarget p ok ready kok cases g ->
  forall fuel n g', length cases < fuel -> Grow A St T predict rnd K kCopyFrom kShuffleCases kTarget fuel p newNode cases g = Ok (n, g') ->
  forall fmtF itoa ord PF tg w i, (forall i p l, Permutation (ord i p l) l) -> numbers_ok fmtF PF itoa -> inert (B tg) -> texts_ok n ->
  exists out, WriteTree fmtF itoa ord (mkWT n tg w) i = Ok out /\
    (pSplitMissing p = false -> lines_of out = 1 + length (nodes_of n) /\ (pLeaf p <= length cases -> pLeaf p * lines_of out <= 2 * length cases)) /\
    (pSplitMissing p = true -> forall k d l r m, at_path n (repeat DR k) = Node d l r m -> 3 * 2 ^ k <= 1 + lines_of out).
Proof.
  intros A St T predict rnd K kCopyFrom kShuffleCases kTarget p ok ready kok cases g Hg fuel n g' Hf E fmtF itoa ord PF tg w i Hord Hnum Htg Ht.
  pose proof (C148_nodes A St T predict rnd K kCopyFrom kShuffleCases kTarget p ok ready kok cases g Hg) as Hsz.
  destruct (growth A St T predict rnd K kCopyFrom kShuffleCases kTarget p ok ready kok cases g Hg) as (n1 & g2 & us & En & G & _).
  pose proof (En fuel Hf) as E'. rewrite E' in E. injection E as -> ->.
  destruct (grown_branches _ _ _ _ _ _ _ _ _ p (gCans g) n 0 cases us G) as (N & Lb & Br).
  assert (Hok : tree_ok (mkWT n tg w)).
  { repeat split; auto. destruct (pSplitMissing p); [apply Br|apply no_missing_right, Br]. }
  exists (tree_out fmtF itoa ord i (mkWT n tg w)). split; [apply writes_tree; auto|]. rewrite (tree_lines fmtF itoa ord PF Hord Hnum) by auto. cbn [wtRoot]. split.
  - intros Es. rewrite Es in Br. rewrite <- written_filed, (filed_same _ Br Lb), paths_nodes. split; [reflexivity|].
    intros Hl. exact (Hsz Es Hl fuel n g' Hf E').
  - intros Es k d l r m Eq. rewrite Es in Br. destruct Br as [Br _]. pose proof (doubled k _ _ _ _ _ Br Eq). lia.
Qed.
Print Assumptions C149_grown_partial.

(** A grown tree whose right branches are split again: it has ten nodes, its file twenty-two
    lines and the header; the bound of C149_doubled for k = 3 is reached. *)
Definition written_of {G} (r : res (node * G)) : option (nat * nat) :=
  match r with Ok (n, _) => Some (length (nodes_of n), written n) | _ => None end.
Definition stairs : list f64 := map f_of_Z [1; 1; 1; 1; 1; 1; 1; 1; 2; 2; 2; 2; 3; 3; 3; 4; 4]%Z.
Definition stairs_class : list nat := [0; 0; 0; 0; 0; 0; 0; 0; 1; 1; 1; 1; 0; 0; 0; 1; 1].
Definition stairs_p (sm : bool) : params := mkP [FNum (PropSearch.plain stairs)] 1 1 false false false false 0 sm.
Example C149_ex_growable sm :
  growable F64 cst (gini_target F64 stairs_class) (cFindPredicted (label stairs_class)) unit (fun k => k) (fun _ _ k => Ok k)
    (fun _ => gini_target F64 stairs_class) (stairs_p sm) (TargetProofs.in_data stairs_class 2) (TargetProofs.cst_ready 2) (fun _ => True) (seq 0 17) (start 17 1).
Proof. apply single_growable with (vs := stairs); try reflexivity; [apply PropSplitter.upto_cases; cbn; lia|cbn; lia..]. Qed.
Example C149_ex_sizes :
  written_of (gini_grow stairs_class 18 (stairs_p false) newNode (seq 0 17) (start 17 1)) = Some (7, 7) /\
  written_of (gini_grow stairs_class 18 (stairs_p true) newNode (seq 0 17) (start 17 1)) = Some (10, 22).
Proof. vm_compute. auto. Qed.
(** Trees of numerical splits with plain names. *)
Definition plainb (s : string) : bool := forallb (fun c => negb (Ascii.eqb c "," || Ascii.eqb c "=" || Ascii.eqb c quote || Ascii.eqb c nl) && (33 <=? nat_of_ascii c) && (nat_of_ascii c <=? 126)) (B s).
Fixpoint textsb (n : node) : bool :=
  match n with
  | Nil => true
  | Node d l r m => plainb (dPred d) && match dSpl d with None => true | Some s => sNumerical s && plainb (sFeature s) end && textsb l && textsb r && textsb m
  end.
Lemma textsb_ok n : textsb n = true -> texts_ok n.
Proof.
  induction n as [|d l IHl r IHr m IHm]; [exact (fun _ => I)|]. cbn [textsb texts_ok]. rewrite !andb_true_iff. intros ((((H1 & H2) & H3) & H4) & H5).
  split; [apply clean_const, H1|]. split; [|auto]. destruct (dSpl d) as [s|]; [|exact I]. apply andb_true_iff in H2 as [H2 H2'].
  split; [apply clean_const, H2'|congruence].
Qed.
Local Notation GG classes := (Grow F64 cst (gini_target F64 classes) (cFindPredicted (label classes)) (fun _ => 0) unit (fun k => k) (fun _ _ k => Ok k)
    (fun _ => gini_target F64 classes)).
Example C149_ex_checked : match GG stairs_class 18 (stairs_p true) newNode (seq 0 17) (start 17 1) with
  | Ok (n, _) => Some (textsb n, isNil (at_path n (repeat DR 3)), length (nodes_of n)) | _ => None end = Some (true, false, 10).
Proof. vm_compute. reflexivity. Qed.
Lemma stairs_lines fmtF itoa ord PF n g' : (forall i p l, Permutation (ord i p l) l) -> numbers_ok fmtF PF itoa ->
  GG stairs_class 18 (stairs_p true) newNode (seq 0 17) (start 17 1) = Ok (n, g') -> texts_ok n -> isNil (at_path n (repeat DR 3)) = false ->
  exists out, WriteTree fmtF itoa ord (mkWT n "T" f1) 0 = Ok out /\ 23 <= lines_of out.
Proof.
  intros Hord Hnum E Ht C2. destruct (at_path n (repeat DR 3)) as [|d l r m] eqn:Eq; [discriminate C2|].
  assert (Hl : length (seq 0 17) < 18) by (rewrite seq_length; clear; lia).
  destruct (C149_grown_partial F64 cst (gini_target F64 stairs_class) (cFindPredicted (label stairs_class)) (fun _ => 0) unit (fun k => k) (fun _ _ k => Ok k)
    (fun _ => gini_target F64 stairs_class) (stairs_p true) (TargetProofs.in_data stairs_class 2) (TargetProofs.cst_ready 2) (fun _ => True) (seq 0 17) (start 17 1) (C149_ex_growable true) 18 n g' Hl E fmtF itoa ord PF "T" f1 0 Hord Hnum)
    as (out & Ew & _ & L); [apply inertb_ok; reflexivity|exact Ht|]. exists out. split; [exact Ew|].
  specialize (L eq_refl 3 d l r m Eq). clear - L. cbn in L. lia.
Qed.
Theorem C149_one_line_per_node_refuted : forall fmtF itoa ord PF, (forall i p l, Permutation (ord i p l) l) -> numbers_ok fmtF PF itoa ->
  ~ (forall classes p cases g, growable F64 cst (gini_target F64 classes) (cFindPredicted (label classes)) unit (fun k => k) (fun _ _ k => Ok k)
       (fun _ => gini_target F64 classes) p (TargetProofs.in_data classes 2) (TargetProofs.cst_ready 2) (fun _ => True) cases g ->
     forall fuel n g', length cases < fuel -> GG classes fuel p newNode cases g = Ok (n, g') ->
     texts_ok n -> forall out, WriteTree fmtF itoa ord (mkWT n "T" f1) 0 = Ok out -> lines_of out = 1 + length (nodes_of n)).
Proof.
  intros fmtF itoa ord PF Hord Hnum H. specialize (H stairs_class (stairs_p true) (seq 0 17) (start 17 1) (C149_ex_growable true) 18).
  pose proof C149_ex_checked as C. pose proof (fun n g' => stairs_lines fmtF itoa ord PF n g' Hord Hnum) as G.
  generalize dependent (GG stairs_class 18 (stairs_p true) newNode (seq 0 17) (start 17 1)). intros R H C G.
  destruct R as [[n g']| |]; [|discriminate C..]. assert (C1 : textsb n = true) by congruence. assert (C2 : isNil (at_path n (repeat DR 3)) = false) by congruence.
  assert (C3 : length (nodes_of n) = 10) by congruence. clear C.
  destruct (G n g' eq_refl (textsb_ok n C1) C2) as (out & Ew & L). specialize (H n g' ltac:(rewrite seq_length; clear; lia) eq_refl (textsb_ok n C1) out Ew).
  rewrite C3 in H. rewrite H in L. clear - L. cbn in L. lia.
Qed.
Print Assumptions C149_one_line_per_node_refuted.
