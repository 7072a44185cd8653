(** C128: a forest file votes as the trees it was written from. *)
From Verif Require Import Go GoLemmas F64 ModelFeature ModelSplit SplitSpec SplitProofs ModelTree TreeSpec TreeProofs PropTree PropTree2 ModelText
  ModelFile FileSpec PropFile MatrixSpec PropByName
  ModelSearch SearchSpec GrowSpec ModelGrow GrownSpec GrowProofs PropGrow.
Local Open Scope string_scope.
Local Open Scope nat_scope.
Local Open Scope list_scope.

(** ** C128.  The claim in full: growing uses coded splits (numbers of categories, positions
    of columns); the tree in the forest file has names only.  Applied to the data it was
    grown from, the file gives the votes of the grown tree, so every training case gets the
    prediction of the leaf it was put in. *)

(** The splits of a tree are coded for this matrix, with the splitters decoded from them,
    and the names lead back to the columns. *)
Fixpoint decodes (fm : fmatrix) (n : node) : Prop :=
  match n with
  | Nil => True
  | Node d l r m =>
      (terminal d = true \/
       exists f s, nth_error (fmData fm) (dFeat d) = Some f /\ code_fits f (dCode d) /\ dSpl d = Some s /\ fDecodeSplit f (dCode d) = Ok s /\
         names_distinct f /\ assoc (sFeature s) (fmMap fm) = Some (dFeat d)) /\
      decodes fm l /\ decodes fm r /\ decodes fm m
  end.
(** The same tree without codes. *)
Inductive reread : node -> node -> Prop :=
| reread_nil : reread Nil Nil
| reread_node d l r m d' l' r' m' :
    dPred d' = dPred d -> dCode d' = CNil -> same_splitter (dSpl d') (dSpl d) ->
    reread l l' -> reread r r' -> reread m m' -> reread (Node d l r m) (Node d' l' r' m').

Lemma same_splitF f s s' cases : same_splitter (Some s') (Some s) -> sNumerical s = is_numerical f -> splSplitF f s' cases = splSplitF f s cases.
Proof.
  intros (_ & _ & H) Hk. unfold splSplitF. erewrite split_loop_ext; [reflexivity|reflexivity|].
  intros c _. destruct f as [f|f]; cbn in Hk |- *; rewrite Hk in H.
  - unfold nGoesLeft. rewrite H. reflexivity.
  - unfold cGoesLeft. destruct (get (cData f) c) as [k| |]; cbn [bind]; try reflexivity.
    destruct (get (cmBack (cMap f)) k) as [v| |]; cbn [bind]; try reflexivity. f_equal. unfold inleft. rewrite !existsb_in_dec.
    destruct H as [_ H]. destruct (in_dec string_dec v (sLeft s')) as [A|A], (in_dec string_dec v (sLeft s)) as [C|C]; auto; exfalso; [apply C, H, A|apply A, H, C].
Qed.

Lemma reread_split fm d l r m d' l' r' m' cases : decodes fm (Node d l r m) -> reread (Node d l r m) (Node d' l' r' m') -> answers fm cases d ->
  node_split fm d' cases = node_split fm d cases.
Proof.
  intros [Hd _] Hr Ha. inversion Hr as [|? ? ? ? ? ? ? ? Hp Hc Hs _ _ _]; subst. unfold node_split at 1. rewrite Hc. cbn [isCNil negb].
  destruct Hd as [Ht|(f & s & Hf & Hfit & Es & Edec & Hnd & Hname)].
  - unfold terminal in Ht. apply andb_true_iff in Ht as [T1 T2]. destruct (dSpl d) as [s|] eqn:Es; [discriminate|].
    destruct (dSpl d'); [destruct Hs|]. unfold node_split. rewrite T1. cbn [negb]. rewrite Es. reflexivity.
  - rewrite Es in Hs. destruct (dSpl d') as [s'|]; [|destruct Hs].
    assert (Hcode : isCNil (dCode d) = false) by (destruct f, (dCode d); cbn in Hfit; tauto).
    unfold node_split. rewrite Hcode. cbn [negb]. rewrite (get_nth _ _ Hf). cbn [bind].
    assert (Hlook : fmLookup fm (sFeature s') = Ok f).
    { destruct Hs as (-> & _). unfold fmLookup. rewrite Hname. apply get_nth. exact Hf. }
    unfold splSplit. rewrite Hlook. cbn [bind].
    assert (Hcases : Forall (has_case f) cases).
    { unfold answers in Ha. assert (Ec : column fm (dFeat d) = f) by (apply nth_error_nth; exact Hf). rewrite Ec in Ha.
      destruct (dCode d); try discriminate; tauto. }
    rewrite (same_splitF f s s'), (decoded_same f (dCode d) s cases); auto.
    destruct f as [f|f]; cbn in Edec |- *.
    + unfold nDecodeSplit in Edec. destruct (dCode d); inversion Edec; reflexivity.
    + inversion Edec. reflexivity.
Qed.

Lemma reread_leaf n n' : reread n n' -> isLeaf n' = isLeaf n /\ node_pred n' = node_pred n /\ isNil n' = isNil n.
Proof.
  intros H. inversion H as [|? ? ? ? ? ? ? ? Hp Hc Hs Hl Hr Hm]; subst; [auto|]. cbn. rewrite Hp. split; [|auto]. f_equal.
  inversion Hl; subst; inversion Hr; subst; reflexivity.
Qed.

(** Both traversals run alike. *)
Lemma Recurse_reread {St} (r : visit -> St -> res St) fm :
  (forall n n' lo hi cs depth st, reread n n' -> r (mkVisit n' lo hi cs depth) st = r (mkVisit n lo hi cs depth) st) ->
  forall n n', reread n n' -> decodes fm n -> forall arr lo hi depth st, usable fm arr n ->
  Recurse r fm n' arr lo hi depth st = Recurse r fm n arr lo hi depth st /\
  ifok (Recurse r fm n arr lo hi depth st) (fun '((a, _) : list nat * St) => incl a arr).
Proof.
  intros Hr. induction n as [|d nl IHl nr IHr nm IHm]; intros n' Hn Hd arr lo hi depth st Hu.
  { inversion Hn; subst. split; [reflexivity|intros ? HX; discriminate HX]. }
  destruct n' as [|d' nl' nr' nm']; [inversion Hn|]. cbn [Recurse].
  destruct (slice arr lo hi) as [cases| |] eqn:Es; cbn [bind]; try (split; [reflexivity|intros ? HX; discriminate HX]).
  assert (Hc : incl cases arr).
  { unfold slice in Es. destruct ((lo <=? hi) && (hi <=? length arr)); inversion Es. intros x Hx.
    rewrite <- (firstn_skipn lo arr). apply in_or_app. right.
    rewrite <- (firstn_skipn (hi - lo) (skipn lo arr)). apply in_or_app. left. exact Hx. }
  rewrite (Hr _ _ lo hi cases depth st Hn).
  destruct (r (mkVisit (Node d nl nr nm) lo hi cases depth) st) as [st0| |]; cbn [bind]; try (split; [reflexivity|intros ? HX; discriminate HX]).
  cbn [usable] in Hu. destruct Hu as (Ua & Ul & Ur & Um).
  assert (Uc : answers fm cases d) by (eapply answers_incl; [exact Hc|exact Ua]).
  rewrite (reread_split fm d nl nr nm d' nl' nr' nm' cases Hd Hn Uc).
  pose proof (node_split_ok fm d cases Uc) as Hsp. destruct (test_of fm d) as [[f goes]|].
  2:{ rewrite Hsp. cbn [bind]. split; [reflexivity|intros ? HX; inversion HX; subst; apply incl_refl]. }
  destruct Hsp as (sr & -> & [_ HP _ _ _]). cbn [bind].
  inversion Hn as [|? ? ? ? ? ? ? ? _ _ _ Nl Nr Nm]; subst. cbn [decodes] in Hd. destruct Hd as (_ & Dl & Dr & Dm).
  assert (H0 : incl (putwin arr lo (srCases sr)) arr).
  { intros x Hx. unfold putwin in Hx. rewrite !in_app_iff in Hx. destruct Hx as [Hx|[Hx|Hx]].
    - rewrite <- (firstn_skipn lo arr). apply in_or_app. auto.
    - apply Hc. eapply Permutation_in; [symmetry; exact HP|exact Hx].
    - rewrite <- (firstn_skipn (lo + length (srCases sr)) arr). apply in_or_app. auto. }
  destruct (IHl nl' Nl Dl (putwin arr lo (srCases sr)) lo (lo + length (srL sr)) (S depth) st0) as [E1 P1]; [eapply usable_incl; eauto|].
  rewrite E1. destruct (Recurse r fm nl (putwin arr lo (srCases sr)) lo (lo + length (srL sr)) (S depth) st0) as [[arr1 st1]| |]; cbn [bind]; try (split; [reflexivity|intros ? HX; discriminate HX]).
  specialize (P1 _ eq_refl). cbn beta iota in P1. assert (I1 : incl arr1 arr) by (eapply incl_tran; eauto).
  destruct (IHr nr' Nr Dr arr1 (lo + length (srL sr) + length (srM sr)) hi (S depth) st1) as [E2 P2]; [eapply usable_incl; eauto|].
  rewrite E2. destruct (Recurse r fm nr arr1 (lo + length (srL sr) + length (srM sr)) hi (S depth) st1) as [[arr2 st2]| |]; cbn [bind]; try (split; [reflexivity|intros ? HX; discriminate HX]).
  specialize (P2 _ eq_refl). cbn beta iota in P2. assert (I2 : incl arr2 arr) by (eapply incl_tran; eauto).
  rewrite (proj2 (proj2 (reread_leaf _ _ Nm))).
  destruct ((0 <? length (srM sr)) && negb (isNil nm)).
  - destruct (IHm nm' Nm Dm arr2 (lo + length (srL sr)) (lo + length (srL sr) + length (srM sr)) (S depth) st2) as [E3 P3]; [eapply usable_incl; eauto|].
    split; [exact E3|]. intros [a s] HX. specialize (P3 _ HX). cbn beta iota in P3. eapply incl_tran; eauto.
  - split; [reflexivity|intros ? HX; inversion HX; subst; exact I2].
Qed.

(** ** Without its codes a tree votes as with them. *)
Theorem C128_votes_without_codes : forall fm n n' tw cases bb,
  decodes fm n -> usable fm cases n -> reread n n' ->
  VoteCases fm n' tw cases bb = VoteCases fm n tw cases bb.
Proof.
  intros fm n n' tw cases bb Hd Hu Hr. unfold VoteCases. apply Recurse_reread; auto.
  intros m m' lo hi cs depth st Hm. cbn [vNode vCases]. destruct (reread_leaf m m' Hm) as (-> & -> & _). reflexivity.
Qed.
Print Assumptions C128_votes_without_codes.

(** StripCodes (as before test data is voted on) gives such a tree. *)
Corollary C128_strip_codes : forall fm n tw cases bb, n <> Nil -> decodes fm n -> usable fm cases n ->
  (forall d s, In d (nodes_of n) -> dSpl d = Some s -> NoDup (sLeft s)) ->
  exists n', StripCodes n = Ok n' /\ VoteCases fm n' tw cases bb = VoteCases fm n tw cases bb.
Proof.
  intros fm n tw cases bb Hn Hd Hu Hnd. set (c := fun d (u : unit) =>
    (if isCNil (dCode d) then d else mkNd CNil (dFeat d) (dPred d) (dSpl d), u)).
  exists (fst (climb c n tt)). split.
  - unfold StripCodes, Climb. destruct n; [congruence|]. fold c. destruct (climb c _ tt); auto.
  - apply C128_votes_without_codes; auto. clear Hn Hd Hu. induction n as [|d l IHl r IHr m IHm]; [constructor|].
    cbn [climb]. destruct (c d tt) as [d' []] eqn:Ec.
    destruct (climb c l tt) as [l' []]. destruct (climb c r tt) as [r' []]. destruct (climb c m tt) as [m' []]. cbn [fst] in *.
    assert (Hs : same_splitter (dSpl d) (dSpl d)).
    { destruct (dSpl d) as [s|] eqn:Es; cbn; auto. split; auto. split; auto. destruct (sNumerical s); auto. split; [apply (Hnd d s); auto; left; reflexivity|tauto]. }
    constructor.
    + unfold c in Ec. destruct (isCNil (dCode d)); inversion Ec; reflexivity.
    + unfold c in Ec. destruct (dCode d) eqn:Ed; cbn in Ec; inversion Ec; subst; cbn; auto.
    + unfold c in Ec. destruct (isCNil (dCode d)); inversion Ec; subst; cbn [dSpl]; exact Hs.
    + apply IHl. intros x s Hx. apply Hnd. cbn [nodes_of]. right. rewrite !in_app_iff. auto.
    + apply IHr. intros x s Hx. apply Hnd. cbn [nodes_of]. right. rewrite !in_app_iff. auto.
    + apply IHm. intros x s Hx. apply Hnd. cbn [nodes_of]. right. rewrite !in_app_iff. auto.
Qed.

(** ** The tree a file was read into *)
(** The heap of the reader seen as a tree; Featurei and CodedSplit are zero values. *)
Inductive is_read (h : list hnode) : option nat -> node -> Prop :=
| is_read_nil : is_read h None Nil
| is_read_node k x l r m : nth_error h k = Some x ->
    is_read h (hL x) l -> is_read h (hR x) r -> is_read h (hM x) m ->
    is_read h (Some k) (Node (mkNd CNil 0 (hPred x) (hSpl x)) l r m).
Lemma holds_read h k n : holds h k n -> exists n', is_read h k n' /\ reread n n'.
Proof.
  induction 1 as [|k x d l r m Hx Hp Hs Hl (l' & L1 & L2) Hr (r' & R1 & R2) Hm (m' & M1 & M2)].
  - exists Nil. split; constructor.
  - exists (Node (mkNd CNil 0 (hPred x) (hSpl x)) l' r' m'). split; [constructor; auto|]. constructor; auto.
Qed.

(** A forest file, read, gives the votes of the trees it was written from. *)
Theorem C128_files_vote_as_grown : forall fmtF itoa ord PF f fm cases,
  (forall i p l, Permutation (ord i p l) l) -> numbers_ok fmtF PF itoa -> forest_ok f ->
  Forall (fun t => weight_ok (wtWeight t) /\ no_missing_branch (wtRoot t) /\ leaves_bare (wtRoot t) /\
    decodes fm (wtRoot t) /\ usable fm cases (wtRoot t)) (wfTrees f) ->
  exists out r, WriteForest fmtF itoa ord f = Ok out /\ ReadForest PF out = Ok (Some r, ENone, []) /\
    Forall2 (fun r t => exists n', is_read (rtHeap r) (rtRoot r) n' /\
      forall bb, VoteCases fm n' (rtWeight r) cases bb = VoteCases fm (wtRoot t) (wtWeight t) cases bb) (rfTrees r) (wfTrees f).
Proof.
  intros fmtF itoa ord PF f fm cases Hord Hnum Hf Hw.
  destruct (C52_forest_files_round_trip fmtF itoa ord PF f Hord Hnum Hf) as (out & r & E1 & E2 & _ & _ & E5).
  { eapply Forall_impl; [|exact Hw]. cbn beta. tauto. }
  exists out, r. split; [exact E1|]. split; [exact E2|]. revert E5 Hw. clear. generalize (rfTrees r) (wfTrees f).
  intros rs ts H. induction H as [|x t rs ts (_ & Ew & k & Ek & Hh & _) H IH]; intros Hw; constructor.
  - apply Forall_inv in Hw as (_ & _ & _ & Hd & Hu). destruct (holds_read _ _ _ Hh) as (n' & R1 & R2). exists n'. rewrite Ek. split; [exact R1|].
    intros bb. rewrite Ew. apply C128_votes_without_codes; auto.
  - apply IH. apply Forall_inv_tail in Hw. exact Hw.
Qed.
Print Assumptions C128_files_vote_as_grown.

(** ** Grown trees *)
Section Grown.
  Variable A : arith.
  Variable St : Type.
  Variable T : target A St.
  Variable predict : list nat -> res string.
  Variable rnd : nat -> nat.
  Variable K : Type.
  Variable kCopyFrom : K -> K.
  Variable kShuffleCases : (nat -> nat) -> list nat -> K -> res K.
  Variable kTarget : K -> target A St.
  Variable p : params.
  Local Notation Grow := (Grow A St T predict rnd K kCopyFrom kShuffleCases kTarget).
  Local Notation growable := (growable A St T predict K kCopyFrom kShuffleCases kTarget p).
  Local Notation grown := (grown A St T predict rnd K kCopyFrom kShuffleCases kTarget p).

  Lemma name_back fm i f : names_ok fm -> NoDup (map fName (fmData fm)) -> nth_error (fmData fm) i = Some f -> assoc (fName f) (fmMap fm) = Some i.
  Proof.
    intros [H1 H2] Hnd Hi. destruct (H2 f (nth_error_In _ _ Hi)) as [k Ek]. destruct (H1 _ _ Ek) as (h & Eh & Hn).
    assert (k = i); [|congruence]. eapply NoDup_nth_error; [exact Hnd|rewrite map_length; apply nth_error_Some; congruence|].
    rewrite !nth_error_map, Eh, Hi. cbn. congruence.
  Qed.

  Lemma grown_decodes fm cans0 : fmData fm = pData p -> names_ok fm -> NoDup (map fName (fmData fm)) ->
    (forall i f, In i cans0 -> nth_error (pData p) i = Some f -> names_distinct f) ->
    forall n depth cases us, grown cans0 depth cases n us -> decodes fm n /\ leaves_bare n /\ (pSplitMissing p = false -> no_missing_branch n).
  Proof.
    intros Efm Hok Hnd Hnames. induction n as [|d l IHl r IHr m IHm]; intros depth cases us H; [destruct H|].
    cbn [GrownSpec.grown] in H. destruct (terminal d) eqn:Ht.
    { destruct H as (-> & -> & -> & _). cbn. rewrite Ht. repeat split; auto. }
    destruct H as (f & dec & ul & ur & um & H0 & H1 & H2 & (s & H3 & H3') & _ & _ & _ & _ & _ & Hl & Hr & Hm & _).
    destruct (IHl _ _ _ Hl) as (L1 & L2 & L3). destruct (IHr _ _ _ Hr) as (R1 & R2 & R3).
    assert (M : decodes fm m /\ leaves_bare m /\ (pSplitMissing p = false -> m = Nil)).
    { destruct (pSplitMissing p); cbn [andb] in Hm.
      - destruct (negb (length (to_missing f cases) =? 0)).
        + destruct (IHm _ _ _ Hm) as (M1 & M2 & _). repeat split; auto. discriminate.
        + destruct Hm as [-> _]. cbn. repeat split; auto; try discriminate.
      - destruct Hm as [-> _]. cbn. auto. }
    destruct M as (M1 & M2 & M3). split; [|split].
    - cbn [decodes]. split; [|auto]. right. exists f, s. rewrite Efm. repeat split; auto; [eapply Hnames; eauto|].
      assert (En : sFeature s = fName f).
      { destruct f as [f|f]; cbn in H3' |- *; [unfold nDecodeSplit in H3'; destruct (dCode d); inversion H3'; reflexivity|inversion H3'; reflexivity]. }
      rewrite En. apply name_back; auto. rewrite Efm. exact H1.
    - cbn [leaves_bare]. split; [congruence|auto].
    - intros E. cbn [no_missing_branch]. auto.
  Qed.

  (** A grown tree without its codes gives the training cases, and any others the features
      have, the votes of the grown tree. *)
Theorem C128_grown_trees : forall ok ready kok cases g fm,
    growable ok ready kok cases g -> fmData fm = pData p -> names_ok fm -> NoDup (map fName (fmData fm)) ->
    (forall i f, In i (gCans g) -> nth_error (pData p) i = Some f -> names_distinct f) ->
    forall fuel n g', length cases < fuel -> Grow fuel p newNode cases g = Ok (n, g') ->
    decodes fm n /\ leaves_bare n /\ (pSplitMissing p = false -> no_missing_branch n) /\
    forall n' tw cases' bb, reread n n' ->
      (forall i f, In i (gCans g) -> nth_error (pData p) i = Some f -> flag_sound f /\ Forall (has_case f) cases') ->
      VoteCases fm n' tw cases' bb = VoteCases fm n tw cases' bb.
  Proof.
    intros ok ready kok cases g fm Hg Efm Hok Hnd Hnames fuel n g' Hf E.
    destruct (growth A St T predict rnd K kCopyFrom kShuffleCases kTarget p ok ready kok cases g Hg) as (n1 & g2 & us & En & G & _).
    rewrite (En fuel Hf) in E. injection E as -> ->.
    destruct (grown_decodes fm (gCans g) Efm Hok Hnd Hnames n 0 cases us G) as (D1 & D2 & D3).
    split; [exact D1|]. split; [exact D2|]. split; [exact D3|]. intros n' tw cases' bb Hr Hc. apply C128_votes_without_codes; auto.
    eapply (grown_usable A St T predict rnd K kCopyFrom kShuffleCases kTarget p (gCans g) fm cases' Efm); [exact Hc|exact G].
  Qed.

  (** End to end: the tree read back gives every training case that is known at all the
      splits on its way the prediction of the training cases of its leaf. *)
Theorem C128_training_cases : forall ok ready kok cases g fm,
    growable ok ready kok cases g -> fmData fm = pData p -> names_ok fm -> NoDup (map fName (fmData fm)) ->
    (forall i f, In i (gCans g) -> nth_error (pData p) i = Some f -> names_distinct f) ->
    forall fuel n g' n' tw, length cases < fuel -> Grow fuel p newNode cases g = Ok (n, g') -> reread n n' ->
    exists arr votes, VoteCases fm n' tw cases [] = Ok (arr, votes) /\
      forall c, In c cases -> (pSplitMissing p = true \/ Forall (fun d => turn fm d c <> Some DM) (route fm n c)) ->
      exists q cs pred, follow fm n c = Some q /\ Permutation (filter (ends_at fm n q) cases) cs /\ In c cs /\
        predict cs = Ok pred /\ In (c, pred, if fleb f0 tw then tw else f1) votes.
  Proof.
    intros ok ready kok cases g fm Hg Efm Hok Hnd Hnames fuel n g' n' tw Hf E Hr.
    destruct (C42_leaves_predict_their_cases A St T predict rnd K kCopyFrom kShuffleCases kTarget p ok ready kok cases g fm Hg Efm fuel n g' Hf E)
      as (N1 & N2 & N3 & N4 & N5).
    destruct (C128_grown_trees ok ready kok cases g fm Hg Efm Hok Hnd Hnames fuel n g' Hf E) as (D1 & _).
    destruct (C18_each_case_votes_once fm n tw cases [] N1 N2 N3) as (arr & votes & Ev & _ & Pv).
    exists arr, votes. split; [rewrite (C128_votes_without_codes fm n n' tw cases [] D1 N3 Hr); exact Ev|].
    intros c Hc Hm. destruct (N5 c Hc Hm) as (q & d & l & r & m & F1 & F2 & F3).
    assert (He : In c (filter (ends_at fm n q) cases)).
    { apply filter_In. split; [exact Hc|]. unfold ends_at. rewrite F1. destruct (path_dec q q); congruence. }
    destruct (N4 q d l r m F2 F3) as [(cs & P & Ep)|(_ & _ & E0)]; [|rewrite E0 in He; destruct He].
    exists q, cs, (dPred d). split; [exact F1|]. split; [exact P|]. split; [eapply Permutation_in; eauto|]. split; [exact Ep|].
    eapply Permutation_in; [symmetry; exact Pv|]. unfold due. apply in_flat_map. exists c. split; [exact Hc|]. rewrite F1, F2. cbn. auto.
  Qed.
End Grown.
Print Assumptions C128_grown_trees.
Print Assumptions C128_training_cases.

(** ** Two columns of one name: the file's tree asks the last one. *)
Definition ap_fm : fmatrix :=
  mkFM [FNum (mkNum [f0; f2] [false; false] "N:a" false); FNum (mkNum [f2; f0] [false; false] "N:a" false)] [("N:a", 1); ("N:a", 0)] ["p"; "q"].
Definition ap_tree (code : coded) : node :=
  Node (mkNd code 0 "" (Some (mkSpl "N:a" true f1 []))) (Node (mkNd CNil 0 "x" None) Nil Nil Nil) (Node (mkNd CNil 0 "y" None) Nil Nil Nil) Nil.
Theorem C128_same_names_refuted : names_ok ap_fm /\
  fDecodeSplit (FNum (mkNum [f0; f2] [false; false] "N:a" false)) (CNum f1) = Ok (mkSpl "N:a" true f1 []) /\
  StripCodes (ap_tree (CNum f1)) = Ok (ap_tree CNil) /\
  VoteCases ap_fm (ap_tree (CNum f1)) f1 [0; 1] [] = Ok ([0; 1], [(0, "x", f1); (1, "y", f1)]) /\
  VoteCases ap_fm (ap_tree CNil) f1 [0; 1] [] = Ok ([1; 0], [(1, "x", f1); (0, "y", f1)]).
Proof.
  split; [|split; [reflexivity|split; [reflexivity|split; vm_compute; reflexivity]]].
  apply (PropMatrix.table_names_ok (fmData ap_fm) ["p"; "q"]).
Qed.
Print Assumptions C128_same_names_refuted.

(** ** The hypotheses can be met. *)
Definition ap_ok : fmatrix :=
  mkFM [FNum (mkNum [f0; f2; f1] [false; false; true] "N:a" true);
        FCat (mkCat (mkCM [("b", 1); ("a", 0)] ["a"; "b"]) [0; 1; 0] [false; false; false] "C:k" false false)] [("C:k", 1); ("N:a", 0)] ["p"; "q"; "r"].
Definition ap_grown : node :=
  Node (mkNd (CInt 2) 1 "" (Some (mkSpl "C:k" false f0 ["b"]))) (Node (mkNd CNil 0 "x" None) Nil Nil Nil)
    (Node (mkNd (CNum f1) 0 "" (Some (mkSpl "N:a" true f1 []))) (Node (mkNd CNil 0 "y" None) Nil Nil Nil) (Node (mkNd CNil 0 "z" None) Nil Nil Nil) Nil) Nil.
Example C128_ex : decodes ap_ok ap_grown /\ usable ap_ok [0; 1; 2] ap_grown /\ leaves_bare ap_grown /\ no_missing_branch ap_grown /\
  VoteCases ap_ok ap_grown f1 [0; 1; 2] [] = Ok ([1; 0; 2], [(1, "x", f1); (0, "y", f1)]).
Proof.
  split; [|split; [|split; [|split]]].
  - cbn [decodes ap_grown]. split; [|split; [split; [left; reflexivity|cbn; auto]|split; [split; [|split; [split; [left; reflexivity|cbn; auto]|split; [split; [left; reflexivity|cbn; auto]|exact I]]]|exact I]]].
    + right. exists (column ap_ok 1), (mkSpl "C:k" false f0 ["b"]). repeat split; cbn; auto. repeat constructor; cbn; intuition discriminate.
    + right. exists (column ap_ok 0), (mkSpl "N:a" true f1 []). repeat split; cbn; auto.
  - cbn [usable ap_grown answers dCode dSpl dFeat]. repeat split; auto; try (cbn; lia); try (repeat constructor; cbn; lia).
    + intros c Hc. destruct c as [|[|[|c]]]; cbn in Hc; try discriminate. destruct c; discriminate.
  - cbn. repeat split; auto; discriminate.
  - cbn. repeat split; auto.
  - vm_compute. reflexivity.
Qed.
