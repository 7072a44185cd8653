(** C142: applyforest on a forest file gives what the forest gives in memory. *)
From Verif Require Import Go GoLemmas F64 ModelFeature ModelSplit SplitSpec SplitProofs ModelTree TreeSpec TreeProofs PropTree PropTree2 ModelText
  ModelMatrix MatrixSpec ModelFile FileSpec PropFile PropByName ModelSearch SearchSpec GrowSpec ModelGrow GrownSpec GrowProofs PropGrow PropApplied
  ModelBallot ModelCommands ModelCommands2 ModelApply ModelMain FileProofs FileProofs2.
Local Open Scope string_scope.
Local Open Scope nat_scope.
Local Open Scope list_scope.

(** ** Spec *)
(** Every split of the tree is asked of the column it names: either it is coded for this matrix
    (as after growing) or it has no code (as after StripCodes, or read from a file). *)
Definition asks_node (fm : fmatrix) (d : nd) : Prop :=
  terminal d = true \/
  (exists f s, nth_error (fmData fm) (dFeat d) = Some f /\ code_fits f (dCode d) /\ dSpl d = Some s /\ fDecodeSplit f (dCode d) = Ok s /\
     names_distinct f /\ assoc (sFeature s) (fmMap fm) = Some (dFeat d)) \/
  (exists f s, dCode d = CNil /\ dSpl d = Some s /\ fmLookup fm (sFeature s) = Ok f /\ sNumerical s = is_numerical f).
Fixpoint asks (fm : fmatrix) (n : node) : Prop :=
  match n with Nil => True | Node d l r m => asks_node fm d /\ asks fm l /\ asks fm r /\ asks fm m end.

Lemma decodes_asks fm n : decodes fm n -> asks fm n.
Proof. induction n as [|d l IHl r IHr m IHm]; cbn; auto. intros (H & Hl & Hr & Hm). repeat split; auto. unfold asks_node. tauto. Qed.

(** ** Votes *)
Lemma asks_split fm d l r m d' l' r' m' cases : asks_node fm d -> reread (Node d l r m) (Node d' l' r' m') -> answers fm cases d ->
  node_split fm d' cases = node_split fm d cases.
Proof.
  intros [Ht|[Hc|Hs]] Hr Ha.
  - apply (reread_split fm d Nil Nil Nil d' Nil Nil Nil); [cbn; tauto| |exact Ha]. inversion Hr; subst. constructor; auto; constructor.
  - apply (reread_split fm d Nil Nil Nil d' Nil Nil Nil); [cbn; tauto| |exact Ha]. inversion Hr; subst. constructor; auto; constructor.
  - destruct Hs as (f & s & Ec & Es & El & Ek). inversion Hr as [|? ? ? ? ? ? ? ? Hp Hc Hs _ _ _]; subst. rewrite Es in Hs.
    destruct (dSpl d') as [s'|] eqn:Es'; [|destruct Hs]. unfold node_split. rewrite Hc, Ec, Es, Es'. cbn [isCNil negb].
    destruct Hs as (Hn & Hs). unfold splSplit. rewrite Hn, El. cbn [bind]. rewrite (same_splitF f s s'); [|cbn; auto|exact Ek]. reflexivity.
Qed.

Lemma asks_recurse {St} (r : visit -> St -> res St) fm :
  (forall n n' lo hi cs depth st, reread n n' -> r (mkVisit n' lo hi cs depth) st = r (mkVisit n lo hi cs depth) st) ->
  forall n n', reread n n' -> asks fm n -> forall arr lo hi depth st, usable fm arr n ->
  Recurse r fm n' arr lo hi depth st = Recurse r fm n arr lo hi depth st /\
  ifok (Recurse r fm n arr lo hi depth st) (fun '((a, _) : list nat * St) => incl a arr).
Proof.
  intros Hr. induction n as [|d nl IHl nr IHr nm IHm]; intros n' Hn Hd arr lo hi depth st Hu.
  { inversion Hn; subst. split; [reflexivity|intros ? HX; discriminate HX]. }
  destruct n' as [|d' nl' nr' nm']; [inversion Hn|]. cbn [Recurse].
  destruct (slice arr lo hi) as [cases| |] eqn:Es; cbn [bind]; try (split; [reflexivity|intros ? HX; discriminate HX]).
  assert (Hc : incl cases arr).
  { unfold slice in Es. destruct ((lo <=? hi) && (hi <=? length arr)); inversion Es. intros x Hx.
    rewrite <- (firstn_skipn lo arr). apply in_or_app. right.
    rewrite <- (firstn_skipn (hi - lo) (skipn lo arr)). apply in_or_app. left. exact Hx. }
  rewrite (Hr _ _ lo hi cases depth st Hn).
  destruct (r (mkVisit (Node d nl nr nm) lo hi cases depth) st) as [st0| |]; cbn [bind]; try (split; [reflexivity|intros ? HX; discriminate HX]).
  cbn [usable] in Hu. destruct Hu as (Ua & Ul & Ur & Um). cbn [asks] in Hd. destruct Hd as (Hd & Dl & Dr & Dm).
  assert (Uc : answers fm cases d) by (eapply answers_incl; [exact Hc|exact Ua]).
  rewrite (asks_split fm d nl nr nm d' nl' nr' nm' cases Hd Hn Uc).
  pose proof (node_split_ok fm d cases Uc) as Hsp. destruct (test_of fm d) as [[f goes]|].
  2:{ rewrite Hsp. cbn [bind]. split; [reflexivity|intros ? HX; inversion HX; subst; apply incl_refl]. }
  destruct Hsp as (sr & -> & [_ HP _ _ _]). cbn [bind].
  inversion Hn as [|? ? ? ? ? ? ? ? _ _ _ Nl Nr Nm]; subst.
  assert (H0 : incl (putwin arr lo (srCases sr)) arr).
  { intros x Hx. unfold putwin in Hx. rewrite !in_app_iff in Hx. destruct Hx as [Hx|[Hx|Hx]].
    - rewrite <- (firstn_skipn lo arr). apply in_or_app. auto.
    - apply Hc. eapply Permutation_in; [symmetry; exact HP|exact Hx].
    - rewrite <- (firstn_skipn (lo + length (srCases sr)) arr). apply in_or_app. auto. }
  destruct (IHl nl' Nl Dl (putwin arr lo (srCases sr)) lo (lo + length (srL sr)) (S depth) st0) as [E1 P1]; [eapply usable_incl; eauto|].
  rewrite E1. destruct (Recurse r fm nl (putwin arr lo (srCases sr)) lo (lo + length (srL sr)) (S depth) st0) as [[arr1 st1]| |]; cbn [bind]; try (split; [reflexivity|intros ? HX; discriminate HX]).
  specialize (P1 _ eq_refl). cbn beta iota in P1. assert (I1 : incl arr1 arr) by (eapply incl_tran; eauto).
  destruct (IHr nr' Nr Dr arr1 (lo + length (srL sr) + length (srM sr)) hi (S depth) st1) as [E2 P2]; [eapply usable_incl; eauto|].
  rewrite E2. destruct (Recurse r fm nr arr1 (lo + length (srL sr) + length (srM sr)) hi (S depth) st1) as [[arr2 st2]| |]; cbn [bind]; try (split; [reflexivity|intros ? HX; discriminate HX]).
  specialize (P2 _ eq_refl). cbn beta iota in P2. assert (I2 : incl arr2 arr) by (eapply incl_tran; eauto).
  rewrite (proj2 (proj2 (reread_leaf _ _ Nm))).
  destruct ((0 <? length (srM sr)) && negb (isNil nm)).
  - destruct (IHm nm' Nm Dm arr2 (lo + length (srL sr)) (lo + length (srL sr) + length (srM sr)) (S depth) st2) as [E3 P3]; [eapply usable_incl; eauto|].
    split; [exact E3|]. intros [a s] HX. specialize (P3 _ HX). cbn beta iota in P3. eapply incl_tran; eauto.
  - split; [reflexivity|intros ? HX; inversion HX; subst; exact I2].
Qed.
Lemma asks_vote fm n n' tw cases bb : asks fm n -> usable fm cases n -> reread n n' -> VoteCases fm n' tw cases bb = VoteCases fm n tw cases bb.
Proof.
  intros Hd Hu Hr. unfold VoteCases. apply asks_recurse; auto.
  intros m m' lo hi cs depth st Hm. cbn [vNode vCases]. destruct (reread_leaf m m' Hm) as (-> & -> & _). reflexivity.
Qed.

(** ** The pointers of a tree that was read *)
Fixpoint height (n : node) : nat := match n with Nil => 0 | Node _ l r m => S (Nat.max (height l) (Nat.max (height r) (height m))) end.
Lemma read_at h k n : is_read h k n -> forall fuel, height n <= fuel -> tree_at fuel h k = Ok n.
Proof.
  induction 1 as [|k x l r m Hx Hl IHl Hr IHr Hm IHm]; intros fuel Hf; [destruct fuel; reflexivity|].
  cbn [height] in Hf. destruct fuel as [|fuel]; [lia|]. cbn [tree_at]. rewrite (get_nth _ _ Hx). cbn [bind].
  rewrite (IHl fuel), (IHr fuel), (IHm fuel) by lia. reflexivity.
Qed.
Lemma reread_height n n' : reread n n' -> height n' = height n.
Proof. induction 1; cbn; auto. Qed.

(** ** Theorems *)
(** A forest, written and read, put to the data by applyforest: both files and the error are those
    of the forest itself, for every matrix its splits can be asked of, with every setting of the
    flags and in every order the maps of the ballot box are read. *)
Theorem C142_file_as_forest_partial : forall ParseFloat Expit fmtS itoaS Atoi PF fmtF itoa ord f name data fm c0 sum num cat expit preds votes iters,
  (forall i p l, Permutation (ord i p l) l) -> numbers_ok fmtF PF itoa -> forest_ok f -> (feqb (wfIntercept f) f0 = true -> wfIntercept f = f0) ->
  LoadAFM ParseFloat itoaS Atoi name data = Ok (Some fm) -> nth_error (fmData fm) 0 = Some c0 ->
  Forall (fun t => weight_ok (wtWeight t) /\ no_missing_branch (wtRoot t) /\ leaves_bare (wtRoot t) /\
    asks fm (wtRoot t) /\ usable fm (seq 0 (fLength c0)) (wtRoot t)) (wfTrees f) ->
  exists out, WriteForest fmtF itoa ord f = Ok out /\
    forall fuel, Forall (fun t => height (wtRoot t) <= fuel) (wfTrees f) ->
    applyforest_main ParseFloat Expit fmtS itoaS Atoi PF fuel name data out sum num cat expit preds votes iters =
    applyforest ParseFloat Expit fmtS fm sum num cat expit preds votes (wfTarget f) (wfIntercept f)
      (map (fun t => (wtRoot t, wtWeight t)) (wfTrees f)) iters.
Proof.
  intros ParseFloat Expit fmtS itoaS Atoi PF fmtF itoa ord f name data fm c0 sum num cat expit preds votes iters Hord Hnum Hf H0 Hload Hc0 Hw.
  destruct (C52_forest_files_round_trip fmtF itoa ord PF f Hord Hnum Hf) as (out & r & E1 & E2 & E3 & E4 & E5).
  { eapply Forall_impl; [|exact Hw]. cbn beta. tauto. }
  exists out. split; [exact E1|]. intros fuel Hfuel. unfold applyforest_main. rewrite Hload. cbn [bind]. rewrite E2. cbn [bind].
  assert (Ei : rfIntercept r = wfIntercept f) by (destruct E4 as [E4|[Ez E4]]; [exact E4|rewrite E4; symmetry; auto]).
  assert (G : exists ts, foreach (rfTrees r) (fun t ts => let* n := tree_at fuel (rtHeap t) (rtRoot t) in Ok (ts ++ [(n, rtWeight t)])) [] = Ok ts /\
    Forall2 (fun t' t => snd t' = wtWeight t /\ reread (wtRoot t) (fst t')) ts (wfTrees f)).
  { enough (G : forall acc, exists ts, foreach (rfTrees r) (fun t ts => let* n := tree_at fuel (rtHeap t) (rtRoot t) in Ok (ts ++ [(n, rtWeight t)])) acc = Ok (acc ++ ts) /\
      Forall2 (fun t' t => snd t' = wtWeight t /\ reread (wtRoot t) (fst t')) ts (wfTrees f)) by (destruct (G []) as (ts & X & Y); exists ts; auto).
    clear - E5 Hfuel. revert Hfuel. induction E5 as [|x t rs ts (_ & Ew & k & Ek & Hh & _) H IH]; intros Hfuel acc.
    - exists []. rewrite app_nil_r. split; [reflexivity|constructor].
    - apply Forall_cons_iff in Hfuel as [F1 F2]. destruct (holds_read _ _ _ Hh) as (n' & R1 & R2). cbn [foreach]. rewrite Ek.
      rewrite (read_at _ _ _ R1) by (rewrite (reread_height _ _ R2); exact F1). cbn [bind]. destruct (IH F2 (acc ++ [(n', rtWeight x)])) as (ts' & X & Y).
      exists ((n', rtWeight x) :: ts'). split; [rewrite X, <- app_assoc; reflexivity|]. constructor; [split; [exact Ew|exact R2]|exact Y]. }
  destruct G as (ts & Ets & Hts). rewrite Ets. cbn [bind]. rewrite E3, Ei.
  assert (Ev : forest_votes fm ts = forest_votes fm (map (fun t => (wtRoot t, wtWeight t)) (wfTrees f))).
  { unfold forest_votes. generalize (@nil (nat * string * f64)). revert Hw. clear - Hts Hc0. induction Hts as [|[n' w'] t ts' ws [Ew Hr] H IH]; intros Hw bb; [reflexivity|].
    apply Forall_cons_iff in Hw as [(_ & _ & _ & Ha & Hu) Hw]. cbn [map foreach fst snd] in *. subst w'.
    assert (Et : TreeVote fm n' (wtWeight t) bb = TreeVote fm (wtRoot t) (wtWeight t) bb).
    { unfold TreeVote, allcases. rewrite (get_nth _ _ Hc0). cbn [bind]. apply asks_vote; auto. }
    rewrite Et. destruct (TreeVote fm (wtRoot t) (wtWeight t) bb) as [[arr bb']| |]; cbn [bind]; auto. }
  unfold applyforest. rewrite Ev. reflexivity.
Qed.
Print Assumptions C142_file_as_forest_partial.

(** A tree grown on the columns of [fm], whose candidates know all [n] cases. *)
Definition grown_on (fm : fmatrix) (n : nat) (t : node) : Prop :=
  exists (A : arith) (St : Type) (T : target A St) predict rnd (K : Type) kCopyFrom kShuffleCases kTarget p ok ready kok cases (g : gstate A St K) fuel g',
    growable A St T predict K kCopyFrom kShuffleCases kTarget p ok ready kok cases g /\ fmData fm = pData p /\ pSplitMissing p = false /\
    (forall i f, In i (gCans g) -> nth_error (pData p) i = Some f -> names_distinct f /\ flag_sound f /\ Forall (has_case f) (seq 0 n)) /\
    length cases < fuel /\ Grow A St T predict rnd K kCopyFrom kShuffleCases kTarget fuel p newNode cases g = Ok (t, g').

(** The forest of growforest, through its file and applyforest, on the data it was grown from. *)
Theorem C142_grown_forest_partial : forall ParseFloat Expit fmtS itoaS Atoi PF fmtF itoa ord f name data fm c0 sum num cat expit preds votes iters,
  (forall i p l, Permutation (ord i p l) l) -> numbers_ok fmtF PF itoa -> forest_ok f -> (feqb (wfIntercept f) f0 = true -> wfIntercept f = f0) ->
  LoadAFM ParseFloat itoaS Atoi name data = Ok (Some fm) -> nth_error (fmData fm) 0 = Some c0 -> names_ok fm -> NoDup (map fName (fmData fm)) ->
  Forall (fun t => weight_ok (wtWeight t) /\ grown_on fm (fLength c0) (wtRoot t)) (wfTrees f) ->
  exists out, WriteForest fmtF itoa ord f = Ok out /\
    forall fuel, Forall (fun t => height (wtRoot t) <= fuel) (wfTrees f) ->
    applyforest_main ParseFloat Expit fmtS itoaS Atoi PF fuel name data out sum num cat expit preds votes iters =
    applyforest ParseFloat Expit fmtS fm sum num cat expit preds votes (wfTarget f) (wfIntercept f)
      (map (fun t => (wtRoot t, wtWeight t)) (wfTrees f)) iters.
Proof.
  intros ParseFloat Expit fmtS itoaS Atoi PF fmtF itoa ord f name data fm c0 sum num cat expit preds votes iters Hord Hnum Hf H0 Hload Hc0 Hok Hnd Hw.
  apply (C142_file_as_forest_partial ParseFloat Expit fmtS itoaS Atoi PF fmtF itoa ord f name data fm c0); auto.
  eapply Forall_impl; [|exact Hw]. intros t (Ht & A & St & T & predict & rnd & K & kC & kS & kT & p & ok & ready & kok & cases & g & fuel & g' & Hg & Efm & Hm & Hc & Hfuel & E).
  destruct (C128_grown_trees A St T predict rnd K kC kS kT p ok ready kok cases g fm Hg Efm Hok Hnd (fun i f H1 H2 => proj1 (Hc i f H1 H2)) fuel (wtRoot t) g' Hfuel E) as (D1 & D2 & D3 & _).
  split; [exact Ht|]. split; [apply D3, Hm|]. split; [exact D2|]. split; [apply decodes_asks, D1|].
  destruct (growth A St T predict rnd K kC kS kT p ok ready kok cases g Hg) as (n1 & g2 & us & En & G & _).
  rewrite (En fuel Hfuel) in E. injection E as En1 En2. rewrite <- En1. eapply (grown_usable A St T predict rnd K kC kS kT p (gCans g) fm); [exact Efm| |exact G].
  intros i h H1 H2. apply (Hc i h H1 H2).
Qed.
Print Assumptions C142_grown_forest_partial.

(** ** Not with Missing branches: the file gives absent values the answer of the right branch. *)
Definition mn_float (s : string) : option f64 := if String.eqb s "0" then Some f0 else if String.eqb s "2" then Some f2 else None.
Definition mn_itoa (i : nat) : string := "".
Definition mn_data : file := FPlain (tsv_line ["."; "p"; "q"; "r"] ++ tsv_line ["N:size"; "0"; "2"; "NA"] ++ tsv_line ["C:y"; "low"; "high"; "unknown"]).
Definition mn_fm : fmatrix := match LoadAFM mn_float mn_itoa (fun _ => None) "a.tsv" mn_data with Ok (Some fm) => fm | _ => mkFM [] [] [] end.
Definition mn_forest (missing : node) : wforest :=
  mkWF "C:y" f0 [mkWT (Node (mkNd CNil 0 "" (Some (mkSpl "N:size" true f1 []))) (leaf "low") (leaf "high") missing) "C:y" (fneg f1)].
(** The maps of the ballot box the forest leaves, read in the order they were filled. *)
Definition mn_iters (trees : list (node * f64)) (i : nat) : ballot F64 :=
  match (let* cast := forest_votes mn_fm trees in box_votes F64 mn_float (apply_box F64 false false true "C:y" 3) cast) with
  | Ok (BCat bb) => nth i (cbBox bb) [] | _ => [] end.
(** The file of predictions: by way of the forest file, and of the forest in memory. *)
Definition mn_file (f : wforest) : bytes := match WriteForest enc (fun i => repeat "1"%char i) ex_ord f with Ok out => out | _ => [] end.
Definition mn_read (f : wforest) : list (node * f64) :=
  match ReadForest dec (mn_file f) with
  | Ok (Some r, ENone, _) => flat_map (fun t => match tree_at 9 (rtHeap t) (rtRoot t) with Ok n => [(n, rtWeight t)] | _ => [] end) (rfTrees r)
  | _ => [] end.
Definition mn_trees (f : wforest) : list (node * f64) := map (fun t => (wtRoot t, wtWeight t)) (wfTrees f).
Definition by_file (f : wforest) : option bytes :=
  match applyforest_main mn_float (fun x => x) (fun _ => "") mn_itoa (fun _ => None) dec 9 "a.tsv" mn_data (mn_file f) false false true false true false
          (mn_iters (mn_read f)) with
  | Ok (Some o) => Some (oPreds o) | _ => None end.
Definition in_memory (f : wforest) : option bytes :=
  match applyforest mn_float (fun x => x) (fun _ => "") mn_fm false false true false true false (wfTarget f) (wfIntercept f) (mn_trees f) (mn_iters (mn_trees f)) with
  | Ok (Some o) => Some (oPreds o) | _ => None end.
Theorem C142_missing_branch_refuted : let f := mn_forest (leaf "unknown") in
  forest_ok f /\ Forall (fun t => weight_ok (wtWeight t) /\ leaves_bare (wtRoot t) /\ asks mn_fm (wtRoot t)) (wfTrees f) /\
  in_memory f = Some (tsv_line ["p"; "low"; "low"] ++ tsv_line ["q"; "high"; "high"] ++ tsv_line ["r"; "unknown"; "unknown"]) /\
  by_file f = Some (tsv_line ["p"; "low"; "low"] ++ tsv_line ["q"; "high"; "high"] ++ tsv_line ["r"; "high"; "unknown"]).
Proof.
  split; [|split; [|split; vm_compute; reflexivity]].
  - split; [apply inertb_ok; reflexivity|]. split; [cbn; solve_texts; try discriminate|].
    intros _. eexists. eexists. split; reflexivity.
  - constructor; [|constructor]. split; [right; reflexivity|]. split; [cbn; repeat split; auto; discriminate|].
    cbn [mn_forest wfTrees wtRoot asks leaf]. split; [right; right|repeat split; auto; left; reflexivity].
    exists (column mn_fm 0), (mkSpl "N:size" true f1 []). repeat split; vm_compute; reflexivity.
Qed.
Print Assumptions C142_missing_branch_refuted.

(** ** Example: a forest without Missing branches, in its file and in memory. *)
Example C142_example : let f := mn_forest Nil in
  LoadAFM mn_float mn_itoa (fun _ => None) "a.tsv" mn_data = Ok (Some mn_fm) /\ forest_ok f /\
  Forall (fun t => weight_ok (wtWeight t) /\ no_missing_branch (wtRoot t) /\ leaves_bare (wtRoot t) /\ asks mn_fm (wtRoot t) /\ usable mn_fm (seq 0 3) (wtRoot t)) (wfTrees f) /\
  by_file f = Some (tsv_line ["p"; "low"; "low"] ++ tsv_line ["q"; "high"; "high"] ++ tsv_line ["r"; "NA"; "unknown"]) /\ in_memory f = by_file f.
Proof.
  split; [vm_compute; reflexivity|]. split; [|split; [|split; vm_compute; reflexivity]].
  - split; [apply inertb_ok; reflexivity|]. split; [cbn; solve_texts; try discriminate|].
    intros _. eexists. eexists. split; reflexivity.
  - constructor; [|constructor]. split; [right; reflexivity|]. split; [cbn; repeat split; auto|]. split; [cbn; repeat split; auto; discriminate|].
    cbn [mn_forest wfTrees wtRoot asks leaf]. split; [split; [right; right|repeat split; auto; left; reflexivity]|].
    + exists (column mn_fm 0), (mkSpl "N:size" true f1 []). repeat split; vm_compute; reflexivity.
    + cbn [usable answers dCode dSpl]. split; [|repeat split; auto]. split; [vm_compute; lia|].
      replace (column mn_fm (fmIndex mn_fm (sFeature (mkSpl "N:size" true f1 [])))) with (FNum (mkNum [f0; f2; f0] [false; false; true] "N:size" true)) by (vm_compute; reflexivity).
      split; [intros c Hc; reflexivity|]. repeat constructor; cbn; lia.
Qed.
