(** C136: a jungle in a forest file. *)
From Verif Require Import Go GoLemmas F64 F64Order F64Round ModelFeature ModelSplit SplitSpec SplitProofs ModelTree TreeSpec PropTree PropTree2
  ModelText ModelFile FileSpec PropFile MatrixSpec PropByName
  ModelSearch SearchSpec GrowSpec TotalSearch ModelTargets TargetProofs ModelGrow SplitterProofs Dependable GrownSpec GrowProofs ModelJungle JungleProofs JungleShape
  ModelJungleVote PropGrow PropGrow2 PropJungle PropJungleVote
  PropApplied ModelJungleFile.
Local Open Scope string_scope.
Local Open Scope nat_scope.
Local Open Scope list_scope.

(** ** C136.  The claim in full: a jungle is written to the forest file as if it was a tree; a node with several
    parents is written below each of them.  Read back and applied to the data it was grown from, the file gives
    the votes of the jungle. *)

(** Writing the heap is writing the tree one sees. *)
Lemma write_unfold fmtF ord h i : forall fuel a t, unfold fuel h a = Some t -> forall path,
  HWriteNodeAndChildren fmtF ord fuel h i a path = WriteNodeAndChildren fmtF ord i t path.
Proof.
  induction fuel as [|fuel IH]; intros [a|] t E path; cbn in E; try discriminate; try (injection E as <-; reflexivity).
  destruct (nth_error h a) as [n|] eqn:En; [|discriminate].
  destruct (unfold fuel h (jL n)) as [l|] eqn:E1; [|discriminate]. destruct (unfold fuel h (jR n)) as [r|] eqn:E2; [|discriminate].
  destruct (unfold fuel h (jM n)) as [m|] eqn:E3; [|discriminate]. injection E as <-.
  cbn [HWriteNodeAndChildren WriteNodeAndChildren]. rewrite (get_nth _ _ En). cbn [bind].
  assert (N : forall b x, unfold fuel h b = Some x -> isSome b = negb (isNil x)).
  { intros b x U. apply unfold_unfolds in U. inversion U; reflexivity. }
  rewrite (N _ _ E1), (N _ _ E2), (N _ _ E3), (IH _ _ E1), !(IH _ _ E2). unfold isSome. reflexivity.
Qed.

Section Grown.
  Variable A : arith.
  Variable St : Type.
  Variable T : target A St.
  Variable predict : list nat -> res string.
  Variable rnd : nat -> nat.
  Variable K : Type.
  Variable kCopyFrom : K -> K.
  Variable kShuffleCases : (nat -> nat) -> list nat -> K -> res K.
  Variable kTarget : K -> target A St.
  Variable p : params.
  Local Notation growable := (growable A St T predict K kCopyFrom kShuffleCases kTarget p).
  Local Notation jungle := (GrowJungle A St T predict rnd K kCopyFrom kShuffleCases kTarget p).

  (** What the tree of a grown jungle is, for writing and reading. *)
  Lemma jungle_decodes ok ready kok cases g fm : growable ok ready kok cases g -> fmData fm = pData p ->
    names_ok fm -> NoDup (map fName (fmData fm)) ->
    (forall i f, In i (gCans g) -> nth_error (pData p) i = Some f -> names_distinct f) ->
    exists s t, jungle (S (length cases)) cases g = Ok s /\ unfold (length (sHeap s)) (sHeap s) (Some 0) = Some t /\ t <> Nil /\
      decodes fm t /\ leaves_bare t /\ right_branches t /\ (pSplitMissing p = false -> no_missing_branch t) /\
      forall cs, votable p fm (gCans g) cs -> usable fm cs t.
  Proof.
    intros H Ed Nok Nd Hn. destruct (jungle_shape A St T predict rnd K kCopyFrom kShuffleCases kTarget p ok ready kok cases g H)
      as (s & depth & first & B & E & I & Sh).
    destruct (root_tree _ _ _ _ _ _ _ _ _ _ _ _ _ _ _ _ I Sh) as (t & Et & Nt & G0 & Hh).
    pose proof (unfold_unfolds _ _ _ _ Et) as U.
    exists s, t. split; auto. split; auto. split; auto.
    assert (Q : forall a t, unfolds (sHeap s) a t -> decodes fm t /\ leaves_bare t /\ right_branches t /\ (pSplitMissing p = false -> no_missing_branch t)).
    { clear U Nt Et. induction 1 as [|a n l r m En U1 (L1 & L2 & L3 & L4) U2 (R1 & R2 & R3 & R4) U3 (M1 & M2 & M3 & M4)]; [cbn; auto|].
      pose proof (sh_full _ _ _ _ _ _ _ _ _ _ _ Sh a n En) as F. cbn [decodes leaves_bare right_branches no_missing_branch].
      destruct (dSpl (jD n)) as [spl|] eqn:Ds.
      - destruct F as (F1 & F2 & F3 & Hin & f & Ef & Cf & Dc). split; [|split; [|split]].
        + split; auto. right. exists f, spl. rewrite Ed. repeat split; auto; [eapply Hn; eauto|].
          assert (Nm : sFeature spl = fName f).
          { destruct f as [f|f]; cbn in Dc |- *; [unfold nDecodeSplit in Dc; destruct (dCode (jD n)); inversion Dc; reflexivity|inversion Dc; reflexivity]. }
          rewrite Nm. apply name_back; auto. rewrite Ed. exact Ef.
        + split; [discriminate|auto].
        + split; auto. intros _ Q. subst r. inversion U2. congruence.
        + intros Sm. rewrite Sm in F3. rewrite F3 in U3. inversion U3. auto.
      - destruct F as (F1 & F2 & F3 & F4). rewrite F2 in U1. rewrite F3 in U2. rewrite F4 in U3. inversion U1. inversion U2. inversion U3. subst.
        cbn. repeat split; auto. left. unfold terminal. rewrite F1, Ds. reflexivity. }
    destruct (Q _ _ U) as (Q1 & Q2 & Q3 & Q4). repeat (split; auto). intros cs Hv. eapply tree_usable; eauto.
  Qed.

  (** Writing a grown jungle ends without a panic, with splitmissing or not. *)
Theorem C136_writing_ends : forall ok ready kok cases g fm, growable ok ready kok cases g -> fmData fm = pData p ->
    names_ok fm -> NoDup (map fName (fmData fm)) ->
    (forall i f, In i (gCans g) -> nth_error (pData p) i = Some f -> names_distinct f) ->
    exists s, jungle (S (length cases)) cases g = Ok s /\
      forall fmtF itoa ord target w i, exists out, HWriteTree fmtF itoa ord (mkHW (sHeap s) target w) i = Ok out.
  Proof.
    intros ok ready kok cases g fm H Ed Nok Nd Hn.
    destruct (jungle_decodes ok ready kok cases g fm H Ed Nok Nd Hn) as (s & t & E & U & Nt & _ & _ & R & _).
    exists s. split; auto. intros fmtF itoa ord target w i. unfold HWriteTree. cbn [hwHeap hwTarget hwWeight].
    rewrite (write_unfold _ _ _ _ _ _ _ U). generalize (B "*"). clear -Nt R.
    assert (Q : forall path, exists out, WriteNodeAndChildren fmtF ord i t path = Ok out).
    { induction t as [|d l IHl r IHr m IHm]; [congruence|]. intros path. destruct R as (R1 & R2 & R3). cbn [WriteNodeAndChildren].
      destruct (dSpl d); cbn [andb bind]; [|eauto].
      assert (L : exists wl, (if negb (isNil l) then WriteNodeAndChildren fmtF ord i l (path ++ B "L") else Ok []) = Ok wl).
      { destruct l; cbn [isNil negb]; [eauto|apply IHl; auto; discriminate]. }
      destruct L as (wl & ->). cbn [bind].
      assert (Rr : exists wr, (if negb (isNil r) then WriteNodeAndChildren fmtF ord i r (path ++ B "R") else Ok []) = Ok wr).
      { destruct r; cbn [isNil negb]; [eauto|apply IHr; auto; discriminate]. }
      destruct Rr as (wr & ->). cbn [bind].
      assert (M : exists wm, (if negb (isNil m) then WriteNodeAndChildren fmtF ord i r (path ++ B "M") else Ok []) = Ok wm).
      { destruct m as [|dm lm rm mm]; cbn [isNil negb]; [eauto|]. assert (r <> Nil) by (apply R1; discriminate). apply IHr; auto. }
      destruct M as (wm & ->). cbn [bind]. eauto. }
    intros path. destruct (Q path) as (out & ->). cbn [bind]. eauto.
  Qed.
End Grown.
Print Assumptions C136_writing_ends.

(** A jungle grown without splitmissing, whatever the target, from columns of [fm] that have the cases [cs]. *)
Definition grown_jungle (fm : fmatrix) (cs : list nat) (h : list jnode) : Prop :=
  exists A St T predict rnd K kCopyFrom kShuffleCases kTarget p ok ready kok cases g s,
    growable A St T predict K kCopyFrom kShuffleCases kTarget p ok ready kok cases g /\ pSplitMissing p = false /\
    GrowJungle A St T predict rnd K kCopyFrom kShuffleCases kTarget p (S (length cases)) cases g = Ok s /\ h = sHeap s /\
    votable p fm (gCans g) cs /\ forall i f, In i (gCans g) -> nth_error (pData p) i = Some f -> names_distinct f.
(** The texts of a node can be written and read. *)
Definition text_ok (d : nd) : Prop :=
  clean (B (dPred d)) /\
  match dSpl d with
  | None => True
  | Some s => clean (B (sFeature s)) /\ (sNumerical s = false -> sLeft s <> [] /\ NoDup (sLeft s) /\ Forall category (sLeft s))
  end.
Lemma unfolds_texts h : Forall (fun n => text_ok (jD n)) h -> forall a t, unfolds h a t -> texts_ok t.
Proof.
  intros H. induction 1 as [|a n l r m En U1 IH1 U2 IH2 U3 IH3]; cbn; auto.
  rewrite Forall_forall in H. destruct (H n (nth_error_In _ _ En)) as [Q1 Q2]. auto.
Qed.

(** A forest of jungles: written, read back, each tree casts the votes of its jungle. *)
Theorem C136_files_vote_as_jungles : forall fmtF itoa ord PF fm cs target intercept ts,
  (forall i p l, Permutation (ord i p l) l) -> numbers_ok fmtF PF itoa ->
  names_ok fm -> NoDup (map fName (fmData fm)) ->
  inert (B target) -> (feqb intercept f0 = true -> exists t ts', ts = t :: ts' /\ hwTarget t = target) ->
  Forall (fun t => inert (B (hwTarget t)) /\ weight_ok (hwWeight t) /\ Forall (fun n => text_ok (jD n)) (hwHeap t) /\ grown_jungle fm cs (hwHeap t)) ts ->
  exists out r, HWriteForest fmtF itoa ord target intercept ts = Ok out /\ ReadForest PF out = Ok (Some r, ENone, []) /\
    Forall2 (fun r t => rtTarget r = hwTarget t /\ rtWeight r = hwWeight t /\ exists n', is_read (rtHeap r) (rtRoot r) n' /\
      forall bb, VoteCases fm n' (rtWeight r) cs bb = HVoteCases (length (hwHeap t)) (hwHeap t) fm (hwWeight t) cs bb) (rfTrees r) ts.
Proof.
  intros fmtF itoa ord PF fm cs target intercept ts Hord Hnum Nok Nd Ht H0 Hts.
  assert (W : exists ws, Forall2 (fun t w => wtTarget w = hwTarget t /\ wtWeight w = hwWeight t /\
      unfold (length (hwHeap t)) (hwHeap t) (Some 0) = Some (wtRoot w) /\ wtRoot w <> Nil /\ texts_ok (wtRoot w) /\
      no_missing_branch (wtRoot w) /\ leaves_bare (wtRoot w) /\ decodes fm (wtRoot w) /\ usable fm cs (wtRoot w)) ts ws).
  { clear H0. induction Hts as [|t ts (I1 & I2 & I3 & G) Hts (ws & IH)]; [exists []; constructor|].
    destruct G as (A & St & T & predict & rnd & K & kC & kS & kT & p & ok & ready & kok & cases & g & s & Gr & Sm & Eg & Eh & Hv & Hn).
    pose proof Hv as [Ed _].
    destruct (jungle_decodes A St T predict rnd K kC kS kT p ok ready kok cases g fm Gr Ed Nok Nd Hn) as (s' & n & Eg' & Un & Nn & D1 & D2 & _ & D3 & D4).
    assert (s' = s) by congruence. subst s'. rewrite <- Eh in Un.
    exists (mkWT n (hwTarget t) (hwWeight t) :: ws). constructor; auto. cbn [wtTarget wtWeight wtRoot]. repeat (split; auto).
    eapply unfolds_texts; eauto. eapply unfold_unfolds; eauto. }
  destruct W as (ws & W).
  destruct (C52_forest_files_round_trip fmtF itoa ord PF (mkWF target intercept ws) Hord Hnum) as (out & r & E1 & E2 & _ & _ & E5).
  { split; [exact Ht|]. cbn [wfTarget wfTrees wfIntercept]. split.
    - clear H0. induction W as [|t w ts ws (W1 & W2 & W3 & W4 & W5 & _) W IH]; constructor.
      + apply Forall_inv in Hts. rewrite W1. tauto.
      + apply IH. apply Forall_inv_tail in Hts. auto.
    - intros Q. destruct (H0 Q) as (t & ts' & -> & <-). inversion W as [|? w ? ws' (W1 & _)]; subst. eauto. }
  { cbn [wfTrees]. clear H0. induction W as [|t w ts ws (W1 & W2 & W3 & W4 & W5 & W6 & W7 & _) W IH]; constructor.
    - apply Forall_inv in Hts. rewrite W2. tauto.
    - apply IH. apply Forall_inv_tail in Hts. auto. }
  exists out, r. split; [|split; [exact E2|]].
  - rewrite <- E1. unfold HWriteForest, WriteForest. cbn [wfIntercept wfTrees wfTarget].
    generalize (if feqb intercept f0 then [] else WriteForestHeader fmtF itoa 0 target intercept). generalize 0. clear -W.
    induction W as [|t w ts ws (W1 & W2 & W3 & _) W IH]; intros k o; cbn [length seq combine foreach]; auto.
    unfold HWriteTree at 1, WriteTree at 1. rewrite (write_unfold _ _ _ _ _ _ _ W3), W1, W2.
    destruct (WriteNodeAndChildren fmtF ord k (wtRoot w) (B "*")); cbn [bind]; auto. 
  - cbn [wfTrees] in E5. clear -E5 W. revert ts W. induction E5 as [|x w rs ws (S1 & S2 & k & Ek & Hh & _) E5 IH]; intros ts W; inversion W as [|t ? ts' ? (W1 & W2 & W3 & _ & _ & _ & _ & W8 & W9) W']; subst; constructor.
    + split; [congruence|]. split; [congruence|]. destruct (holds_read _ _ _ Hh) as (n' & R1 & R2). exists n'. rewrite Ek. split; auto.
      intros bb. rewrite (vote_unfold _ _ _ _ _ _ _ W3), <- W2, S2. apply C128_votes_without_codes; auto.
    + apply IH. auto.
Qed.
Print Assumptions C136_files_vote_as_jungles.

(** ** The hypotheses can be met *)
Definition named (name : string) (d : list nat) (miss : list bool) : feature :=
  FCat (mkCat (mkCM [("a", 0); ("b", 1)] ["a"; "b"]) d miss name false true).
(** The tree of a reader's heap, computed. *)
Fixpoint read_tree (fuel : nat) (h : list hnode) (a : option nat) : option node :=
  match a with
  | None => Some Nil
  | Some a =>
      match fuel, nth_error h a with
      | S fuel, Some x =>
          match read_tree fuel h (hL x), read_tree fuel h (hR x), read_tree fuel h (hM x) with
          | Some l, Some r, Some m => Some (Node (mkNd CNil 0 (hPred x) (hSpl x)) l r m)
          | _, _, _ => None
          end
      | _, _ => None
      end
  end.
Lemma read_tree_is fuel h : forall a t, read_tree fuel h a = Some t -> is_read h a t.
Proof.
  induction fuel as [|fuel IH]; intros [a|] t E; cbn in E; try discriminate; try (injection E as <-; constructor).
  destruct (nth_error h a) as [x|] eqn:En; [|discriminate].
  destruct (read_tree fuel h (hL x)) eqn:E1; [|discriminate]. destruct (read_tree fuel h (hR x)) eqn:E2; [|discriminate].
  destruct (read_tree fuel h (hM x)) eqn:E3; [|discriminate]. injection E as <-. constructor; auto.
Qed.
(** The votes of the first tree of the file of a jungle. *)
Definition through_file {A St K} (r : res (jstate A St K)) (fm : fmatrix) (cs : list nat) : option ballots :=
  match r with
  | Ok s =>
      match HWriteForest enc (fun i => repeat "1"%char i) (fun _ _ l => l) "C:y" f0 [mkHW (sHeap s) "C:y" f1] with
      | Ok out =>
          match ReadForest dec out with
          | Ok (Some f, ENone, []) =>
              match rfTrees f with
              | [t] => match read_tree (length (rtHeap t)) (rtHeap t) (rtRoot t) with
                       | Some n => match VoteCases fm n (rtWeight t) cs [] with Ok (_, b) => Some b | _ => None end
                       | None => None
                       end
              | _ => None
              end
          | _ => None
          end
      | _ => None
      end
  | _ => None
  end.
Definition hvotes {A St K} (r : res (jstate A St K)) (fm : fmatrix) (cs : list nat) : option ballots :=
  match r with
  | Ok s => match HVoteCases (length (sHeap s)) (sHeap s) fm f1 cs [] with Ok (_, b) => Some b | _ => None end
  | _ => None
  end.

(** The merged jungle of C73, with names and without splitmissing. *)
Definition fdata : list feature := [named "C:side" jside (map (fun _ => false) jside); named "C:sub" jsub (map (fun _ => false) jsub)].
Definition fp : params := mkP fdata 1 1 false false false false 0 false.
Definition ffm : fmatrix := mkFM fdata [("C:sub", 1); ("C:side", 0)] [].
Local Notation frun := (GrowJungle F64 cst (gini_target F64 jclass) (cFindPredicted (label jclass)) (fun d => if d =? 1 then 1 else 0) unit (fun k => k)
  (fun _ _ k => Ok k) (fun _ => gini_target F64 jclass) fp 21 (seq 0 20) (jstart 20 2)).
Lemma fdata_columns cs i f : Forall (fun c => c < 20) cs -> nth_error fdata i = Some f -> searchable f cs /\ names_distinct f.
Proof.
  intros Hc E. assert (Q : exists name d, f = named name d (map (fun _ => false) d) /\ length d = 20 /\ Forall (fun v => v < 2) d).
  { destruct i as [|[|[|i]]]; [exists "C:side", jside|exists "C:sub", jsub|discriminate..];
      (split; [unfold fdata in E; cbn [nth_error] in E; congruence|]); split; [reflexivity|repeat constructor|reflexivity|repeat constructor]. }
  destruct Q as (name & d & -> & Ld & Hd). split; [|repeat constructor; cbn; intuition discriminate].
  split; [intros c H; reflexivity|]. split; [|exact I].
  eapply Forall_impl; [|exact Hc]. intros c Hin. cbn. rewrite map_length, Ld.
  rewrite Forall_forall in Hd. repeat split; auto. apply Hd, nth_In. rewrite Ld. exact Hin.
Qed.
Definition fheap : list jnode := Eval vm_compute in match frun with Ok s => sHeap s | _ => [] end.
Lemma ex_file_growable :
  growable F64 cst (gini_target F64 jclass) (cFindPredicted (label jclass)) unit (fun k => k) (fun _ _ k => Ok k)
    (fun _ => gini_target F64 jclass) fp (in_data jclass 2) (cst_ready 2) (fun _ => True) (seq 0 20) (jstart 20 2).
Proof.
  constructor; try discriminate; auto.
  - apply gini_dependable.
  - apply sane_F64.
  - apply label_predicts.
  - repeat constructor.
  - cbn; lia.
  - intros i Hi. cbn in Hi. destruct (@get_ok _ fdata i) as (f & _ & Ef); [cbn; lia|]. exists f. split; [exact Ef|].
    split; [|split; [|discriminate]]; [apply (fdata_columns _ i f); auto; apply PropSplitter.upto_cases; lia|].
    destruct i as [|[|i]]; cbn in Ef; [injection Ef as <-; exact I..|destruct i; discriminate].
  - split; cbn; auto; lia.
  - repeat split; cbn; auto.
Qed.
Example ex_jungle_in_file :
  (exists s, frun = Ok s /\ grown_jungle ffm [0; 7; 3; 18; 16] (sHeap s) /\ Forall (fun n => text_ok (jD n)) (sHeap s) /\
    exists a b n m, nth_error (sHeap s) a = Some n /\ nth_error (sHeap s) b = Some m /\ jR n = Some 4 /\ jL m = Some 4) /\
  names_ok ffm /\ NoDup (map fName (fmData ffm)) /\
  through_file frun ffm [0; 7; 3; 18; 16] = Some [(0, "y", f1); (3, "x", f1); (7, "x", f1); (16, "x", f1); (18, "y", f1)].
Proof.
  split; [|split; [|split]].
  - assert (Q : match frun with Ok s => Some (sHeap s) | _ => None end = Some fheap) by (vm_compute; reflexivity).
    destruct frun as [s| |] eqn:E; [|discriminate..]. injection Q as Q. exists s. split; auto. split; [|split].
    + exists F64, cst, (gini_target F64 jclass), (cFindPredicted (label jclass)), (fun d => if d =? 1 then 1 else 0), unit, (fun k => k),
        (fun _ _ k => Ok k), (fun _ => gini_target F64 jclass), fp, (in_data jclass 2), (cst_ready 2), (fun _ => True), (seq 0 20), (jstart 20 2), s.
      split; [|split; [reflexivity|split; [rewrite seq_length; exact E|split; [reflexivity|split; [split; [reflexivity|]|]]]]].
      * apply ex_file_growable.
      * intros i f Hi Ef. clear E. destruct (fdata_columns [0; 7; 3; 18; 16] i f) as ((A1 & A2 & _) & _); auto. repeat constructor.
      * clear E. intros i f Hi Ef. apply (fdata_columns [] i f); auto.
    + rewrite Q. clear. unfold fheap. repeat (apply Forall_cons; [unfold text_ok; cbn [jD dPred dSpl sFeature sNumerical sLeft]; solve_texts; try discriminate|]). apply Forall_nil.
    + rewrite Q. clear. exists 1, 2. eexists _, _. repeat split; reflexivity.
  - apply (PropMatrix.table_names_ok (fmData ffm) []).
  - repeat constructor; cbn; intuition discriminate.
  - vm_compute. reflexivity.
Qed.

(** With splitmissing the cases of the Missing branch vote with the right branch once the jungle was in a file. *)
Definition mclass : list nat := [0; 0; 1; 1; 0; 0].
Definition mdata : list feature := [named "C:k" [0; 0; 1; 1; 0; 0] [false; false; false; false; true; true]].
Definition mp : params := mkP mdata 1 1 false false false false 0 true.
Definition mfm : fmatrix := mkFM mdata [("C:k", 0)] [].
Definition mrun := gini_jungle mclass (fun _ => 0) mp 6 1.
Theorem C136_missing_branches_refuted :
  growable F64 cst (gini_target F64 mclass) (cFindPredicted (label mclass)) unit (fun k => k) (fun _ _ k => Ok k)
    (fun _ => gini_target F64 mclass) mp (in_data mclass 2) (cst_ready 2) (fun _ => True) (seq 0 6) (jstart 6 1) /\
  hvotes mrun mfm [0; 2; 4; 5] = Some [(0, "x", f1); (2, "y", f1); (5, "x", f1); (4, "x", f1)] /\
  through_file mrun mfm [0; 2; 4; 5] = Some [(0, "x", f1); (2, "y", f1); (5, "y", f1); (4, "y", f1)].
Proof.
  split; [|split; vm_compute; reflexivity].
  constructor; try discriminate; auto.
  - apply gini_dependable.
  - apply sane_F64.
  - apply label_predicts.
  - repeat constructor.
  - intros i [<-|[]]. eexists. split; [reflexivity|]. split; [|split; [exact I|discriminate]].
    split; [intros c _; reflexivity|]. split; [|exact I]. repeat constructor.
  - split; cbn; auto.
  - repeat split; cbn; auto.
Qed.
Print Assumptions C136_missing_branches_refuted.
