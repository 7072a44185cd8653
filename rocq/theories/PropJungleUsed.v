(** C135: growing a jungle on a used tree, as growforest does.

    As stated (the old nodes make no difference) this is false when the new jungle is a single leaf: the
    root keeps its old children, is taken for a split when votes are cast, and no case gets a vote.  In all other
    cases the new jungle is the one grown on a new tree, at other addresses. *)
From Verif Require Import Go GoLemmas F64 F64Order F64Round ModelFeature ModelSplit SplitSpec SplitProofs ModelTree TreeSpec
  ModelSearch SearchSpec GrowSpec TotalSearch ModelTargets TargetProofs ModelGrow SplitterProofs Dependable GrownSpec
  GrowProofs ModelJungle ModelJungleUsed JungleProofs JungleShape ModelJungleVote OrderProofs JungleUsed PropGrow PropGrow2 PropTree PropJungle PropJungleVote.
Local Open Scope string_scope.
Local Open Scope nat_scope.
Local Open Scope list_scope.

Lemma hrel_nth rest h h' a n : hrel rest h h' -> nth_error h a = Some n -> nth_error h' (ren (length rest) a) = Some (renN (length rest) n).
Proof.
  intros H E. destruct (hrel_get rest h h' a H n) as (n' & E' & ->); [unfold get; rewrite E; reflexivity|].
  unfold get in E'. destruct (nth_error h' (ren (length rest) a)); [congruence|discriminate].
Qed.
Lemma unfold_ren rest h h' : hrel rest h h' -> forall fuel a t, unfold fuel h a = Some t ->
  unfold fuel h' (option_map (ren (length rest)) a) = Some t.
Proof.
  intros H. induction fuel as [|fuel IH]; intros [a|] t E; cbn in E |- *; auto; try discriminate.
  destruct (nth_error h a) as [n|] eqn:En; [|discriminate]. rewrite (hrel_nth _ _ _ _ _ H En).
  destruct (unfold fuel h (jL n)) eqn:E1; [|discriminate]. destruct (unfold fuel h (jR n)) eqn:E2; [|discriminate].
  destruct (unfold fuel h (jM n)) eqn:E3; [|discriminate]. cbn [renN jL jR jM jD].
  rewrite (IH _ _ E1), (IH _ _ E2), (IH _ _ E3). exact E.
Qed.

Section Used.
  Variable A : arith.
  Variable St : Type.
  Variable T : target A St.
  Variable predict : list nat -> res string.
  Variable rnd : nat -> nat.
  Variable K : Type.
  Variable kCopyFrom : K -> K.
  Variable kShuffleCases : (nat -> nat) -> list nat -> K -> res K.
  Variable kTarget : K -> target A St.
  Variable p : params.

  Local Notation growable := (growable A St T predict K kCopyFrom kShuffleCases kTarget p).
  Local Notation jungle := (GrowJungle A St T predict rnd K kCopyFrom kShuffleCases kTarget p).
  Local Notation jungle_on := (GrowJungleOn A St T predict rnd K kCopyFrom kShuffleCases kTarget p).

(** Whatever nodes are left from before: the same cases in the same places, the same allocations, importance and
    depths.  If the jungle has more than its root, it unfolds to the same tree and every call of VoteCases gives the same
    result; also if the root had no children.  (Without splitmissing, the old root must have had no Missing branch; as in growforest, where
    splitmissing does not change.) *)
Theorem C135_used_tree : forall ok ready kok cases g root rest, growable ok ready kok cases g ->
  pSplitMissing p = true \/ jM root = None ->
  exists s s', jungle (S (length cases)) cases g = Ok s /\ jungle_on (root :: rest) (S (length cases)) cases g = Ok s' /\
    sCases s' = sCases s /\ sG s' = sG s /\ map (fun e => (eStart e, eEnd e, eDead e)) (sNodes s') = map (fun e => (eStart e, eEnd e, eDead e)) (sNodes s) /\
    (1 < length (sHeap s) ->
       (exists t, unfold (length (sHeap s)) (sHeap s) (Some 0) = Some t /\ unfold (length (sHeap s)) (sHeap s') (Some 0) = Some t) /\
       forall fm tw cs bb, HVoteCases (length (sHeap s)) (sHeap s') fm tw cs bb = HVoteCases (length (sHeap s)) (sHeap s) fm tw cs bb) /\
    (jL root = None -> jR root = None ->
       forall fm tw cs bb, HVoteCases (length (sHeap s)) (sHeap s') fm tw cs bb = HVoteCases (length (sHeap s)) (sHeap s) fm tw cs bb).
Proof.
  intros ok ready kok cases g root rest H Hm.
  destruct (jungle_shape A St T predict rnd K kCopyFrom kShuffleCases kTarget p ok ready kok cases g H) as (s & depth & first & B & E & I & Sh).
  destruct (used_rel A St T predict rnd K kCopyFrom kShuffleCases kTarget p root rest (S (length cases)) cases g Hm s E) as (s' & E' & R).
  exists s, s'. split; auto. split; auto.
  destruct (root_tree _ _ _ _ _ _ _ _ _ _ _ _ _ _ _ _ I Sh) as (t & Et & _).
  destruct R as [(R1 & R2 & R3 & R4)|(pr & L1 & L2 & L3 & L4 & L5)].
  - assert (Et' : unfold (length (sHeap s)) (sHeap s') (Some 0) = Some t) by (apply (unfold_ren _ _ _ R1 _ (Some 0)); exact Et).
    assert (Same : forall fm tw cs bb, HVoteCases (length (sHeap s)) (sHeap s') fm tw cs bb = HVoteCases (length (sHeap s)) (sHeap s) fm tw cs bb).
    { intros fm tw cs bb. rewrite (vote_unfold _ _ _ _ _ _ _ Et), (vote_unfold _ _ _ _ _ _ _ Et'). reflexivity. }
    split; auto. split; auto. split; [rewrite R2, map_map; reflexivity|]. split; eauto.
  - split; auto. split; auto. split; [rewrite L3; reflexivity|]. rewrite L1, L2. cbn [length]. split; [lia|].
    intros Q1 Q2 fm tw cs bb. unfold HVoteCases. rewrite Q1, Q2. cbn [HRecurse get nth_error bind jL jR jD dPred].
    destruct (slice cs 0 (length cs)); cbn [bind]; auto.
Qed.

(** A jungle that is a single leaf, grown on a tree whose root had children, casts no vote at all: every such run. *)
Theorem C135_no_votes_refuted : forall ok ready kok cases g root rest, growable ok ready kok cases g ->
  pSplitMissing p = true \/ jM root = None -> jL root <> None ->
  exists s s', jungle (S (length cases)) cases g = Ok s /\ jungle_on (root :: rest) (S (length cases)) cases g = Ok s' /\
    (length (sHeap s) = 1 -> forall fm tw cs bb fuel, HVoteCases (S fuel) (sHeap s') fm tw cs bb = Ok (cs, bb)).
Proof.
  intros ok ready kok cases g root rest H Hm Hl.
  destruct (jungle_shape A St T predict rnd K kCopyFrom kShuffleCases kTarget p ok ready kok cases g H) as (s & depth & first & B & E & I & Sh).
  destruct (used_rel A St T predict rnd K kCopyFrom kShuffleCases kTarget p root rest (S (length cases)) cases g Hm s E) as (s' & E' & R).
  exists s, s'. split; auto. split; auto. intros One fm tw cs bb fuel.
  destruct R as [(R1 & _)|(pr & L1 & L2 & L3 & L4 & L5)].
  - destruct (hrel_length _ _ _ R1). lia.
  - rewrite L2. unfold HVoteCases. cbn [HRecurse get nth_error bind jL jR jD dPred]. rewrite slice_ok by lia. cbn [bind].
    destruct (jL root); [|congruence]. reflexivity.
Qed.
End Used.

(** An example of each: the jungle [erun] of PropJungleVote.v is grown on four cases of two classes; then the tree is
    used again, for the cases 0, 2, 3 and for the cases 0, 1, which are of one class. *)
Definition egrow (heap : list jnode) (cs : list nat) :=
  GrowJungleOn F64 cst (gini_target F64 eclass) (cFindPredicted (label eclass)) (fun _ => 0) unit (fun k => k)
    (fun _ _ k => Ok k) (fun _ => gini_target F64 eclass) ep heap 5 cs (jstart 4 1).
Definition again (cs : list nat) : option (nat * ballots) :=
  match erun with
  | Ok s => match egrow (sHeap s) cs with
            | Ok s' => match HVoteCases (length (sHeap s')) (sHeap s') (jfm ep) f1 (seq 0 4) [] with
                       | Ok (_, b) => Some (length (sHeap s'), b) | _ => None end
            | _ => None end
  | _ => None
  end.
Example ex_again_growable : forall cs, cs = [0; 2; 3] \/ cs = [0; 1] ->
  growable F64 cst (gini_target F64 eclass) (cFindPredicted (label eclass)) unit (fun k => k) (fun _ _ k => Ok k)
    (fun _ => gini_target F64 eclass) ep (in_data eclass 2) (cst_ready 2) (fun _ => True) cs (jstart 4 1).
Proof.
  intros cs Hcs. constructor; try discriminate; auto.
  - apply gini_dependable.
  - apply sane_F64.
  - apply label_predicts.
  - destruct Hcs as [->| ->]; repeat constructor.
  - intros i [<-|[]]. exists efeat. split; [reflexivity|]. split; [|split; [exact I|discriminate]].
    split; [intros c _; reflexivity|]. split; [|exact I]. destruct Hcs as [->| ->]; repeat constructor.
  - destruct Hcs as [->| ->]; split; cbn; auto.
  - repeat split; cbn; auto.
Qed.
Example ex_used_tree :
  again [0; 2; 3] = Some (7, [(0, "x", f1); (1, "x", f1); (3, "y", f1); (2, "y", f1)]) /\
  again [0; 1] = Some (4, []) /\
  jvotes (egrow [jnew] [0; 1]) ep (seq 0 4) = Some [(0, "x", f1); (1, "x", f1); (2, "x", f1); (3, "x", f1)].
Proof. repeat split; vm_compute; reflexivity. Qed.

Print Assumptions C135_used_tree.
Print Assumptions C135_no_votes_refuted.
