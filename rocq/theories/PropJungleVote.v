(** C134: a grown jungle votes like a tree.

    Merged nodes are out of reach: following the pointers from the root always ends, and in a
    leaf that was given its prediction - except on the Missing branch of a split by a feature
    that no case of the node was missing in, which is never grown: its vote is the empty string. *)
From Verif Require Import Go GoLemmas F64 F64Order F64Round ModelFeature ModelSplit SplitSpec SplitProofs ModelTree TreeSpec
  ModelSearch SearchSpec GrowSpec TotalSearch ModelTargets TargetProofs ModelGrow SplitterProofs Dependable GrownSpec
  GrowProofs ModelJungle JungleProofs JungleShape ModelJungleVote PropGrow PropGrow2 PropTree PropJungle.
From Verif Require PropCatSearch PropSplitter PropSearch PropFeatureSearch.
Local Open Scope string_scope.
Local Open Scope nat_scope.
Local Open Scope list_scope.

(** The tree one sees from the node at an address. *)
Fixpoint unfold (fuel : nat) (h : list jnode) (a : option nat) : option node :=
  match a with
  | None => Some Nil
  | Some a =>
      match fuel with
      | 0 => None
      | S fuel =>
          match nth_error h a with
          | None => None
          | Some n =>
              match unfold fuel h (jL n), unfold fuel h (jR n), unfold fuel h (jM n) with
              | Some l, Some r, Some m => Some (Node (jD n) l r m)
              | _, _, _ => None
              end
          end
      end
  end.

Inductive unfolds (h : list jnode) : option nat -> node -> Prop :=
| U_none : unfolds h None Nil
| U_some a n l r m : nth_error h a = Some n -> unfolds h (jL n) l -> unfolds h (jR n) r -> unfolds h (jM n) m ->
    unfolds h (Some a) (Node (jD n) l r m).

Lemma unfold_unfolds h : forall fuel a t, unfold fuel h a = Some t -> unfolds h a t.
Proof.
  induction fuel as [|fuel IH]; intros [a|] t E; cbn in E; try discriminate; try (injection E as <-; constructor).
  destruct (nth_error h a) as [n|] eqn:En; [|discriminate].
  destruct (unfold fuel h (jL n)) eqn:E1; [|discriminate]. destruct (unfold fuel h (jR n)) eqn:E2; [|discriminate].
  destruct (unfold fuel h (jM n)) eqn:E3; [|discriminate]. injection E as <-. constructor; auto.
Qed.
(** When pointers only go forward, unfolding ends. *)
Lemma unfold_ok h : (forall q n a, nth_error h q = Some n -> points n a -> q < a < length h) ->
  forall fuel a, match a with Some a => a < length h /\ length h - a <= fuel | None => True end -> exists t, unfold fuel h a = Some t.
Proof.
  intros Fwd. induction fuel as [|fuel IH]; intros [a|] Ha; cbn; eauto; [lia|].
  destruct Ha as [Ha Hf]. destruct (@get_ok _ h a Ha) as (n & _ & En). rewrite En.
  assert (K : forall b, points n b -> b < length h /\ length h - b <= fuel).
  { intros b Hb. pose proof (Fwd a n b En Hb). lia. }
  destruct (IH (jL n)) as (l & ->). { destruct (jL n) eqn:Q; auto. apply K. left. auto. }
  destruct (IH (jR n)) as (r & ->). { destruct (jR n) eqn:Q; auto. apply K. right. left. auto. }
  destruct (IH (jM n)) as (m & ->). { destruct (jM n) eqn:Q; auto. apply K. right. right. auto. }
  eauto.
Qed.

(** Traversing the heap is traversing the tree. *)
Lemma recurse_unfold {St} h fm (r : jnode -> list nat -> nat -> St -> res St) (r' : visit -> St -> res St) :
  (forall a n t lo hi cs d st, nth_error h a = Some n -> unfolds h (Some a) t -> r n cs d st = r' (mkVisit t lo hi cs d) st) ->
  forall fuel a t, unfold fuel h a = Some t -> forall arr lo hi d st,
    HRecurse fuel h r fm a arr lo hi d st = Recurse r' fm t arr lo hi d st.
Proof.
  intros Hr. induction fuel as [|fuel IH]; intros [a|] t E arr lo hi d st; cbn in E; try discriminate;
    try (injection E as <-; reflexivity).
  pose proof (unfold_unfolds h (S fuel) (Some a) t E) as U.
  destruct (nth_error h a) as [n|] eqn:En; [|discriminate].
  destruct (unfold fuel h (jL n)) as [l|] eqn:E1; [|discriminate]. destruct (unfold fuel h (jR n)) as [r0|] eqn:E2; [|discriminate].
  destruct (unfold fuel h (jM n)) as [m|] eqn:E3; [|discriminate]. injection E as <-.
  cbn [HRecurse Recurse]. rewrite (get_nth _ _ En). cbn [bind].
  destruct (slice arr lo hi) as [cs| |]; cbn [bind]; auto.
  rewrite (Hr a n _ lo hi cs d st En U).
  destruct (r' (mkVisit (Node (jD n) l r0 m) lo hi cs d) st) as [st0| |]; cbn [bind]; auto.
  destruct (node_split fm (jD n) cs) as [[sr|]| |]; cbn [bind]; auto.
  rewrite (IH _ _ E1). destruct (Recurse r' fm l _ _ _ _ _) as [[arr1 st1]| |]; cbn [bind]; auto.
  rewrite (IH _ _ E2). destruct (Recurse r' fm r0 _ _ _ _ _) as [[arr2 st2]| |]; cbn [bind]; auto.
  assert (Nm : match jM n with Some _ => true | None => false end = negb (isNil m)).
  { apply unfold_unfolds in E3. inversion E3; reflexivity. }
  rewrite Nm. destruct ((0 <? length (srM sr)) && negb (isNil m)); auto.
Qed.

Lemma vote_unfold h fm tw cases bb fuel t : unfold fuel h (Some 0) = Some t ->
  HVoteCases fuel h fm tw cases bb = VoteCases fm t tw cases bb.
Proof.
  intros E. unfold HVoteCases, VoteCases. apply recurse_unfold; auto.
  intros a n t0 lo hi cs d st En U. inversion U as [|a' n' l r m En' U1 U2 U3]; subst.
  assert (n' = n) by congruence. subst n'. cbn [vNode vCases node_pred isLeaf].
  inversion U1; inversion U2; cbn [isNil andb bind]; reflexivity.
Qed.

(** ** What the tree looks like *)
Section Vote.
  Variable A : arith.
  Variable St : Type.
  Variable T : target A St.
  Variable predict : list nat -> res string.
  Variable rnd : nat -> nat.
  Variable K : Type.
  Variable kCopyFrom : K -> K.
  Variable kShuffleCases : (nat -> nat) -> list nat -> K -> res K.
  Variable kTarget : K -> target A St.
  Variable p : params.

  Local Notation growable := (growable A St T predict K kCopyFrom kShuffleCases kTarget p).
  Local Notation jungle := (GrowJungle A St T predict rnd K kCopyFrom kShuffleCases kTarget p).
  Local Notation jst := (jstate A St K).

  Lemma jungle_shape ok ready kok cases g : growable ok ready kok cases g ->
    exists s depth first B, jungle (S (length cases)) cases g = Ok s /\
      jinv A St T predict K p ok ready kok (gCans g) (gOob g) cases (length (sNodes s)) (length (sNodes s)) depth s /\
      jshape A St K p (gCans g) cases first (length (sNodes s)) (length (sNodes s)) B s.
  Proof.
    intros [H1 H2 H3 H4 H5 H6 H7 H8 H9 H10 H11 H12 H13].
    destruct (GrowJungle_shape A St T predict rnd K kCopyFrom kShuffleCases kTarget p ok ready kok H1 H2 H5) with
      (cans0 := gCans g) (oob0 := gOob g) (cases0 := cases) (fuel := S (length cases)) (g := g) as (s & E & depth & first & B & I); auto.
    - intros V. apply H12; auto.
    - intros O. apply H13; auto.
    - constructor; auto.
      + intros O. apply H13; auto.
      + intros V. apply H12; auto.
    - exists s, depth, first, B. tauto.
  Qed.

  (** The matrix that is voted on: the columns the tree was grown with, which have the cases. *)
  Definition votable (fm : fmatrix) (cans : list nat) (cs : list nat) : Prop :=
    fmData fm = pData p /\ forall i f, In i cans -> nth_error (pData p) i = Some f -> flag_sound f /\ Forall (has_case f) cs.
  (** No value of the case is missing in these columns. *)
  Definition complete (cans : list nat) (c : nat) : Prop :=
    forall i f, In i cans -> nth_error (pData p) i = Some f -> fmissing f c = false.

  (** A node of the jungle that was grown, or one that was never grown. *)
  Definition grown_at (s : jst) (a : nat) : Prop := exists e, In e (sNodes s) /\ eN e = a /\ eDead e = false.
  Definition bare_at (s : jst) (a : nat) : Prop := nth_error (sHeap s) a = Some jnew.

  Section Tree.
    Variables (ok : nat -> Prop) (ready : St -> Prop) (kok : K -> Prop) (cans oob cases : list nat) (s : jst) (depth first B : nat).
    Hypothesis I : jinv A St T predict K p ok ready kok cans oob cases (length (sNodes s)) (length (sNodes s)) depth s.
    Hypothesis Sh : jshape A St K p cans cases first (length (sNodes s)) (length (sNodes s)) B s.
    Local Notation h := (sHeap s).

    Lemma kid_of q n a : nth_error h q = Some n -> points n a -> grown_at s a \/ (jL n <> Some a /\ jR n <> Some a /\ bare_at s a).
    Proof.
      intros Eq P. destruct (sh_ptr _ _ _ _ _ _ _ _ _ _ _ Sh q n a Eq P) as (_ & _ & [(k & e & Ek & Ea & De & _)|(P1 & P2 & P3 & _)]).
      - left. exists e. split; auto. eapply nth_error_In; eauto.
      - right. auto.
    Qed.

    Lemma full_of q n : nth_error h q = Some n ->
      match dSpl (jD n) with
      | None => dCode (jD n) = CNil /\ jL n = None /\ jR n = None /\ jM n = None
      | Some _ => jL n <> None /\ jR n <> None /\ (if pSplitMissing p then jM n <> None else jM n = None) /\ In (dFeat (jD n)) cans /\
          exists f, nth_error (pData p) (dFeat (jD n)) = Some f /\ code_fits f (dCode (jD n))
      end.
    Proof.
      intros En. pose proof (sh_full _ _ _ _ _ _ _ _ _ _ _ Sh q n En) as F. destruct (dSpl (jD n)); auto.
      destruct F as (F1 & F2 & F3 & F4 & f & F5 & F6 & _). repeat (split; auto). exists f. auto.
    Qed.

    Lemma unfolds_none t : unfolds h None t -> t = Nil.
    Proof. intros U. inversion U. reflexivity. Qed.
    Lemma unfolds_some a t : a <> None -> unfolds h a t -> t <> Nil.
    Proof. intros Ha U. inversion U; subst; [congruence|discriminate]. Qed.

    Lemma tree_well_formed a t : unfolds h a t -> well_formed t.
    Proof.
      induction 1 as [|a n l r m En U1 IH1 U2 IH2 U3 IH3]; cbn [well_formed]; auto.
      pose proof (full_of a n En) as F. split; auto. unfold terminal. destruct (dSpl (jD n)).
      - rewrite andb_false_r. destruct F as (F1 & F2 & _). split; [apply (unfolds_some (jL n))|apply (unfolds_some (jR n))]; auto.
      - destruct F as (F1 & F2 & F3 & F4). rewrite F1. cbn. rewrite F2, F3 in *. split; apply unfolds_none; auto.
    Qed.

    Lemma tree_usable fm cs a t : votable fm cans cs -> unfolds h a t -> usable fm cs t.
    Proof.
      intros [Ed Hv]. induction 1 as [|a n l r m En U1 IH1 U2 IH2 U3 IH3]; cbn [usable]; auto.
      split; auto. pose proof (full_of a n En) as F. unfold answers. destruct (dSpl (jD n)).
      - destruct F as (_ & _ & _ & Hin & f & Ef & Cf). destruct (Hv _ f Hin Ef) as [V1 V2].
        assert (Col : column fm (dFeat (jD n)) = f) by (unfold column; rewrite Ed; apply nth_error_nth; auto).
        assert (Len : dFeat (jD n) < length (fmData fm)) by (rewrite Ed; apply nth_error_Some; congruence).
        destruct (dCode (jD n)) eqn:Ec; try (destruct f; contradiction); rewrite Col; auto.
      - destruct F as (-> & _). exact Logic.I.
    Qed.

    (** The turn a case takes, by the column of the split. *)
    Lemma turn_of fm q n c : fmData fm = pData p -> nth_error h q = Some n ->
      match dSpl (jD n) with
      | None => turn fm (jD n) c = None
      | Some _ => exists f, In (dFeat (jD n)) cans /\ nth_error (pData p) (dFeat (jD n)) = Some f /\
          turn fm (jD n) c = Some (if fmissing f c then DM else if coded_left f (dCode (jD n)) c then DL else DR)
      end.
    Proof.
      intros Ed En. pose proof (full_of q n En) as F. unfold turn, test_of. destruct (dSpl (jD n)) as [spl|].
      - destruct F as (_ & _ & _ & Hin & f & Ef & Cf).
        assert (Col : column fm (dFeat (jD n)) = f) by (unfold column; rewrite Ed; apply nth_error_nth; auto).
        exists f. split; auto. split; auto.
        destruct (dCode (jD n)) eqn:Ec; try (destruct f; contradiction); rewrite Col; auto.
      - destruct F as (-> & _). reflexivity.
    Qed.

    (** A grown node without a split has the prediction for its cases. *)
    Lemma leaf_here a n : grown_at s a -> nth_error h a = Some n -> dSpl (jD n) = None ->
      exists e, In e (leaves s) /\ predict (held s e) = Ok (dPred (jD n)).
    Proof.
      intros (e & He & Ea & De) En Dn.
      assert (Le : leafy h e = true) by (unfold leafy, is_terminal; rewrite De, Ea, En, Dn; reflexivity).
      destruct (In_nth_error _ _ He) as (i & Ei).
      destruct (j_done _ _ _ _ _ _ _ _ _ _ _ _ _ _ _ _ I i e) as (n' & En' & Pn); auto.
      { apply nth_error_Some. congruence. }
      assert (n' = n) by congruence. subst n'. exists e. split; [apply filter_In; auto|exact Pn].
    Qed.

    (** Where a case ends. *)
    Lemma follow_complete fm c a t : fmData fm = pData p -> complete cans c -> unfolds h a t ->
      (exists x, a = Some x /\ grown_at s x) ->
      exists path e, follow fm t c = Some path /\ In e (leaves s) /\ predict (held s e) = Ok (node_pred (at_path t path)).
    Proof.
      intros Ed Hc. induction 1 as [|a n l r m En U1 IH1 U2 IH2 U3 IH3]; intros (x & Ex & Gx); [discriminate|].
      injection Ex as <-. pose proof (full_of a n En) as F. pose proof (turn_of fm a n c Ed En) as Tn. cbn [follow].
      destruct (dSpl (jD n)) eqn:Ds.
      - destruct Tn as (f & Hin & Ef & ->). rewrite (Hc _ f Hin Ef). destruct F as (F1 & F2 & _).
        destruct (coded_left f (dCode (jD n)) c).
        + destruct IH1 as (pa & e & Fl & He & Pe).
          { destruct (jL n) as [y|] eqn:Ey; [|congruence]. exists y. split; auto.
            destruct (kid_of a n y En (or_introl Ey)) as [G|(G & _)]; [auto|congruence]. }
          exists (DL :: pa), e. rewrite Fl. auto.
        + destruct IH2 as (pa & e & Fl & He & Pe).
          { destruct (jR n) as [y|] eqn:Ey; [|congruence]. exists y. split; auto.
            destruct (kid_of a n y En (or_intror (or_introl Ey))) as [G|(_ & G & _)]; [auto|congruence]. }
          exists (DR :: pa), e. rewrite Fl. auto.
      - rewrite Tn. destruct (leaf_here a n Gx En Ds) as (e & He & Pe). exists [], e. auto.
    Qed.

    Lemma follow_any fm c a t : fmData fm = pData p -> unfolds h a t ->
      (exists x, a = Some x /\ (grown_at s x \/ bare_at s x)) ->
      match follow fm t c with
      | Some path =>
          (exists e, In e (leaves s) /\ predict (held s e) = Ok (node_pred (at_path t path))) \/
          (node_pred (at_path t path) = EmptyString /\ ((path = [] /\ exists x, a = Some x /\ bare_at s x) \/
             (pSplitMissing p = true /\ ~ complete cans c)))
      | None => pSplitMissing p = false /\ ~ complete cans c
      end.
    Proof.
      intros Ed. induction 1 as [|a n l r m En U1 IH1 U2 IH2 U3 IH3]; intros (x & Ex & Gx); [discriminate|].
      injection Ex as <-. pose proof (full_of a n En) as F. pose proof (turn_of fm a n c Ed En) as Tn. cbn [follow].
      destruct (dSpl (jD n)) eqn:Ds.
      - destruct Tn as (f & Hin & Ef & ->). destruct F as (F1 & F2 & F3 & _).
        destruct (fmissing f c) eqn:Ms; [|destruct (coded_left f (dCode (jD n)) c)].
        + destruct (jM n) as [y|] eqn:Ey.
          * destruct (pSplitMissing p) eqn:Sm; [|discriminate].
            specialize (IH3 ltac:(exists y; split; auto; destruct (kid_of a n y En (or_intror (or_intror Ey))) as [G|(_ & _ & G)]; auto)).
            destruct (follow fm m c) as [pa|]; cbn [option_map]; [|destruct IH3; discriminate].
            destruct IH3 as [G|[G1 _]]; [left; exact G|]. right. split; auto. right. split; auto.
            intros Q. rewrite (Q _ f Hin Ef) in Ms. discriminate.
          * apply unfolds_none in U3. subst m. cbn. destruct (pSplitMissing p); [congruence|]. split; auto.
            intros Q. rewrite (Q _ f Hin Ef) in Ms. discriminate.
        + destruct (jL n) as [y|] eqn:Ey; [|congruence].
          assert (Gy : grown_at s y) by (destruct (kid_of a n y En (or_introl Ey)) as [G|(G & _)]; [auto|congruence]).
          specialize (IH1 ltac:(exists y; auto)). destruct (follow fm l c) as [pa|]; cbn [option_map]; auto.
          destruct IH1 as [G|[G1 [[-> (y' & Q & G2)]|G2]]]; [left; exact G| |right; split; auto].
          injection Q as <-. left. inversion U1 as [|y' n' l' r' m' En' U1' U2' U3']; subst.
          assert (n' = jnew) by (unfold bare_at in G2; congruence). subst n'. apply (leaf_here y jnew); auto.
        + destruct (jR n) as [y|] eqn:Ey; [|congruence].
          assert (Gy : grown_at s y) by (destruct (kid_of a n y En (or_intror (or_introl Ey))) as [G|(_ & G & _)]; [auto|congruence]).
          specialize (IH2 ltac:(exists y; auto)). destruct (follow fm r c) as [pa|]; cbn [option_map]; auto.
          destruct IH2 as [G|[G1 [[-> (y' & Q & G2)]|G2]]]; [left; exact G| |right; split; auto].
          injection Q as <-. left. inversion U2 as [|y' n' l' r' m' En' U1' U2' U3']; subst.
          assert (n' = jnew) by (unfold bare_at in G2; congruence). subst n'. apply (leaf_here y jnew); auto.
      - rewrite Tn. destruct Gx as [Gx|Gx].
        + left. destruct (leaf_here a n Gx En Ds) as (e & He & Pe). exists e. auto.
        + right. unfold bare_at in Gx. assert (n = jnew) by congruence. subst n. cbn. split; auto. left. split; auto. exists a. auto.
    Qed.

    Lemma root_tree : exists t, unfold (length h) h (Some 0) = Some t /\ t <> Nil /\ grown_at s 0 /\
      (cases <> [] -> forall e, In e (sNodes s) -> held s e <> []).
    Proof.
      destruct (sh_bounds _ _ _ _ _ _ _ _ _ _ _ Sh) as (_ & _ & _ & Pos).
      destruct (@get_ok _ (sNodes s) 0 Pos) as (e & _ & Ee).
      pose proof (sh_root _ _ _ _ _ _ _ _ _ _ _ Sh e Ee) as Re.
      destruct (j_entry _ _ _ _ _ _ _ _ _ _ _ _ _ _ _ _ I 0 e Ee) as (_ & _ & _ & Lh & _). rewrite Re in Lh. cbn in Lh.
      destruct (unfold_ok h) with (fuel := length h) (a := Some 0) as (t & Et).
      { intros q n a Eq P. destruct (sh_ptr _ _ _ _ _ _ _ _ _ _ _ Sh q n a Eq P) as (P1 & P2 & _). auto. }
      { lia. }
      exists t. split; auto. split; [|split].
      - apply unfold_unfolds in Et. inversion Et. discriminate.
      - exists e. split; [eapply nth_error_In; eauto|]. rewrite Re. auto.
      - intros Nc e' He' Q. apply (f_equal (@length nat)) in Q. apply In_nth_error in He' as (i & Ei).
        destruct (j_entry _ _ _ _ _ _ _ _ _ _ _ _ _ _ _ _ I i e' Ei) as (B1 & B2 & _ & _ & B5).
        pose proof (Permutation_length (j_perm _ _ _ _ _ _ _ _ _ _ _ _ _ _ _ _ I)) as LN.
        unfold held in Q. rewrite win_length in Q by lia. cbn in Q. destruct i as [|i].
        + assert (e' = e) by congruence. subst e'. rewrite Re in Q. cbn in Q. destruct cases; [congruence|cbn in Q; lia].
        + destruct B5 as [B5 _]; [lia|]. unfold width in B5. lia.
    Qed.
  End Tree.

(** Voting with a grown jungle ends without a panic.  Every case without missing values gets exactly one
    vote; it is the prediction made from the cases of a leaf, and no such leaf is without cases. *)
Theorem C134_each_case_votes_once : forall ok ready kok cases g, growable ok ready kok cases g ->
  exists s, jungle (S (length cases)) cases g = Ok s /\
    (cases <> [] -> forall e, In e (leaves s) -> held s e <> []) /\
    forall fm cs tw bb, votable fm (gCans g) cs -> Forall (complete (gCans g)) cs ->
      exists arr votes said,
        HVoteCases (length (sHeap s)) (sHeap s) fm tw cs bb = Ok (arr, bb ++ votes) /\ Permutation cs arr /\
        Permutation votes (map (fun c => (c, said c, if fleb f0 tw then tw else f1)) cs) /\
        forall c, In c cs -> exists e, In e (leaves s) /\ predict (held s e) = Ok (said c).
Proof.
  intros ok ready kok cases g H. destruct (jungle_shape ok ready kok cases g H) as (s & depth & first & B & E & I & Sh).
  destruct (root_tree _ _ _ _ _ _ _ _ _ _ I Sh) as (t & Et & Nt & G0 & Hh).
  pose proof (unfold_unfolds _ _ _ _ Et) as U.
  exists s. split; auto. split.
  { intros Nc e He. apply Hh; auto. apply filter_In in He. tauto. }
  intros fm cs tw bb Hv Hc.
  destruct (C18_each_case_votes_once fm t tw cs bb Nt) as (arr & votes & Ev & P1 & P2).
  { eapply tree_well_formed; eauto. }
  { eapply tree_usable; eauto. }
  exists arr, votes, (fun c => match follow fm t c with Some pa => node_pred (at_path t pa) | None => EmptyString end).
  rewrite (vote_unfold _ _ _ _ _ _ _ Et). split; auto. split; auto.
  assert (Way : forall c, In c cs -> exists path e, follow fm t c = Some path /\ In e (leaves s) /\ predict (held s e) = Ok (node_pred (at_path t path))).
  { intros c Hin. rewrite Forall_forall in Hc. eapply follow_complete; eauto. apply Hv. }
  split.
  - rewrite P2. unfold due. clear -Way. induction cs as [|c cs IH]; cbn [flat_map map]; auto.
    destruct (Way c) as (pa & e & F & _); [left; auto|]. rewrite F. cbn [app]. constructor. apply IH.
    intros c' Hc'. apply Way. right. auto.
  - intros c Hin. destruct (Way c Hin) as (pa & e & F & He & Pe). exists e. rewrite F. auto.
Qed.

(** Any case, also with missing values: at most one vote.  None only without splitmissing and with a missing
    value.  The vote is the prediction of a leaf, or it is the empty string and the case took the
    Missing branch last. *)
Theorem C134_votes_with_missing_values : forall ok ready kok cases g, growable ok ready kok cases g ->
  exists s, jungle (S (length cases)) cases g = Ok s /\
    forall fm cs tw bb, votable fm (gCans g) cs ->
      exists arr votes (said : nat -> option string),
        HVoteCases (length (sHeap s)) (sHeap s) fm tw cs bb = Ok (arr, bb ++ votes) /\ Permutation cs arr /\
        Permutation votes (flat_map (fun c => match said c with Some v => [(c, v, if fleb f0 tw then tw else f1)] | None => [] end) cs) /\
        forall c, In c cs ->
          match said c with
          | None => pSplitMissing p = false /\ ~ complete (gCans g) c
          | Some v => (exists e, In e (leaves s) /\ predict (held s e) = Ok v) \/
                      (v = EmptyString /\ pSplitMissing p = true /\ ~ complete (gCans g) c)
          end.
Proof.
  intros ok ready kok cases g H. destruct (jungle_shape ok ready kok cases g H) as (s & depth & first & B & E & I & Sh).
  destruct (root_tree _ _ _ _ _ _ _ _ _ _ I Sh) as (t & Et & Nt & G0 & Hh).
  pose proof (unfold_unfolds _ _ _ _ Et) as U.
  exists s. split; auto. intros fm cs tw bb Hv.
  destruct (C18_each_case_votes_once fm t tw cs bb Nt) as (arr & votes & Ev & P1 & P2).
  { eapply tree_well_formed; eauto. }
  { eapply tree_usable; eauto. }
  exists arr, votes, (fun c => option_map (fun pa => node_pred (at_path t pa)) (follow fm t c)).
  rewrite (vote_unfold _ _ _ _ _ _ _ Et). split; auto. split; auto. split.
  - rewrite P2. unfold due. clear. induction cs as [|c cs IH]; cbn [flat_map]; auto.
    apply Permutation_app; auto. destruct (follow fm t c); auto.
  - intros c Hin. pose proof (follow_any _ _ _ _ _ _ _ _ _ _ I Sh fm c (Some 0) t (proj1 Hv) U) as Q.
    specialize (Q ltac:(exists 0; auto)). destruct (follow fm t c) as [pa|]; cbn [option_map]; auto.
    destruct Q as [Q|[Q1 [[-> (x & Ex & Bx)]|[Q2 Q3]]]]; [left; exact Q| |right; auto].
    injection Ex as <-. left. inversion U as [|a n l r m En]; subst.
    unfold bare_at in Bx. rewrite Bx in En. injection En as <-.
    apply (leaf_here _ _ _ _ _ _ _ _ I 0 jnew G0 Bx). reflexivity.
Qed.
End Vote.

(** A jungle with a merge: the twelve cases of the merged node vote with the leaf of three other cases. *)
Definition jfm (p : params) : fmatrix := mkFM (pData p) [] [].
Definition jvotes {A St K} (r : res (jstate A St K)) (p : params) (cs : list nat) : option ballots :=
  match r with
  | Ok s => match HVoteCases (length (sHeap s)) (sHeap s) (jfm p) f1 cs [] with Ok (_, b) => Some b | _ => None end
  | _ => None
  end.
Lemma jp_columns i f : In i (gCans (jstart 20 2)) -> nth_error (pData jp) i = Some f ->
  exists d, f = FCat (PropCatSearch.cats ["a"; "b"] d false) /\ length d = 20 /\ Forall (fun v => v < 2) d.
Proof.
  intros [<-|[<-|[]]] E; injection E as <-; eexists; (split; [reflexivity|]); split; try reflexivity; repeat constructor.
Qed.
Example ex_jungle_votes :
  votable jp (jfm jp) (gCans (jstart 20 2)) [0; 7; 3; 18; 16] /\
  Forall (complete jp (gCans (jstart 20 2))) [0; 7; 3; 18; 16] /\
  jvotes jrun jp [0; 7; 3; 18; 16] = Some [(0, "y", f1); (3, "x", f1); (7, "x", f1); (16, "x", f1); (18, "y", f1)].
Proof.
  split; [|split].
  - split; [reflexivity|]. intros i f Hi E. destruct (jp_columns i f Hi E) as (d & -> & Ld & Hd).
    destruct (PropSplitter.cats_searchable ["a"; "b"] d [0; 7; 3; 18; 16]) as (Q1 & Q2 & _); auto.
    rewrite Ld. repeat constructor.
  - apply Forall_forall. intros c _ i f Hi E. destruct (jp_columns i f Hi E) as (d & -> & Ld & Hd). cbn. unfold cmissing. cbn.
    destruct (nth_in_or_default c (map (fun _ : nat => false) d) false) as [Q|Q]; auto.
    apply in_map_iff in Q as (x & Q & _). auto.
  - vm_compute. reflexivity.
Qed.

(** That every case ends in a leaf with a prediction is false with splitmissing: the five cases are told apart by
    the only feature, which is missing for the fifth; the jungle is grown on the first four.  The fifth case
    votes for the empty string. *)
Definition eclass : list nat := [0; 0; 1; 1; 0].
Definition efeat : feature :=
  FCat (mkCat (mkCM [("a", 0); ("b", 1)] ["a"; "b"]) [0; 0; 1; 1; 0] [false; false; false; false; true] EmptyString false true).
Definition ep : params := mkP [efeat] 1 1 false false false false 0 true.
Definition erun := gini_jungle eclass (fun _ => 0) ep 4 1.

Lemma ex_missing_growable :
  growable F64 cst (gini_target F64 eclass) (cFindPredicted (label eclass)) unit (fun k => k) (fun _ _ k => Ok k)
    (fun _ => gini_target F64 eclass) ep (in_data eclass 2) (cst_ready 2) (fun _ => True) (seq 0 4) (jstart 4 1).
Proof.
  constructor; try discriminate; auto.
  - apply gini_dependable.
  - apply sane_F64.
  - apply label_predicts.
  - repeat constructor.
  - intros i [<-|[]]. exists efeat. split; [reflexivity|]. split; [|split; [exact I|discriminate]].
    split; [intros c _; reflexivity|]. split; [|exact I]. repeat constructor.
  - split; cbn; auto.
  - repeat split; cbn; auto.
Qed.
Theorem C134_empty_vote_refuted :
  votable ep (jfm ep) (gCans (jstart 4 1)) (seq 0 5) /\
  jvotes erun ep (seq 0 5) = Some [(0, "x", f1); (1, "x", f1); (3, "y", f1); (2, "y", f1); (4, "", f1)].
Proof.
  split; [|vm_compute; reflexivity].
  split; [reflexivity|]. intros i f [<-|[]] E. injection E as <-. split; [intros c _; reflexivity|]. repeat constructor.
Qed.

Print Assumptions C134_each_case_votes_once.
Print Assumptions C134_empty_vote_refuted.
Print Assumptions C134_votes_with_missing_values.
