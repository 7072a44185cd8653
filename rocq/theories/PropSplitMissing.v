(** C150: -splitmissing and data without missing values. *)
From Verif Require Import Go GoLemmas F64 ModelFeature ModelSplit SplitSpec ModelTree TreeSpec
  ModelBallot ModelSearch GrowSpec ModelTargets ModelGrow GrownSpec PropByName RowsProofs PropGrow2.
From Verif Require Import ModelFile FileSpec.
From Verif Require PropSearch.
Local Open Scope string_scope.
Local Open Scope nat_scope.
Local Open Scope list_scope.

(** ** C150.  The claim in full: for data without missing values -splitmissing changes nothing:
    the same splits, predictions, importances and votes, and the same further draws.  Each
    split gets an empty missing branch that no case reaches. *)
Definition all_known (data : list feature) : Prop := forall f, In f data -> forall c, fmissing f c = false.
Fixpoint dress (n : node) : node :=
  match n with
  | Nil => Nil
  | Node d l r m => Node d (dress l) (dress r) (if isNil l && isNil r then m else newNode)
  end.
Definition missing_set (b : bool) (p : params) : params :=
  mkP (pData p) (pTry p) (pLeaf p) (pForce p) (pVet p) (pEvalOob p) (pExtra p) (pMaxDepth p) b.

Lemma isNil_dress n : isNil (dress n) = isNil n.
Proof. destruct n; reflexivity. Qed.

(** No missing value, no cases in the middle. *)
Lemma nothing_between miss left cases cs ll lr : (forall c, miss c <> Ok true) -> split_loop miss left cases = Ok (cs, ll, lr) -> ll = lr.
Proof.
  intros Hm. unfold split_loop.
  assert (G : forall fuel cs0 i l0 r0, i = l0 -> l0 <= r0 ->
    loop fuel (fun '(cs, i, ll, lr) =>
    if i <? lr then
      let* c := get cs i in
      let* m := miss c in
      if m then Ok (Next (cs, S i, ll, lr))
      else
        let* l := left c in
        if l then
          if i =? ll then Ok (Next (cs, S i, S ll, lr))
          else let* cs' := swapl cs i ll in Ok (Next (cs', i, S ll, lr))
        else
          let* cs' := swapl cs i (lr - 1) in Ok (Next (cs', i, ll, lr - 1))
    else Ok (Done (cs, ll, lr))) (cs0, i, l0, r0) = Ok (cs, ll, lr) -> ll = lr).
  { induction fuel as [|fuel IH]; intros cs0 i l0 r0 -> Hle; cbn [loop]; [discriminate|].
    destruct (Nat.ltb_spec l0 r0) as [Hl|Hl]; [|cbn; intros [= <- <- <-]; lia].
    destruct (get cs0 l0) as [c| |]; cbn; try discriminate. pose proof (Hm c) as Hc. destruct (miss c) as [[|]| |]; cbn; try discriminate; [congruence|].
    destruct (left c) as [[|]| |]; cbn; try discriminate.
    - rewrite Nat.eqb_refl. apply IH; lia.
    - destruct (swapl cs0 l0 (r0 - 1)) as [cs'| |]; cbn; try discriminate. apply IH; lia. }
  apply G; lia.
Qed.
Lemma missq_known has ms c : nth c ms false = false -> missq has ms c <> Ok true.
Proof.
  unfold missq, get. destruct has; [|discriminate]. destruct (nth_error ms c) as [b|] eqn:E; [|discriminate].
  rewrite (nth_error_nth _ _ false E). intros -> . discriminate.
Qed.
Lemma points_meet f code cases cs ll lr : (forall c, fmissing f c = false) -> fSplitPoints f code cases = Ok (cs, ll, lr) -> ll = lr.
Proof.
  intros H. destruct f as [f|f]; cbn [fSplitPoints] in *.
  - unfold nSplitPoints. destruct code; try discriminate. apply nothing_between. intros c. apply missq_known, (H c).
  - unfold cSplitPoints. apply nothing_between. intros c. apply missq_known, (H c).
Qed.

Section Growing.
  Variable A : arith.
  Variable St : Type.
  Variable T : target A St.
  Variable predict : list nat -> res string.
  Variable rnd : nat -> nat.
  Variable K : Type.
  Variable kCopyFrom : K -> K.
  Variable kShuffleCases : (nat -> nat) -> list nat -> K -> res K.
  Variable kTarget : K -> target A St.
  Variable p : params.
  Hypothesis Hk : all_known (pData p).
  Local Notation Grow := (Grow A St T predict rnd K kCopyFrom kShuffleCases kTarget).
  Local Notation grow_node := (grow_node A St T predict rnd K kCopyFrom kShuffleCases kTarget).
  Local Notation grow_visit := (grow_visit A St T predict rnd K kCopyFrom kShuffleCases kTarget).
  Local Notation hop := (fun '((n, g) : node * gstate A St K) => (dress n, g)).

  Definition dressV (v : visited) : visited :=
    mkV (gvD v) (gvL v) (gvR v) (if isCNil (gvSplit v) then gvM v else newNode) (gvFi v) (gvSplit v) (gvConsts v) (gvCases v).
  Lemma visit_known d cases depth ncb g :
    grow_visit (missing_set true p) d Nil Nil Nil cases depth ncb g =
    rmap (fun '((v, g) : visited * gstate A St K) => (dressV v, g)) (grow_visit (missing_set false p) d Nil Nil Nil cases depth ncb g).
  Proof.
    unfold ModelGrow.grow_visit. cbn [missing_set pMaxDepth pLeaf pData pSplitMissing].
    assert (Lf : forall fi nc cs g0, (let* pred := predict cs in Ok (mkV (mkNd CNil (dFeat d) pred None) Nil Nil Nil fi CNil nc cs, g0)) =
      rmap (fun '((v, g) : visited * gstate A St K) => (dressV v, g)) (let* pred := predict cs in Ok (mkV (mkNd CNil (dFeat d) pred None) Nil Nil Nil fi CNil nc cs, g0))).
    { intros. destruct (predict cs); reflexivity. }
    destruct (_ && _); [|apply Lf].
    change (BestSplitter A St T rnd K kCopyFrom kShuffleCases kTarget (missing_set true p)) with
      (BestSplitter A St T rnd K kCopyFrom kShuffleCases kTarget (missing_set false p)).
    apply bind_same. intros b. destruct (isCNil (bCode b)) eqn:Ec; [apply Lf|].
    apply bind_same. intros [imp du]. apply bind_same. intros f. apply bind_same. intros spl. cbn. unfold dressV. cbn. rewrite Ec. reflexivity.
  Qed.
  Lemma visit_shape d cases depth ncb g v g' : grow_visit (missing_set false p) d Nil Nil Nil cases depth ncb g = Ok (v, g') ->
    gvM v = Nil /\ (if isCNil (gvSplit v) then gvL v = Nil /\ gvR v = Nil else gvL v = newNode /\ gvR v = newNode).
  Proof.
    unfold ModelGrow.grow_visit. cbn [missing_set pMaxDepth pLeaf pData pSplitMissing].
    destruct (_ && _).
    - destruct (BestSplitter _ _ _ _ _ _ _ _ _ _ _ _ _ _ _) as [b| |]; cbn; try discriminate. destruct (isCNil (bCode b)) eqn:Ec.
      + destruct (predict _); cbn; try discriminate. intros [= <- <-]. cbn. auto.
      + destruct (book _ _ _ _ _ _) as [[imp du]| |]; cbn; try discriminate. destruct (get _ _) as [f| |]; cbn; try discriminate.
        destruct (fDecodeSplit _ _) as [spl| |]; cbn; try discriminate. intros [= <- <-]. cbn. rewrite Ec. auto.
    - destruct (predict _); cbn; try discriminate. intros [= <- <-]. cbn. auto.
  Qed.
  Lemma node_known fuel : forall cases depth ncb g,
    grow_node fuel (missing_set true p) newNode cases depth ncb g = rmap hop (grow_node fuel (missing_set false p) newNode cases depth ncb g).
  Proof.
    induction fuel as [|fuel IH]; intros cases depth ncb g; [reflexivity|]. unfold newNode at 1 2. cbn [ModelGrow.grow_node].
    rewrite visit_known.
    destruct (grow_visit (missing_set false p) (mkNd CNil 0 EmptyString None) Nil Nil Nil cases depth ncb g) as [[v g1]| |] eqn:Ev; try reflexivity.
    cbn [rmap bind]. destruct (visit_shape _ _ _ _ _ _ _ Ev) as [E3 Es]. cbn [dressV gvSplit gvD gvL gvR gvM gvFi gvConsts gvCases missing_set pData].
    destruct (isCNil (gvSplit v)) eqn:Ec; [destruct Es as [E1 E2]; rewrite E1, E2, E3; reflexivity|]. destruct Es as [E1 E2]. rewrite E1, E2, E3.
    destruct (get (pData p) (gvFi v)) as [f| |] eqn:Ef; try reflexivity. cbn [bind].
    destruct (fSplitPoints f (gvSplit v) (gvCases v)) as [[[cs li] ri]| |] eqn:Esp; try reflexivity. cbn [bind].
    assert (li = ri). { eapply points_meet; [|exact Esp]. apply Hk. unfold get in Ef. destruct (nth_error (pData p) (gvFi v)) eqn:En; [|discriminate]. injection Ef as ->. eapply nth_error_In; eauto. }
    subst ri. rewrite Nat.eqb_refl. cbn [negb andb].
    apply bind_same. intros lc. rewrite IH. rewrite bind_rmap.
    destruct (grow_node fuel (missing_set false p) newNode lc (S depth) (gvConsts v) g1) as [[l' g2]| |] eqn:El; try reflexivity. cbn [bind rmap].
    apply bind_same. intros rc. rewrite IH. rewrite bind_rmap.
    destruct (grow_node fuel (missing_set false p) newNode rc (S depth) (gvConsts v) g2) as [[r' g3]| |] eqn:Er; try reflexivity. cbn [bind rmap dress].
    assert (Nl : isNil l' = false).
    { clear -El. destruct fuel; [discriminate|]. cbn [ModelGrow.grow_node newNode] in El. unfold newNode in El.
      destruct (ModelGrow.grow_visit _ _ _ _ _ _ _ _ _ _ _ _ _ _ _ _ _ _) as [[v0 g0]| |]; cbn [bind] in El; try discriminate.
      destruct (isCNil (gvSplit v0)); [injection El as <- _; reflexivity|].
      repeat match type of El with bind ?m _ = _ => destruct m as [[? ?]| |] || destruct m as [?| |]; cbn [bind] in El; try discriminate end;
      repeat match type of El with (let '(_, _) := ?m in _) = _ => destruct m end;
      repeat match type of El with bind ?m _ = _ => destruct m as [[? ?]| |] || destruct m as [?| |]; cbn [bind] in El; try discriminate end.
      all: injection El as <- _; reflexivity. }
    rewrite Nl. reflexivity.
  Qed.
End Growing.

(** Growing: the same run but for the empty branches; panics and all. *)
Theorem C150_tree : forall A St (T : target A St) predict rnd K kCopyFrom kShuffleCases kTarget p fuel cases g, all_known (pData p) ->
  Grow A St T predict rnd K kCopyFrom kShuffleCases kTarget fuel (missing_set true p) newNode cases g =
  rmap (fun '((n, g) : node * gstate A St K) => (dress n, g)) (Grow A St T predict rnd K kCopyFrom kShuffleCases kTarget fuel (missing_set false p) newNode cases g).
Proof. intros. unfold Grow. apply node_known. assumption. Qed.
Print Assumptions C150_tree.

(** ** The votes, on any matrix without missing values *)
Lemma cut3_known cs ll sr : cut3 (cs, ll, ll) = Ok sr -> srM sr = [].
Proof.
  unfold cut3. destruct (slice cs 0 ll) as [l| |]; cbn; try discriminate. destruct (slice cs ll (length cs)) as [r| |]; cbn; try discriminate.
  destruct (slice cs ll ll) as [m| |] eqn:E; cbn; try discriminate. intros [= <-]. cbn. unfold slice in E.
  destruct (_ && _); [|discriminate]. injection E as <-. rewrite Nat.sub_diag. destruct (skipn ll cs); reflexivity.
Qed.
Lemma split_known f code cases sr : (forall c, fmissing f c = false) -> fSplit f code cases = Ok sr -> srM sr = [].
Proof.
  intros H. destruct f as [f|f]; cbn [fSplit].
  - unfold nSplit. destruct code; try discriminate. destruct (split_loop _ _ cases) as [[[cs ll] lr]| |] eqn:E; cbn [bind]; try discriminate.
    apply nothing_between in E; [subst; apply cut3_known|]. intros c. apply missq_known, (H c).
  - unfold cSplit. destruct (split_loop _ _ cases) as [[[cs ll] lr]| |] eqn:E; cbn [bind]; try discriminate.
    apply nothing_between in E; [subst; apply cut3_known|]. intros c. apply missq_known, (H c).
Qed.
Lemma spl_known f s cases sr : (forall c, fmissing f c = false) -> splSplitF f s cases = Ok sr -> srM sr = [].
Proof.
  intros H. unfold splSplitF. destruct (split_loop _ _ cases) as [[[cs ll] lr]| |] eqn:E; cbn [bind]; try discriminate.
  apply nothing_between in E; [subst; apply cut3_known|]. intros c. destruct f as [f|f]; cbn; apply (missq_known _ _ c (H c)).
Qed.
Lemma get_in {X} (l : list X) i x : get l i = Ok x -> In x l.
Proof. unfold get. destruct (nth_error l i) eqn:E; [|discriminate]. intros [= <-]. eapply nth_error_In; eauto. Qed.
Lemma node_split_known fm d cases sr : all_known (fmData fm) -> node_split fm d cases = Ok (Some sr) -> srM sr = [].
Proof.
  intros Hk. unfold node_split. destruct (negb (isCNil (dCode d))).
  - destruct (get (fmData fm) (dFeat d)) as [f| |] eqn:Ef; cbn; try discriminate. destruct (fSplit f (dCode d) cases) as [x| |] eqn:E; cbn; try discriminate.
    intros [= <-]. eapply split_known; [|exact E]. apply Hk. eapply get_in; eauto.
  - destruct (dSpl d) as [s|]; [|discriminate]. unfold splSplit. destruct (fmLookup fm (sFeature s)) as [f| |] eqn:Ef; cbn; try discriminate.
    destruct (splSplitF f s cases) as [x| |] eqn:E; cbn; try discriminate. intros [= <-]. eapply spl_known; [|exact E]. apply Hk. eapply get_in; eauto.
Qed.

(** The same nodes but for the missing branches. *)
Fixpoint alike (n n' : node) : Prop :=
  match n, n' with
  | Nil, Nil => True
  | Node d l r _, Node d' l' r' _ => d = d' /\ alike l l' /\ alike r r'
  | _, _ => False
  end.
Lemma dress_alike n : alike n (dress n).
Proof. induction n; cbn; auto. Qed.
Lemma filed_alike n : leaves_bare n -> alike n (as_filed n).
Proof.
  induction n as [|d l IHl r IHr m IHm]; [auto|]. cbn [leaves_bare as_filed]. intros (H1 & H2 & H3 & H4).
  destruct (dSpl d); [cbn; auto|]. destruct (H1 eq_refl) as (-> & -> & _). cbn. auto.
Qed.

(** Every pass of Recurse that does not look at the missing branch of a node itself. *)
Theorem C150_recurse : forall St (r : visit -> St -> res St) fm, all_known (fmData fm) ->
  (forall n n' lo hi cs depth st, alike n n' -> r (mkVisit n' lo hi cs depth) st = r (mkVisit n lo hi cs depth) st) ->
  forall n n' arr lo hi depth st, alike n n' -> Recurse r fm n' arr lo hi depth st = Recurse r fm n arr lo hi depth st.
Proof.
  intros St r fm Hk Hr. induction n as [|d l IHl rr IHr m IHm]; intros [|d' l' r' m'] arr lo hi depth st Ha; try (destruct Ha; fail); [reflexivity|].
  pose proof Ha as (<- & Hl & Hrr). cbn [Recurse].
  apply bind_ext. intros cases _. rewrite (Hr _ _ lo hi cases depth st Ha). apply bind_ext. intros st0 _. apply bind_ext. intros [sr|] Esr; [|reflexivity].
  rewrite (IHl _ _ _ _ _ _ Hl). apply bind_ext. intros [arr1 st1] _.
  rewrite (IHr _ _ _ _ _ _ Hrr). apply bind_ext. intros [arr2 st2] _. rewrite (node_split_known fm d cases sr Hk Esr). reflexivity.
Qed.
Print Assumptions C150_recurse.

Theorem C150_votes : forall fm n n' tw cases bb, all_known (fmData fm) -> alike n n' -> VoteCases fm n' tw cases bb = VoteCases fm n tw cases bb.
Proof.
  intros fm n n' tw cases bb Hk Ha. unfold VoteCases. apply C150_recurse; auto. intros x x' lo hi cs depth st Hx. cbn [vNode vCases].
  destruct x as [|d l r m], x' as [|d' l' r' m']; try (destruct Hx; fail); [reflexivity|]. destruct Hx as (<- & Hl & Hr). cbn [isLeaf bind node_pred].
  assert (E : forall a b, alike a b -> isNil b = isNil a) by (intros [|] [|] X; cbn in X; auto; destruct X).
  rewrite (E _ _ Hl), (E _ _ Hr). reflexivity.
Qed.
Print Assumptions C150_votes.
(** So the right branch that forest files hold in place of the missing branch (C53) does no
    harm to cases without missing values. *)
Corollary C150_filed : forall fm n tw cases bb, all_known (fmData fm) -> leaves_bare n -> VoteCases fm (as_filed n) tw cases bb = VoteCases fm n tw cases bb.
Proof. intros fm n tw cases bb Hk Hl. apply C150_votes; [exact Hk|apply filed_alike, Hl]. Qed.
Print Assumptions C150_filed.

(** Growing and voting: the votes of the tree grown with -splitmissing on training and other
    cases are those of the tree grown without. *)
Corollary C150_grown_votes : forall A St (T : target A St) predict rnd K kCopyFrom kShuffleCases kTarget p fuel cases g fm n g' tw cases' bb,
  all_known (pData p) -> all_known (fmData fm) ->
  Grow A St T predict rnd K kCopyFrom kShuffleCases kTarget fuel (missing_set false p) newNode cases g = Ok (n, g') ->
  exists n', Grow A St T predict rnd K kCopyFrom kShuffleCases kTarget fuel (missing_set true p) newNode cases g = Ok (n', g') /\
    VoteCases fm n' tw cases' bb = VoteCases fm n tw cases' bb.
Proof.
  intros A St T predict rnd K kCopyFrom kShuffleCases kTarget p fuel cases g fm n g' tw cases' bb H1 H2 E. exists (dress n).
  rewrite C150_tree by exact H1. rewrite E. split; [reflexivity|apply C150_votes; [exact H2|apply dress_alike]].
Qed.
Print Assumptions C150_grown_votes.

(** Values 1, 2, 3 with classes x, y, x: two splits, each gets its empty branch. *)
Lemma plain_known vs : all_known [FNum (PropSearch.plain vs)].
Proof.
  intros f [<-|[]] c. cbn. unfold nmissing. cbn. destruct (nth_in_or_default c (map (fun _ : f64 => false) vs) false) as [H|H]; [|exact H].
  apply in_map_iff in H as (x & <- & _). reflexivity.
Qed.
Example C150_ex_known : all_known (pData (band_p 0 false)).
Proof. apply plain_known. Qed.
Definition known_tree (sm : bool) : option node := tree_of (gini_grow band_class 10 (band_p 0 sm) newNode (seq 0 9) (start 9 1)).
Example C150_ex : missing_set true (band_p 0 false) = band_p 0 true /\ option_map dress (known_tree false) = known_tree true /\
  option_map (fun n => length (nodes_of n)) (known_tree false) = Some 5 /\ option_map (fun n => length (nodes_of n)) (known_tree true) = Some 7.
Proof. split; [reflexivity|]. vm_compute. auto. Qed.
