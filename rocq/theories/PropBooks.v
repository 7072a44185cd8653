(** C153: recording importances and depths has no influence. *)
From Verif Require Import Go GoLemmas F64 ModelFeature ModelSample ModelSplit ModelTree TreeSpec
  ModelBallot ModelSearch GrowSpec ModelTargets ModelGrow ModelJungle GrownSpec GrowProofs PropByName RowsProofs PropRows PropGrow2 PropLeftover PropOrderless.
From Verif Require PropSearch.
Local Open Scope string_scope.
Local Open Scope nat_scope.
Local Open Scope list_scope.

(** ** C153.  The claim in full: whether importances and the depths of features are recorded, and
    what was recorded before, has no influence on the trees and jungles grown; nor on what else is
    passed from node to node and from tree to tree. *)
Section Books.
  Variable A : arith.
  Variable St : Type.
  Variable T : target A St.
  Variable predict : list nat -> res string.
  Variable rnd : nat -> nat.
  Variable K : Type.
  Variable kCopyFrom : K -> K.
  Variable kShuffleCases : (nat -> nat) -> list nat -> K -> res K.
  Variable kTarget : K -> target A St.
  Variable p : params.
  Local Notation grow_visit := (grow_visit A St T predict rnd K kCopyFrom kShuffleCases kTarget).
  Local Notation grow_node := (grow_node A St T predict rnd K kCopyFrom kShuffleCases kTarget).
  Local Notation Grow := (Grow A St T predict rnd K kCopyFrom kShuffleCases kTarget).
  Local Notation gst := (gstate A St K).
  Local Notation jstate := (jstate A St K).

  (** The state without the two records. *)
  Definition strip (g : gst) : gst := mkG A St K (gCans g) (gOob g) (gAl g) (gK g) None None.
  Definition strip2 {X} (x : X * gst) : X * gst := (fst x, strip (snd x)).

  Lemma visit_strip d l r m cases depth nb (g : gst) x :
    grow_visit p d l r m cases depth nb g = Ok x -> grow_visit p d l r m cases depth nb (strip g) = Ok (strip2 x).
  Proof.
    unfold ModelGrow.grow_visit. cbn [strip gCans gOob gAl gK gImp gDepth]. destruct (_ && _).
    - intros E. apply bind_ok in E as (b & Eb & E). rewrite Eb. cbn [bind]. destruct (isCNil (bCode b)).
      + apply bind_ok in E as (q & Eq & E). rewrite Eq. injection E as <-. reflexivity.
      + apply bind_ok in E as ([imp du] & _ & E). apply bind_ok in E as (f & Ef & E). apply bind_ok in E as (spl & Es & E). injection E as <-.
        cbn [book bind]. rewrite Ef. cbn [bind]. rewrite Es. reflexivity.
    - intros E. apply bind_ok in E as (q & Eq & E). rewrite Eq. injection E as <-. reflexivity.
  Qed.
  Lemma node_strip : forall fuel n cases depth nb (g : gst) x,
    grow_node fuel p n cases depth nb g = Ok x -> grow_node fuel p n cases depth nb (strip g) = Ok (strip2 x).
  Proof.
    induction fuel as [|fuel IH]; intros n cases depth nb g x E; [discriminate|]. cbn [ModelGrow.grow_node] in *. destruct n as [|d l r m]; [discriminate|].
    apply bind_ok in E as ([v g1] & Ev & E). rewrite (visit_strip _ _ _ _ _ _ _ _ _ Ev). cbn [strip2 fst snd bind].
    destruct (isCNil (gvSplit v)); [injection E as <-; reflexivity|].
    apply bind_ok in E as (f & Ef & E). rewrite Ef. cbn [bind]. apply bind_ok in E as ([[cs li] ri] & Es & E). rewrite Es. cbn [bind].
    apply bind_ok in E as (lc & El & E). rewrite El. cbn [bind]. apply bind_ok in E as ([l' g2] & E1 & E). rewrite (IH _ _ _ _ _ _ E1). cbn [strip2 fst snd bind].
    apply bind_ok in E as (rc & Er & E). rewrite Er. cbn [bind]. apply bind_ok in E as ([r' g3] & E2 & E). rewrite (IH _ _ _ _ _ _ E2). cbn [strip2 fst snd bind].
    destruct (negb (li =? ri) && negb (isNil (gvM v))).
    - apply bind_ok in E as ([m' g4] & E3 & E). apply bind_ok in E3 as (mc & Em & E3). rewrite Em. cbn [bind]. rewrite (IH _ _ _ _ _ _ E3). cbn [strip2 fst snd bind].
      injection E as <-. reflexivity.
    - cbn [bind] in *. injection E as <-. reflexivity.
  Qed.

  (** The records have a place for every candidate. *)
  Definition wide (g : gst) : Prop := forall i, In i (gCans g) ->
    (forall l, gImp g = Some l -> i < length l) /\ (forall l, gDepth g = Some l -> i < length l).
  Lemma wide_kept cans cans' oob oob' al al' k k' imp imp' du du' us : Permutation cans cans' -> counted us imp imp' -> deep us du du' ->
    wide (mkG A St K cans oob al k imp du) -> wide (mkG A St K cans' oob' al' k' imp' du').
  Proof.
    intros P C D W i Hi. cbn in *. destruct (W i) as [W1 W2]; [cbn; eapply Permutation_in; [symmetry; exact P|exact Hi]|]. cbn in *. split; intros l ->.
    - unfold counted in C. destruct imp as [l0|]; [|destruct C]. destruct C as [-> _]. apply W1. reflexivity.
    - unfold deep in D. destruct du as [l0|]; [|destruct D]. destruct D as [-> _]. apply W2. reflexivity.
  Qed.
  Lemma visit_wide d l r m cases depth nb (g : gst) : wide g ->
    rmap strip2 (grow_visit p d l r m cases depth nb g) = grow_visit p d l r m cases depth nb (strip g) /\
    ifok (grow_visit p d l r m cases depth nb g) (fun x => wide (snd x)).
  Proof.
    intros W. unfold ModelGrow.grow_visit. cbn [strip gCans gOob gAl gK gImp gDepth]. destruct (_ && _).
    2:{ destruct (predict cases); cbn; (split; [reflexivity|]); [|discriminate..]. intros x [= <-]. exact W. }
    pose proof (BestSplitter_cans A St T rnd K kCopyFrom kShuffleCases kTarget p (gCans g) cases (gCans g) (gOob g) nb (gAl g) (gK g) (Permutation_refl _)) as B.
    destruct (BestSplitter A St T rnd K kCopyFrom kShuffleCases kTarget p cases (gCans g) (gOob g) nb (gAl g) (gK g)) as [b| |]; cbn [bind]; [|split; [reflexivity|discriminate]..].
    destruct (B _ eq_refl) as [B1 B2]. destruct (isCNil (bCode b)) eqn:Ec.
    - destruct (predict (bCases b)); cbn; (split; [reflexivity|]); [|discriminate..]. intros x [= <-]. cbn.
      destruct g. eapply wide_kept with (us := []); [exact B1|apply counted_nil|apply deep_nil|exact W].
    - destruct B2 as [B2|B2]; [rewrite B2 in Ec; discriminate|]. destruct (W _ B2) as [W1 W2].
      destruct (book_ok A (bFi b) depth (bDec b) (gImp g) (gDepth g) W1 W2) as (imp & du & Ebk & C1 & C2). rewrite Ebk. cbn [book bind].
      destruct (get (pData p) (bFi b)) as [f| |]; cbn [bind]; [|split; [reflexivity|discriminate]..].
      destruct (fDecodeSplit f (bCode b)) as [spl| |]; cbn [bind]; [|split; [reflexivity|discriminate]..].
      split; [reflexivity|]. intros x [= <-]. cbn. destruct g. eapply wide_kept; [exact B1|exact C1|exact C2|exact W].
  Qed.
  Lemma node_wide : forall fuel n cases depth nb (g : gst), wide g ->
    rmap strip2 (grow_node fuel p n cases depth nb g) = grow_node fuel p n cases depth nb (strip g) /\
    ifok (grow_node fuel p n cases depth nb g) (fun x => wide (snd x)).
  Proof.
    induction fuel as [|fuel IH]; intros n cases depth nb g W; cbn [ModelGrow.grow_node]; [split; [reflexivity|discriminate]|].
    destruct n as [|d l r m]; [split; [reflexivity|discriminate]|].
    destruct (visit_wide d l r m cases depth nb g W) as [E I]. rewrite <- E. clear E.
    destruct (grow_visit p d l r m cases depth nb g) as [[v g1]| |]; cbn [rmap strip2 fst snd bind]; [|split; [reflexivity|discriminate]..].
    specialize (I _ eq_refl). cbn [snd] in I.
    destruct (isCNil (gvSplit v)); [split; [reflexivity|]; intros x [= <-]; exact I|].
    destruct (get (pData p) (gvFi v)) as [f| |]; cbn [bind]; [|split; [reflexivity|discriminate]..].
    destruct (fSplitPoints f (gvSplit v) (gvCases v)) as [[[cs li] ri]| |]; cbn [bind]; [|split; [reflexivity|discriminate]..].
    destruct (slice cs 0 li) as [lc| |]; cbn [bind]; [|split; [reflexivity|discriminate]..].
    destruct (IH (gvL v) lc (S depth) (gvConsts v) g1 I) as [E1 I1]. rewrite <- E1. clear E1.
    destruct (grow_node fuel p (gvL v) lc (S depth) (gvConsts v) g1) as [[l' g2]| |]; cbn [rmap strip2 fst snd bind]; [|split; [reflexivity|discriminate]..].
    specialize (I1 _ eq_refl). cbn [snd] in I1.
    destruct (slice cs ri (length cs)) as [rc| |]; cbn [bind]; [|split; [reflexivity|discriminate]..].
    destruct (IH (gvR v) rc (S depth) (gvConsts v) g2 I1) as [E2 I2]. rewrite <- E2. clear E2.
    destruct (grow_node fuel p (gvR v) rc (S depth) (gvConsts v) g2) as [[r' g3]| |]; cbn [rmap strip2 fst snd bind]; [|split; [reflexivity|discriminate]..].
    specialize (I2 _ eq_refl). cbn [snd] in I2.
    destruct (negb (li =? ri) && negb (isNil (gvM v))).
    - destruct (slice cs li ri) as [mc| |]; cbn [bind]; [|split; [reflexivity|discriminate]..].
      destruct (IH (gvM v) mc (S depth) (gvConsts v) g3 I2) as [E3 I3]. rewrite <- E3. clear E3.
      destruct (grow_node fuel p (gvM v) mc (S depth) (gvConsts v) g3) as [[m' g4]| |]; cbn [rmap strip2 fst snd bind]; [|split; [reflexivity|discriminate]..].
      specialize (I3 _ eq_refl). cbn [snd] in I3. split; [reflexivity|]. intros x [= <-]. exact I3.
    - cbn [bind rmap]. split; [reflexivity|]. intros x [= <-]. exact I2.
  Qed.

  (** *** Jungles *)
  Local Notation jvisit := (jvisit A St T predict rnd K kCopyFrom kShuffleCases kTarget).
  Definition jstrip (s : jstate) : jstate := mkS A St K (sHeap s) (sNodes s) (sCases s) (strip (sG s)).
  Lemma jleaf_strip e inner s x : jleaf A St predict K e inner s = Ok x -> jleaf A St predict K e inner (jstrip s) = Ok (jstrip x).
  Proof.
    unfold jleaf. intros E. apply bind_ok in E as (n & En & E). apply bind_ok in E as (q & Eq & E). apply bind_ok in E as (h & Eh & E). injection E as <-.
    cbn [jstrip sHeap]. rewrite En. cbn [bind]. rewrite Eq. cbn [bind]. rewrite Eh. reflexivity.
  Qed.
  Lemma jsplit_strip e depth b s x : jsplit A St K p e depth b s = Ok x -> jsplit A St K p e depth b (jstrip s) = Ok (jstrip x).
  Proof.
    unfold jsplit. intros E. apply bind_ok in E as ([imp du] & _ & E). apply bind_ok in E as (f & Ef & E). apply bind_ok in E as (spl & Es & E).
    apply bind_ok in E as ([[cs li] ri] & Ep & E). apply bind_ok in E as (n & En & E). apply bind_ok in E as (h & Eh & E). injection E as <-.
    cbn [jstrip strip sHeap sG gImp gDepth book bind]. rewrite Ef. cbn [bind]. rewrite Es. cbn [bind]. rewrite Ep. cbn [bind]. rewrite En. cbn [bind]. rewrite Eh. reflexivity.
  Qed.
  Lemma jvisit_strip depth i s x : jvisit p depth i s = Ok x -> jvisit p depth i (jstrip s) = Ok (jstrip x).
  Proof.
    unfold ModelJungle.jvisit. intros E. apply bind_ok in E as (e & Ee & E). cbn [jstrip sNodes sCases sHeap sG]. rewrite Ee. cbn [bind].
    destruct (eDead e); [injection E as <-; reflexivity|]. apply bind_ok in E as (inner & Ei & E). rewrite Ei. cbn [bind].
    destruct (_ && _); [|apply jleaf_strip, E]. apply bind_ok in E as (b & Eb & E). cbn [strip gCans gOob gAl gK gImp gDepth]. rewrite Eb. cbn [bind].
    destruct (isCNil (bCode b)); [apply (jleaf_strip _ _ _ _ E)|apply (jsplit_strip _ _ _ _ _ E)].
  Qed.
  Lemma for_up_carried {X Y} (h : X -> Y) (b : nat -> X -> res X) (b' : nat -> Y -> res Y) n : (forall i s s', b i s = Ok s' -> b' i (h s) = Ok (h s')) ->
    forall lo s s', for_up n lo b s = Ok s' -> for_up n lo b' (h s) = Ok (h s').
  Proof.
    intros H. induction n as [|n IH]; intros lo s s' E; cbn [for_up] in *; [injection E as <-; reflexivity|].
    apply bind_ok in E as (s1 & E1 & E). rewrite (H _ _ _ E1). apply IH, E.
  Qed.
  Definition fmap_flow {X Y U V} (h : X -> Y) (k : U -> V) (o : flow X U) : flow Y V := match o with Next x => Next (h x) | Done u => Done (k u) end.
  Lemma loop_carried {X Y U V} (h : X -> Y) (k : U -> V) (b : X -> res (flow X U)) (b' : Y -> res (flow Y V)) :
    (forall s o, b s = Ok o -> b' (h s) = Ok (fmap_flow h k o)) -> forall n s r, loop n b s = Ok r -> loop n b' (h s) = Ok (k r).
  Proof.
    intros H. induction n as [|n IH]; intros s r E; cbn [loop] in *; [discriminate|]. apply bind_ok in E as (o & Eo & E). rewrite (H _ _ Eo). cbn [bind].
    destruct o; cbn [fmap_flow]; [apply IH, E|injection E as <-; reflexivity].
  Qed.
  Lemma merging_strip last s x : merging A St T K last s = Ok x -> merging A St T K last (jstrip s) = Ok (jstrip x).
  Proof.
    unfold merging. cbn [jstrip sNodes]. apply (loop_carried jstrip jstrip). clear. intros s o E. apply bind_ok in E as ([ch s1] & Em & E).
    assert (Em' : merge_pass A St T K last (jstrip s) = Ok (ch, jstrip s1)).
    { unfold merge_pass in *. cbn [jstrip sNodes]. refine (for_up_carried (fun x : bool * jstate => (fst x, jstrip (snd x))) _ _ _ _ last (false, s) (ch, s1) Em).
      clear. intros i [c s] [c' s'] E. cbn [fst snd]. apply bind_ok in E as (e & Ee & E). cbn [jstrip sNodes] in *. rewrite Ee. cbn [bind].
      destruct (eDead e); [injection E as <- <-; reflexivity|]. apply bind_ok in E as ([cb tg] & Ep & E).
      change (partner A St T K i last (jstrip s)) with (partner A St T K i last s). rewrite Ep. cbn [bind].
      destruct cb as [j|]; [|injection E as <- <-; reflexivity]. apply bind_ok in E as (s2 & E2 & E). injection E as <- <-.
      unfold merge in *. apply bind_ok in E2 as (ni & E3 & E2). apply bind_ok in E2 as (nj & E4 & E2). apply bind_ok in E2 as (ns & E5 & E2).
      cbn [with_tgt jstrip sNodes sHeap] in *. rewrite E3. cbn [bind]. rewrite E4. cbn [bind]. rewrite E5. cbn [bind].
      destruct (eParent nj) as [q|]; [|discriminate]. apply bind_ok in E2 as (pa & E6 & E2). apply bind_ok in E2 as (h & E7 & E2). injection E2 as <-.
      rewrite E6. cbn [bind]. rewrite E7. reflexivity. }
    rewrite Em'. cbn [bind]. destruct ch; injection E as <-; reflexivity.
  Qed.

  (** *** Trees *)
Theorem C153_tree : forall fuel n cases g n' g',
    Grow fuel p n cases g = Ok (n', g') -> Grow fuel p n cases (strip g) = Ok (n', strip g').
  Proof. intros fuel n cases g n' g' E. apply (node_strip _ _ _ _ _ _ _ E). Qed.
  (** With a place for each candidate every outcome is the same. *)
Theorem C153_outcome : forall fuel n cases g, wide g ->
    rmap strip2 (Grow fuel p n cases g) = Grow fuel p n cases (strip g).
  Proof. intros fuel n cases g W. apply (node_wide _ _ _ _ _ _ W). Qed.
  (** Two records that differ: the same trees. *)
Corollary C153_any_records : forall fuel n cases g1 g2, strip g1 = strip g2 -> wide g1 -> wide g2 ->
    rmap strip2 (Grow fuel p n cases g1) = rmap strip2 (Grow fuel p n cases g2).
  Proof. intros fuel n cases g1 g2 E W1 W2. rewrite !C153_outcome by assumption. rewrite E. reflexivity. Qed.
  (** All the trees of a goroutine. *)
Theorem C153_goroutine : forall fuel jobs tree g trees g', worker A St K (fun n cases g => Grow fuel p n cases g) jobs tree g = Ok (trees, g') ->
    worker A St K (fun n cases g => Grow fuel p n cases g) jobs tree (strip g) = Ok (map (fun t => (fst t, None)) trees, strip g').
  Proof.
    intros fuel. induction jobs as [|[cases oob] jobs IH]; intros tree g trees g' E; cbn [worker] in *; [injection E as <- <-; reflexivity|].
    apply bind_ok in E as ([t1 g1] & E1 & E). apply bind_ok in E as ([ts g2] & E2 & E). injection E as <- <-.
    change (with_oob (strip g) oob) with (strip (with_oob g oob)). rewrite (C153_tree _ _ _ _ _ _ E1). cbn [bind].
    change (cleared_depths (strip g1)) with (strip (cleared_depths g1)). rewrite (IH _ _ _ _ E2). reflexivity.
  Qed.
  (** Jungles. *)
Theorem C153_jungle : forall fuel cases g s, GrowJungle A St T predict rnd K kCopyFrom kShuffleCases kTarget p fuel cases g = Ok s ->
    GrowJungle A St T predict rnd K kCopyFrom kShuffleCases kTarget p fuel cases (strip g) = Ok (jstrip s).
  Proof.
    intros fuel cases g s. unfold GrowJungle, levels. change (mkS A St K [jnew] [mkE 0 0 (length cases) 0 None false] cases (strip g)) with
      (jstrip (mkS A St K [jnew] [mkE 0 0 (length cases) 0 None false] cases g)).
    apply (loop_carried (fun x : nat * nat * jstate => (fst x, jstrip (snd x))) jstrip _ _) with (s := (0, 0, mkS A St K [jnew] [mkE 0 0 (length cases) 0 None false] cases g)).
    intros [[first depth] s0] o E. cbn [fst snd]. apply bind_ok in E as (s1 & E1 & E). change (sNodes (jstrip s0)) with (sNodes s0).
    pose proof (for_up_carried jstrip (jvisit p depth) (jvisit p depth) _ (jvisit_strip depth) _ _ _ E1) as E1'. rewrite E1'. cbn [bind]. change (sNodes (jstrip s1)) with (sNodes s1).
    destruct (length (sNodes s1) =? length (sNodes s0)); [injection E as <-; reflexivity|]. apply bind_ok in E as (s3 & E3 & E).
    apply merging_strip in E3. rewrite E3. injection E as <-. reflexivity.
  Qed.
End Books.
Print Assumptions C153_tree.
Print Assumptions C153_outcome.
Print Assumptions C153_any_records.
Print Assumptions C153_goroutine.
Print Assumptions C153_jungle.

(** Values 1, 2, 3 with classes x, y, x: the records fill up, the tree and the rest are the same. *)
Definition band_records (g : gstate F64 cst unit) := gini_grow band_class 10 (band_p 0 false) newNode (seq 0 9) g.
Definition records_of (r : res (node * gstate F64 cst unit)) : option (option (list nat) * bool) :=
  match r with Ok (_, g) => Some (gDepth g, match gImp g with Some _ => true | None => false end) | _ => None end.
Example C153_ex : tree_of (band_records (start 9 1)) = tree_of (band_records (strip F64 cst unit (start 9 1))) /\
  option_map (fun n => length (nodes_of n)) (tree_of (band_records (start 9 1))) = Some 5 /\
  records_of (band_records (start 9 1)) = Some (Some [1], true) /\ records_of (band_records (strip F64 cst unit (start 9 1))) = Some (None, false).
Proof. vm_compute. auto. Qed.
Example C153_ex_wide : wide F64 cst unit (start 9 1).
Proof. intros i [<-|[]]. split; intros l [= <-]; cbn; lia. Qed.
