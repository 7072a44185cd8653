(** C39-C42, C71, C78, C79: concrete trees, and the parts of the claims that fail. *)
From Verif Require Import Go GoLemmas F64 Exact F64Order F64Round ModelFeature ModelSplit SplitSpec SplitProofs ModelTree TreeSpec
  ModelBallot ModelSearch SearchSpec GrowSpec TotalSearch ModelTargets TargetProofs ModelGrow SplitterProofs Dependable GrownSpec
  GrowProofs PropGrow.
From Verif Require PropTree PropFeatureSearch PropSearch PropCatSearch PropSplitter PropImpurity3.
Local Open Scope string_scope.
Local Open Scope nat_scope.
Local Open Scope list_scope.

(** Growing with the Gini target over two classes x and y, rand.Intn always 0. *)
Definition label (classes : list nat) : catF := PropCatSearch.cats ["x"; "y"] classes false.
Definition start_any (A : arith) (n nf : nat) : gstate A cst unit :=
  mkG A cst unit (seq 0 nf) [] (PropSearch.fresh n) tt (Some (repeat (@mkRM A (nofZ A 0) (nofZ A 0)) nf)) (Some (repeat 0 nf)).
Definition start := start_any F64.
Definition gini_grow (classes : list nat) (fuel : nat) (p : params) (root : node) (cases : list nat) (g : gstate F64 cst unit) :=
  Grow F64 cst (gini_target F64 classes) (cFindPredicted (label classes)) (fun _ => 0) unit (fun k => k) (fun _ _ k => Ok k)
    (fun _ => gini_target F64 classes) fuel p root cases g.
Definition tree_of {G} (r : res (node * G)) : option node := match r with Ok (n, _) => Some n | _ => None end.
Definition depths {A St K} (r : res (node * gstate A St K)) : option (list nat) :=
  match r with Ok (_, g) => gDepth g | _ => None end.

(** Values 1, 2, 3 with classes x, y, x. *)
Definition band : list f64 := map f_of_Z [1; 1; 1; 2; 2; 3; 3; 3; 3]%Z.
Definition band_class : list nat := [0; 0; 0; 1; 1; 0; 0; 0; 0].
Definition band_p (deep : nat) (sm : bool) : params := mkP [FNum (PropSearch.plain band)] 1 1 false false false false deep sm.


(** The hypotheses of the theorems of PropGrow hold for such data. *)
Lemma label_predicts classes cs : Forall (in_data classes 2) cs -> exists s, cFindPredicted (label classes) cs = Ok s.
Proof.
  intros H. destruct (PropImpurity3.C49_plain_majority (label classes) cs) as (k & _ & _ & _ & s & _ & E).
  - cbn. lia.
  - eapply Forall_impl; [|exact H]. intros c [Hc _]. cbn. rewrite map_length. exact Hc.
  - apply Forall_forall. intros c Hc. apply filter_In in Hc as [Hc _]. rewrite Forall_forall in H. apply H, Hc.
  - exists s. exact E.
Qed.

Lemma plain_value vs c : c < length vs -> In (nvalue (PropSearch.plain vs) c) vs.
Proof. intros H. unfold nvalue. cbn. apply nth_In, H. Qed.

Definition usual (v : f64) : bool := valid_binary 53 1024 v && negb (is_nan v).
Definition spaced (vs : list f64) : bool :=
  forallb (fun v => forallb (fun w => implb (fltb v w) (fltb (fadd v f1e_7) w)) vs) vs.
Definition modest (v : f64) : bool := fleb (fabs v) (f_of_Z (2 ^ 29)).

Lemma plain_searchable vs cases : forallb usual vs = true -> Forall (fun c => c < length vs) cases ->
  searchable (FNum (PropSearch.plain vs)) cases.
Proof.
  intros Hv Hc. split.
  - intros c E. cbn in E. unfold nmissing in E. cbn in E. exfalso.
    destruct (nth_in_or_default c (map (fun _ : f64 => false) vs) false) as [Hi|E2]; [|congruence].
    rewrite E in Hi. apply in_map_iff in Hi as (? & ? & _). discriminate.
  - split; [eapply Forall_impl; [|exact Hc]; intros c H; cbn; rewrite map_length; auto|].
    intros c H. apply filter_In in H as [H _]. rewrite Forall_forall in Hc. apply Hc in H.
    rewrite forallb_forall in Hv. pose proof (Hv _ (plain_value _ _ H)) as U. unfold usual in U.
    apply andb_true_iff in U as [U1 U2]. apply negb_true_iff in U2. auto.
Qed.
Lemma plain_apart vs cases : spaced vs = true -> Forall (fun c => c < length vs) cases -> SearchSpec.apart (PropSearch.plain vs) cases.
Proof.
  intros Hs Hc c d H1 H2 L. rewrite Forall_forall in Hc. unfold spaced in Hs. rewrite forallb_forall in Hs.
  specialize (Hs _ (plain_value _ _ (Hc c H1))). rewrite forallb_forall in Hs.
  specialize (Hs _ (plain_value _ _ (Hc d H2))). rewrite L in Hs. exact Hs.
Qed.
Lemma plain_faithful vs cases : forallb usual vs = true -> forallb modest vs = true -> spaced vs = true ->
  Forall (fun c => c < length vs) cases -> faithful (FNum (PropSearch.plain vs)) cases.
Proof.
  intros Hv Hm Hs Hc. rewrite forallb_forall in Hv, Hm. split.
  - intros c H. apply filter_In in H as [H _]. rewrite Forall_forall in Hc. apply Hc in H.
    pose proof (Hv _ (plain_value _ _ H)) as U. apply andb_true_iff in U as [U1 _].
    split; [exact U1|]. exact (Hm _ (plain_value _ _ H)).
  - apply plain_apart; auto. apply Forall_forall. intros c H. apply filter_In in H as [H _].
    rewrite Forall_forall in Hc. auto.
Qed.

Local Notation growable_any A classes p :=
  (growable A cst (gini_target A classes) (cFindPredicted (label classes)) unit (fun k => k) (fun _ _ k => Ok k)
    (fun _ => gini_target A classes) p (in_data classes 2) (cst_ready 2) (fun _ => True)).
Local Notation growable_here classes p :=
  (growable F64 cst (gini_target F64 classes) (cFindPredicted (label classes)) unit (fun k => k) (fun _ _ k => Ok k)
    (fun _ => gini_target F64 classes) p (in_data classes 2) (cst_ready 2) (fun _ => True)).

Lemma single_growable_any A classes vs p cases : sane A ->
  forallb usual vs = true -> forallb modest vs = true -> spaced vs = true ->
  forallb (fun c => c <? 2) classes = true -> length classes = length vs ->
  Forall (fun c => c < length vs) cases -> length cases <= length vs ->
  pData p = [FNum (PropSearch.plain vs)] -> 1 <= pLeaf p -> pTry p <= 1 -> pVet p = false -> pEvalOob p = false ->
  growable_any A classes p cases (start_any A (length vs) 1).
Proof.
  intros Sa Hv Hm Hs Hk Hl Hc Ln Ed E1 E2 E3 E4.
  assert (Hr : cst_ready 2 (aTgt (PropSearch.fresh (length vs)))) by (repeat split; cbn; auto).
  assert (Hok : Forall (in_data classes 2) cases).
  { eapply Forall_impl; [|exact Hc]. intros c H. cbn beta in H. split; [lia|]. rewrite forallb_forall in Hk.
    apply Nat.ltb_lt, Hk, nth_In. lia. }
  constructor; try congruence; auto.
  - apply gini_dependable.
  - apply label_predicts.
  - intros i [<-|[]]. exists (FNum (PropSearch.plain vs)). rewrite Ed. split; auto.
    split; [apply plain_searchable; auto|]. split; [apply plain_faithful; auto|congruence].
  - cbn. split; cbn; rewrite repeat_length; auto.
  - intros l [= <-]. repeat constructor.
  - intros l [= <-]. repeat constructor.
Qed.

Lemma single_growable classes vs p cases :
  forallb usual vs = true -> forallb modest vs = true -> spaced vs = true ->
  forallb (fun c => c <? 2) classes = true -> length classes = length vs ->
  Forall (fun c => c < length vs) cases -> length cases <= length vs ->
  pData p = [FNum (PropSearch.plain vs)] -> 1 <= pLeaf p -> pTry p <= 1 -> pVet p = false -> pEvalOob p = false ->
  growable_here classes p cases (start (length vs) 1).
Proof. apply (single_growable_any F64), sane_F64. Qed.

(** also in exact arithmetic, for C71 *)
Example ex_band_growable_XR deep sm : Forall (fun cs => growable_any XR band_class (band_p deep sm) cs (start_any XR 9 1))
  [seq 0 9; seq 2 4; [1; 1; 3; 3; 5]].
Proof.
  assert (H : forall cs, Forall (fun c => c < 9) cs -> length cs <= 9 ->
    growable_any XR band_class (band_p deep sm) cs (start_any XR 9 1)).
  { intros cs H1 H2. apply single_growable_any with (vs := band); try reflexivity; auto. apply PropFeatureSearch.sane_XR. }
  apply Forall_cons; [|apply Forall_cons; [|apply Forall_cons; [|apply Forall_nil]]]; apply H;
    try (apply PropSplitter.upto_cases; lia); try (cbn; lia). repeat (apply Forall_cons; [lia|]). apply Forall_nil.
Qed.
Example ex_band_growable deep sm : growable_here band_class (band_p deep sm) (seq 0 9) (start 9 1).
Proof.
  apply single_growable with (vs := band); try reflexivity; [apply PropSplitter.upto_cases; cbn; lia|cbn; lia..].
Qed.
(** two splits, three leaves *)
Definition shape {G} (r : res (node * G)) : option (list path * list (path * string)) :=
  match r with
  | Ok (n, _) =>
      Some (split_paths n,
            (fix leaves n q := match n with
                               | Nil => []
                               | Node d l r m =>
                                   if terminal d then [(rev q, dPred d)]
                                   else leaves l (DL :: q) ++ leaves r (DR :: q) ++ leaves m (DM :: q)
                               end) n [])
  | _ => None
  end.
Definition ran {G} (r : res (node * G)) : Prop := exists n g, r = Ok (n, g).
Lemma shape_ran {G} (r : res (node * G)) s : shape r = Some s -> ran r.
Proof. destruct r as [[n g]| |]; cbn; try discriminate. exists n, g. auto. Qed.
Example ex_band_shape : shape (gini_grow band_class 10 (band_p 0 false) newNode (seq 0 9) (start 9 1)) =
  Some ([[]; [DL]], [([DL; DL], "x"); ([DL; DR], "y"); ([DR], "x")]).
Proof. vm_compute. reflexivity. Qed.
Example ex_band_limited : shape (gini_grow band_class 10 (band_p 1 false) newNode (seq 0 9) (start 9 1)) =
  Some ([[]], [([DL], "x"); ([DR], "x")]).
Proof. vm_compute. reflexivity. Qed.

(** ** C71: the depth 0 of the root is taken for "not used" *)
Theorem C71_depth_refuted :
  ~ (forall classes vs cases leaf, growable_here classes (mkP [FNum (PropSearch.plain vs)] 1 leaf false false false false 0 false) cases
         (start (length vs) 1) ->
     forall n g' l', gini_grow classes (S (length cases)) (mkP [FNum (PropSearch.plain vs)] 1 leaf false false false false 0 false)
         newNode cases (start (length vs) 1) = Ok (n, g') -> gDepth g' = Some l' ->
     forall i q, splits_on n i q -> exists e, nth_error l' i = Some e /\ e <= length q).
Proof.
  intros H. specialize (H band_class band (seq 0 9) 1 (ex_band_growable 0 false)).
  assert (D : depths (gini_grow band_class 10 (band_p 0 false) newNode (seq 0 9) (start 9 1)) = Some [1]) by (vm_compute; reflexivity).
  assert (Q : option_map (fun n => match n with Node d _ _ _ => (terminal d, dFeat d) | Nil => (true, 0) end)
     (tree_of (gini_grow band_class 10 (band_p 0 false) newNode (seq 0 9) (start 9 1))) = Some (false, 0)) by (vm_compute; reflexivity).
  change (S (length (seq 0 9))) with 10 in H. change (length band) with 9 in H.
  change (mkP [FNum (PropSearch.plain band)] 1 1 false false false false 0 false) with (band_p 0 false) in H.
  revert H D Q. generalize (gini_grow band_class 10 (band_p 0 false) newNode (seq 0 9) (start 9 1)).
  intros [[n g']| |] H D Q; cbn in D, Q; try discriminate.
  destruct n as [|d l r m]; [discriminate|]. injection Q as T1 T2.
  destruct (H _ _ [1] eq_refl D 0 []) as (e & E & L); [exists d, l, r, m; auto|].
  injection E as <-. cbn in L. lia.
Qed.

(** ** C78: with splitmissing the branch for missing values is made even when no
    training case goes there, and its prediction is the empty string *)
Theorem C78_leaf_without_prediction_refuted :
  ~ (forall classes vs cases leaf, growable_here classes (mkP [FNum (PropSearch.plain vs)] 1 leaf false false false false 0 true) cases
         (start (length vs) 1) ->
     forall n g', gini_grow classes (S (length cases)) (mkP [FNum (PropSearch.plain vs)] 1 leaf false false false false 0 true)
         newNode cases (start (length vs) 1) = Ok (n, g') ->
     forall q d l r m, at_path n q = Node d l r m -> terminal d = true -> In (dPred d) ["x"; "y"]).
Proof.
  intros H. specialize (H band_class band (seq 0 9) 1 (ex_band_growable 0 true)).
  assert (Q : option_map (fun n => match at_path n [DM] with Node d _ _ _ => Some (terminal d, dPred d) | Nil => None end)
     (tree_of (gini_grow band_class 10 (band_p 0 true) newNode (seq 0 9) (start 9 1))) = Some (Some (true, ""))) by (vm_compute; reflexivity).
  change (S (length (seq 0 9))) with 10 in H. change (length band) with 9 in H.
  change (mkP [FNum (PropSearch.plain band)] 1 1 false false false false 0 true) with (band_p 0 true) in H.
  revert H Q. generalize (gini_grow band_class 10 (band_p 0 true) newNode (seq 0 9) (start 9 1)).
  intros [[n g']| |] H Q; cbn [tree_of option_map] in Q; try discriminate.
  specialize (H n g' eq_refl [DM]).
  destruct (at_path n [DM]) as [|d l r m]; [discriminate|]. injection Q as T1 T2.
  specialize (H d l r m eq_refl T1). rewrite T2 in H. destruct H as [H|[H|[]]]; discriminate.
Qed.

(** ** C41: regrowing leaves the nodes of the old tree below new leaves, and a leaf
    is recognised by missing children *)
Definition only (vs : list f64) : fmatrix := mkFM [FNum (PropSearch.plain vs)] [("", 0)] (map (fun _ => "case") vs).
(** the votes of a tree grown again, and of the one grown from scratch *)
Definition again (classes : list nat) (p : params) (vs : list f64) (bag1 bag2 : list nat) : res (ballots * ballots) :=
  let* (n1, _) := gini_grow classes (S (length bag1)) p newNode bag1 (start (length vs) 1) in
  let* (n2, _) := gini_grow classes (S (length bag2)) p n1 bag2 (start (length vs) 1) in
  let* (n3, _) := gini_grow classes (S (length bag2)) p newNode bag2 (start (length vs) 1) in
  let* (_, v) := VoteCases (only vs) n2 f1 (seq 0 (length vs)) [] in
  let* (_, w) := VoteCases (only vs) n3 f1 (seq 0 (length vs)) [] in
  Ok (v, w).
Theorem C41_regrown_tree_does_not_vote_refuted :
  ~ (forall classes vs leaf bag1 bag2 v w,
     let p := mkP [FNum (PropSearch.plain vs)] 1 leaf false false false false 0 false in
     growable_here classes p bag1 (start (length vs) 1) -> growable_here classes p bag2 (start (length vs) 1) ->
     again classes p vs bag1 bag2 = Ok (v, w) ->
     forall c, In c bag2 -> exists s, In (c, s, f1) v).
Proof.
  intros H.
  assert (E : exists w, again band_class (band_p 0 false) band (seq 0 9) [0; 1; 2; 5; 6] = Ok ([], w) /\ length w = 9).
  { eexists. split; [vm_compute; reflexivity|reflexivity]. }
  destruct E as (w & E & _).
  destruct (H band_class band 1 (seq 0 9) [0; 1; 2; 5; 6] [] w) with (c := 0) as (s & []); auto.
  - apply ex_band_growable.
  - apply single_growable with (vs := band); try reflexivity; cbn; [repeat constructor; lia|lia..].
  - left. reflexivity.
Qed.
(** When the second tree splits, too, its new leaves are found where the old tree
    had leaves, and the pruned trees are equal. *)
Example ex_regrow :
  let g := start 9 1 in
  match gini_grow band_class 10 (band_p 0 false) newNode (seq 0 9) g with
  | Ok (old, _) =>
      no_missing old /\
      option_map prune (tree_of (gini_grow band_class 10 (band_p 0 false) old [0; 1; 2; 4; 3] g)) =
      tree_of (gini_grow band_class 10 (band_p 0 false) newNode [0; 1; 2; 4; 3] g) /\
      tree_of (gini_grow band_class 10 (band_p 0 false) old [0; 1; 2; 4; 3] g) <>
      tree_of (gini_grow band_class 10 (band_p 0 false) newNode [0; 1; 2; 4; 3] g)
  | _ => False
  end.
Proof. vm_compute. repeat split; auto. discriminate. Qed.

(** ** C40: growing need not end *)

(** The midpoint of the two values of [adjacent] is the larger one, so the split that
    was evaluated as perfect sends all cases left. *)
Definition adj_class : list nat := [0; 0; 1; 1].
Definition adj_p : params := mkP [FNum (PropSearch.plain PropSearch.adjacent)] 1 1 false false false false 0 false.
Definition adj_start (al : allocs cst) : gstate F64 cst unit := mkG F64 cst unit [0] [] al tt None None.
Definition adj_stuck (d : nat) : allocs cst :=
  mkAl PropSearch.adjacent (repeat 0%Z 4) ([2; 2]%Z, ModelImpurity.mkK [2; 0]%Z [0; 2]%Z [0; 0]%Z) d.

Definition visit_of (r : res (visited * gstate F64 cst unit)) :=
  match r with
  | Ok (v, mkG _ _ _ cans oob al _ None None) =>
      Some (gvSplit v, gvFi v, gvConsts v, gvCases v, gvL v, cans, oob, (aVals al, aCat al, aTgt al, aDraw al))
  | _ => None
  end.
Lemma visit_of_ok r code fi nc cs l cans oob vs ct tg d : visit_of r = Some (code, fi, nc, cs, l, cans, oob, (vs, ct, tg, d)) ->
  exists v, r = Ok (v, mkG F64 cst unit cans oob (mkAl vs ct tg d) tt None None) /\
    gvSplit v = code /\ gvFi v = fi /\ gvConsts v = nc /\ gvCases v = cs /\ gvL v = l.
Proof.
  destruct r as [[v [cans' oob' [a1 a2 a3 a4] [] [i|] [j|]]]| |]; cbn; try discriminate.
  intros H. injection H as <- <- <- <- <- <- <- <- <- <- <-. exists v. auto 10.
Qed.
Definition adj_visit (al : allocs cst) (depth : nat) :=
  grow_visit F64 cst (gini_target F64 adj_class) (cFindPredicted (label adj_class)) (fun _ => 0) unit (fun k => k)
    (fun _ _ k => Ok k) (fun _ => gini_target F64 adj_class) adj_p (mkNd CNil 0 "" None) Nil Nil Nil [0; 1; 2; 3] depth 0 (adj_start al).
Definition adj_split : coded := CNum (nth 2 PropSearch.adjacent f0).

Lemma adj_first depth : visit_of (adj_visit (PropSearch.fresh 4) depth) =
  Some (adj_split, 0, 0, [0; 1; 2; 3], newNode, [0], [], (PropSearch.adjacent, repeat 0%Z 4, aTgt (adj_stuck 0), 1)).
Proof. vm_compute. reflexivity. Qed.
Lemma adj_again d depth : visit_of (adj_visit (adj_stuck d) depth) =
  Some (adj_split, 0, 0, [0; 1; 2; 3], newNode, [0], [], (PropSearch.adjacent, repeat 0%Z 4, aTgt (adj_stuck 0), S d)).
Proof. vm_compute. reflexivity. Qed.
Lemma adj_all_left : fSplitPoints (FNum (PropSearch.plain PropSearch.adjacent)) adj_split [0; 1; 2; 3] = Ok ([0; 1; 2; 3], 4, 4).
Proof. vm_compute. reflexivity. Qed.

Definition adj_grow (fuel : nat) (al : allocs cst) (depth : nat) :=
  grow_node F64 cst (gini_target F64 adj_class) (cFindPredicted (label adj_class)) (fun _ => 0) unit (fun k => k)
    (fun _ _ k => Ok k) (fun _ => gini_target F64 adj_class) fuel adj_p newNode [0; 1; 2; 3] depth 0 (adj_start al).

Lemma adj_step fuel al d depth :
  visit_of (adj_visit al depth) =
  Some (adj_split, 0, 0, [0; 1; 2; 3], newNode, [0], [], (PropSearch.adjacent, repeat 0%Z 4, aTgt (adj_stuck 0), d)) ->
  adj_grow fuel (adj_stuck d) (S depth) = Spin -> adj_grow (S fuel) al depth = Spin.
Proof.
  intros V H. apply visit_of_ok in V as (v & V & V1 & V2 & V3 & V4 & V5).
  unfold adj_grow. cbn [grow_node newNode]. unfold adj_visit in V. rewrite V. cbn [bind]. rewrite V1, V2, V3, V4, V5.
  change (isCNil adj_split) with false. change (get (pData adj_p) 0) with (Ok (FNum (PropSearch.plain PropSearch.adjacent))). cbn [bind].
  rewrite adj_all_left. cbn [bind]. change (slice [0; 1; 2; 3] 0 4) with (Ok [0; 1; 2; 3]). cbn [bind].
  match goal with |- bind ?X _ = _ => assert (E : X = Spin) by exact H; rewrite E end. reflexivity.
Qed.

Theorem C40_endless_refuted :
  ~ (forall classes vs cases, let p := mkP [FNum (PropSearch.plain vs)] 1 1 false false false false 0 false in
     let g := mkG F64 cst unit [0] [] (PropSearch.fresh (length vs)) tt None None in
     length classes = length vs -> Forall (in_data classes 2) cases -> NoDup cases ->
     searchable (FNum (PropSearch.plain vs)) cases -> SearchSpec.apart (PropSearch.plain vs) cases ->
     (forall v, In v vs -> fltb (fabs v) (f_of_Z (2 ^ 30 + 1)) = true) ->
     exists fuel r, gini_grow classes fuel p newNode cases g = Ok r).
Proof.
  intros H. specialize (H adj_class PropSearch.adjacent [0; 1; 2; 3]). cbn zeta in H.
  assert (Stuck : forall fuel d depth, adj_grow fuel (adj_stuck d) depth = Spin).
  { induction fuel as [|fuel IH]; intros d depth; [reflexivity|].
    apply (adj_step fuel (adj_stuck d) (S d) depth); [apply adj_again|apply IH]. }
  assert (U : forallb usual PropSearch.adjacent = true) by (vm_compute; reflexivity).
  assert (L : Forall (fun c => c < length PropSearch.adjacent) [0; 1; 2; 3]) by (apply (PropSplitter.upto_cases 0 4 4); lia).
  destruct H as (fuel & r & E).
  - reflexivity.
  - unfold in_data, adj_class. repeat constructor.
  - repeat constructor; cbn; lia.
  - apply plain_searchable; auto.
  - apply plain_apart; [vm_compute; reflexivity|exact L].
  - apply forallb_forall. vm_compute. reflexivity.
  - change (adj_grow fuel (PropSearch.fresh 4) 0 = Ok r) in E. destruct fuel as [|fuel]; [discriminate|].
    assert (adj_grow (S fuel) (PropSearch.fresh 4) 0 = Spin); [|congruence].
    apply (adj_step fuel (PropSearch.fresh 4) 1 0); [apply adj_first|apply Stuck].
Qed.

(** ** C79: an example where a constant feature is skipped in the children *)
Definition two_p : params :=
  mkP [FCat (PropCatSearch.cats ["u"; "v"] (repeat 1 9) false); FNum (PropSearch.plain band)] 2 1 false false false false 0 false.
Definition two_start : gstate F64 cst unit := mkG F64 cst unit [0; 1] [] (PropSearch.fresh 9) tt None None.
Local Notation two_visit := (grow_visit F64 cst (gini_target F64 band_class) (cFindPredicted (label band_class)) (fun _ => 0) unit (fun k => k)
    (fun _ _ k => Ok k) (fun _ => gini_target F64 band_class) two_p (mkNd CNil 0 "" None) Nil Nil Nil (seq 0 9) 0 0 two_start).

Example ex_two_growable : growable_here band_class two_p (seq 0 9) two_start /\ plain_search two_p.
Proof.
  assert (L : Forall (fun c => c < 9) (seq 0 9)) by (apply PropSplitter.upto_cases; lia).
  split.
  - constructor; try discriminate.
    + apply gini_dependable.
    + apply sane_F64.
    + apply label_predicts.
    + unfold in_data, band_class. cbn. repeat constructor.
    + cbn. lia.
    + cbn. lia.
    + intros i [<-|[<-|[]]]; eexists; (split; [reflexivity|]); (split; [|split; [|discriminate]]).
      * apply PropSplitter.cats_searchable; [exact L|repeat constructor].
      * exact I.
      * apply plain_searchable; [vm_compute; reflexivity|exact L].
      * apply plain_faithful; [vm_compute; reflexivity..|exact L].
    + split; cbn; lia.
    + repeat split; cbn; lia.
  - repeat split; auto. unfold two_p. cbn [pData]. repeat constructor.
Qed.
(** The left child is searched with one known constant, feature 0. *)
Example ex_two_skipped : exists cases g,
  invoked F64 cst (gini_target F64 band_class) (cFindPredicted (label band_class)) (fun _ => 0) unit (fun k => k)
    (fun _ _ k => Ok k) (fun _ => gini_target F64 band_class) two_p (seq 0 9) two_start cases 1 1 g /\
  length cases = 5 /\ skipn (length (gCans g) - 1) (gCans g) = [0].
Proof.
  assert (V : option_map (fun '(code, fi, nc, cs, _, cans, _, _) => (code, fi, nc, cs, cans)) (visit_of two_visit) =
    Some (CNum (fdiv (f_of_Z 5) f2), 1, 1, [1; 0; 2; 4; 3; 5; 6; 7; 8], [1; 0])) by (vm_compute; reflexivity).
  destruct (visit_of two_visit) as [[[[[[[[code fi] nc] cs] l] cans] oob] [[[vs ct] tg] dr]]|] eqn:E; [|discriminate].
  injection V as -> -> -> -> ->. apply visit_of_ok in E as (v & E & V1 & V2 & V3 & V4 & V5).
  match type of E with _ = Ok (_, ?g) => exists [1; 0; 2; 4; 3], g;
    assert (I : invoked F64 cst (gini_target F64 band_class) (cFindPredicted (label band_class)) (fun _ => 0) unit (fun k => k)
      (fun _ _ k => Ok k) (fun _ => gini_target F64 band_class) two_p (seq 0 9) two_start [1; 0; 2; 4; 3] 1 (gvConsts v) g) end.
  - eapply inv_left with (li := 5) (ri := 5); [apply inv_root|exact E|rewrite V1; reflexivity|rewrite V2; reflexivity| |].
    + rewrite V1, V4. vm_compute. reflexivity.
    + reflexivity.
  - rewrite V3 in I. split; [exact I|split; reflexivity].
Qed.

(** The importance of C71: one feature, two splits. *)
Example ex_band_importance :
  match gini_grow band_class 10 (band_p 0 false) newNode (seq 0 9) (start 9 1) with
  | Ok (_, g) => option_map (map (@rmCount F64)) (gImp g) = Some [f2]
  | _ => False
  end.
Proof. vm_compute. reflexivity. Qed.

Print Assumptions C39_limits_respected.
Print Assumptions C40_growing_ends_partial.
Print Assumptions C40_endless_refuted.
Print Assumptions C41_same_up_to_stale_nodes_partial.
Print Assumptions C41_regrown_tree_does_not_vote_refuted.
Print Assumptions C42_leaves_predict_their_cases.
Print Assumptions C71_importance.
Print Assumptions C71_depth_partial.
Print Assumptions C71_depth_refuted.
Print Assumptions C78_leaf_without_prediction_refuted.
Print Assumptions C79_skipped_features_are_constant.
