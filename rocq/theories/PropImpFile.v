(** C116: the file of importance scores (growforest/growforest.go). *)
From Verif Require Import Go GoLemmas F64 Exact ModelFeature ModelSplit ModelTree ModelSearch ModelGrow PropGrow ModelCommands2.
Local Open Scope string_scope.
Local Open Scope nat_scope.
Local Open Scope list_scope.

(** ** The depths noted after the trees *)

(** The depths recorded for feature [i] by the trees, those that are 0 left out. *)
Definition noted (ds : nat -> list nat) (i : nat) (trees : list nat) : list R :=
  flat_map (fun k => match nth i (ds k) 0 with O => [] | v => [INR v] end) trees.

Lemma upd_repeat_zero (l : list nat) i : nth i (upd l i 0) 0 = 0.
Proof.
  destruct (Nat.lt_ge_cases i (length l)) as [H|H].
  - apply nth_error_nth with (d := 0). apply nth_error_upd_eq. exact H.
  - apply nth_overflow. rewrite upd_length. exact H.
Qed.

(** After one tree every counter has been given the recorded depth unless it is 0, and
    depthUsed is cleared. *)
Lemma note_depths_ok (mmd : list (rmean XR)) (used : list nat) : length mmd = length used ->
  exists mmd', note_depths XR (mmd, used) = Ok (mmd', repeat 0 (length used)) /\ length mmd' = length mmd /\
    forall i rm, nth_error mmd i = Some rm ->
      nth_error mmd' i = Some (match nth i used 0 with O => rm | v => rmAdd XR (Some (INR v)) rm end).
Proof.
  intros Hl. unfold note_depths. cbn [snd].
  destruct (@for_up_total _ (fun k '((m, u) : list (rmean XR) * list nat) =>
      length m = length mmd /\ length u = length used /\
      (forall i, nth_error u i = if i <? k then (if i <? length used then Some 0 else None) else nth_error used i) /\
      forall i rm, nth_error mmd i = Some rm ->
        nth_error m i = Some (if i <? k then match nth i used 0 with O => rm | v => rmAdd XR (Some (INR v)) rm end else rm))
      (fun i '((mmd, used) : list (rmean XR) * list nat) =>
        let* v := get used i in
        if negb (v =? 0) then
          let* rm := get mmd i in
          let* mmd := set mmd i (rmAdd XR (nofZ XR (Z.of_nat v)) rm) in
          let* used := set used i 0 in
          Ok (mmd, used)
        else Ok (mmd, used)) (length used) 0 (mmd, used)) as ([m u] & E & Lm & Lu & Hu & Hm).
  - intros k [m u] Hk (Lm & Lu & Hu & Hm). cbn [plus] in Hk.
    assert (Ek : nth_error u k = Some (nth k used 0)).
    { rewrite Hu, Nat.ltb_irrefl. apply nth_error_nth'. lia. }
    rewrite (get_nth u k Ek). cbn [bind].
    destruct (nth_error mmd k) as [rm|] eqn:Er; [|apply nth_error_None in Er; lia].
    assert (Em : nth_error m k = Some rm) by (rewrite (Hm k rm Er), Nat.ltb_irrefl; reflexivity).
    assert (S1 : forall i, i <> k -> (i <? S k) = (i <? k)).
    { intros i Hi. destruct (Nat.ltb_spec i (S k)), (Nat.ltb_spec i k); auto; lia. }
    assert (S2 : (k <? S k) = true) by (apply Nat.ltb_lt; lia).
    destruct (nth k used 0) as [|v] eqn:Ev; cbn [Nat.eqb negb].
    + exists (m, u). split; [reflexivity|]. split; [exact Lm|]. split; [exact Lu|]. split.
      * intros i. destruct (Nat.eq_dec i k) as [->|Hne]; [|rewrite Hu, S1 by exact Hne; reflexivity].
        rewrite S2. destruct (Nat.ltb_spec k (length used)); [exact Ek|lia].
      * intros i rm' Hi. rewrite (Hm i rm' Hi). destruct (Nat.eq_dec i k) as [->|Hne]; [|rewrite S1 by exact Hne; reflexivity].
        rewrite S2, Nat.ltb_irrefl, Ev. reflexivity.
    + rewrite (get_nth m k Em). cbn [bind]. rewrite set_ok by lia. cbn [bind]. rewrite set_ok by lia. cbn [bind].
      eexists. split; [reflexivity|]. split; [rewrite upd_length; exact Lm|]. split; [rewrite upd_length; exact Lu|]. split.
      * intros i. destruct (Nat.eq_dec i k) as [->|Hne].
        -- rewrite nth_error_upd_eq by lia. rewrite S2. destruct (Nat.ltb_spec k (length used)); [reflexivity|lia].
        -- rewrite nth_error_upd_neq by auto. rewrite Hu, S1 by exact Hne. reflexivity.
      * intros i rm' Hi. destruct (Nat.eq_dec i k) as [->|Hne].
        -- rewrite nth_error_upd_eq by lia. rewrite S2, Ev. rewrite Er in Hi. inversion Hi; subst rm'. do 2 f_equal. 
           cbn [nofZ XR]. rewrite <- INR_IZR_INZ. reflexivity.
        -- rewrite nth_error_upd_neq by auto. rewrite (Hm i rm' Hi), S1 by exact Hne. reflexivity.
  - split; [reflexivity|]. split; [reflexivity|]. split; [intros i; reflexivity|]. intros i rm Hi. exact Hi.
  - cbn [plus] in Hu, Hm. exists m. rewrite E. split.
    + do 2 f_equal. apply nth_error_ext'. intros i. rewrite Hu. destruct (Nat.ltb_spec i (length used)) as [H|H].
      * rewrite nth_error_repeat by exact H. reflexivity.
      * transitivity (@None nat); [|symmetry]; apply nth_error_None; [|rewrite repeat_length]; exact H.
    + split; [exact Lm|]. intros i rm Hi. rewrite (Hm i rm Hi).
      assert (X : (i <? length used) = true) by (apply Nat.ltb_lt; apply nth_error_some_lt in Hi; lia). rewrite X. reflexivity.
Qed.

(** [grow k] says what growing tree [k] makes of depthUsed. *)
Lemma note_trees_ok grow n nTrees : (forall k, k < nTrees -> length (grow k (repeat 0 n)) = n) ->
  exists mmd, note_trees XR grow nTrees (NewRunningMeans XR n, repeat 0 n) = Ok (mmd, repeat 0 n) /\ length mmd = n /\
    forall i rm, nth_error mmd i = Some rm -> mean_of (noted (fun k => grow k (repeat 0 n)) i (seq 0 nTrees)) rm.
Proof.
  intros Hg. unfold note_trees.
  destruct (@for_up_total _ (fun k '((m, u) : list (rmean XR) * list nat) => u = repeat 0 n /\ length m = n /\
      forall i rm, nth_error m i = Some rm -> mean_of (noted (fun k => grow k (repeat 0 n)) i (seq 0 k)) rm)
      (fun k '((mmd, used) : list (rmean XR) * list nat) => note_depths XR (mmd, grow k used)) nTrees 0 (NewRunningMeans XR n, repeat 0 n))
    as ([m u] & E & -> & Lm & Hm).
  - intros k [m u] Hk (-> & Lm & Hm). destruct (note_depths_ok m (grow k (repeat 0 n))) as (m' & E & Lm' & Hm').
    { rewrite Hg by lia. exact Lm. }
    rewrite Hg in E by lia. rewrite E. eexists. split; [reflexivity|]. cbn beta iota. split; [reflexivity|]. split; [congruence|].
    intros i rm' Hi. destruct (nth_error m i) as [rm|] eqn:Er; [|apply nth_error_None in Er; apply nth_error_some_lt in Hi; lia].
    rewrite (Hm' i rm Er) in Hi. specialize (Hm i rm Er). unfold noted in *. rewrite seq_S, flat_map_app. cbn [plus flat_map]. rewrite app_nil_r.
    destruct (nth i (grow k (repeat 0 n)) 0) as [|v]; inversion Hi; subst rm'.
    + rewrite app_nil_r. exact Hm.
    + apply mean_add. exact Hm.
  - split; [reflexivity|]. split; [apply repeat_length|]. intros i rm Hi. exact (mean_new n i rm Hi).
  - exists m. split; [exact E|]. auto.
Qed.

(** ** The rows *)

(** What a row should say of a feature with the decreases [xs] and the depths [ds]: mean and
    number of the decreases, their sum per tree and per tree using the feature, the number
    of those trees, and the mean of the depths. *)
Definition row_says (nTrees : nat) (xs ds : list R) (row : imp_row XR) : Prop :=
  irMean row = Some (Rsum xs / INR (length xs))%R /\ irCount row = Some (INR (length xs)) /\
  irPerTree row = Some (Rsum xs / INR nTrees)%R /\
  irPerUse row = (match ds with [] => None | _ => Some (Rsum xs / INR (length ds))%R end) /\
  irTrees row = Some (INR (length ds)) /\ irDepth row = Some (Rsum ds / INR (length ds))%R.

(** In exact arithmetic: a feature whose counter was given the decreases [xs] gets the row of
    its decreases and of the depths its trees recorded for it. *)
Theorem C116_rows_partial : forall grow nTrees names (imps : list (rmean XR)) (xss : nat -> list R),
  0 < nTrees -> length names = length imps ->
  (forall k, k < nTrees -> length (grow k (repeat 0 (length imps))) = length imps) ->
  (forall i rm, nth_error imps i = Some rm -> mean_of (xss i) rm) ->
  exists mmds rows, note_trees XR grow nTrees (NewRunningMeans XR (length imps), repeat 0 (length imps)) = Ok (mmds, repeat 0 (length imps)) /\
    importance_rows XR names imps mmds nTrees = Ok rows /\ length rows = length imps /\
    forall i name, nth_error names i = Some name -> exists row, nth_error rows i = Some row /\ irName row = name /\
      row_says nTrees (xss i) (noted (fun k => grow k (repeat 0 (length imps))) i (seq 0 nTrees)) row.
Proof.
  intros grow nTrees names imps xss Hn Hl Hg Hx. destruct (note_trees_ok grow (length imps) nTrees Hg) as (mmds & E & Lm & Hm).
  exists mmds. unfold importance_rows.
  set (ds i := noted (fun k => grow k (repeat 0 (length imps))) i (seq 0 nTrees)) in *.
  match goal with |- exists rows, _ /\ for_up ?n 0 ?b ?s = _ /\ _ =>
    destruct (@for_up_total _ (fun k rows => length rows = k /\ forall i name, i < k -> nth_error names i = Some name ->
      exists row, nth_error rows i = Some row /\ irName row = name /\ row_says nTrees (xss i) (ds i) row) b n 0 s) as (rows & Er & Lr & Hr)
  end.
  - intros k rows Hk (Lr & Hr). cbn [plus] in Hk.
    destruct (nth_error imps k) as [rm|] eqn:E1; [|apply nth_error_None in E1; lia].
    destruct (nth_error mmds k) as [d|] eqn:E2; [|apply nth_error_None in E2; lia].
    destruct (nth_error names k) as [name|] eqn:E3; [|apply nth_error_None in E3; lia].
    rewrite (get_nth _ _ E1). cbn [bind]. rewrite (get_nth _ _ E2). cbn [bind]. rewrite (get_nth _ _ E3). cbn [bind].
    eexists. split; [reflexivity|]. split; [rewrite app_length; cbn; lia|]. intros i nm Hi Hnm.
    destruct (Nat.eq_dec i k) as [->|Hne].
    + rewrite nth_error_app2 by lia. rewrite Lr, Nat.sub_diag. eexists. split; [reflexivity|]. cbn [irName]. split; [congruence|].
      destruct (Hx k rm E1) as [C1 C2]. destruct (Hm k d E2) as [D1 D2]. fold (ds k) in D1, D2.
      unfold row_says. cbn [irMean irCount irPerTree irPerUse irTrees irDepth]. rewrite C1, C2, D1, D2.
      assert (P : nmul XR (Some (Rsum (xss k) / INR (length (xss k)))%R) (Some (INR (length (xss k)))) = Some (Rsum (xss k))).
      { cbn. f_equal. destruct (xss k) as [|x xs]; [cbn; lra|]. field. apply not_0_INR. discriminate. }
      rewrite P. split; [reflexivity|]. split; [reflexivity|]. split.
      { cbn [ndiv nofZ XR]. rewrite <- INR_IZR_INZ. apply xdiv_some. apply not_0_INR. lia. }
      split; [|split; reflexivity]. destruct (ds k) as [|d0 dk]; cbn [ndiv XR].
      * cbn. destruct (Req_EM_T 0 0); [reflexivity|contradiction].
      * apply xdiv_some. apply not_0_INR. discriminate.
    + destruct (Hr i nm ltac:(lia) Hnm) as (row & H1 & H2). exists row. split; [|exact H2].
      rewrite nth_error_app1 by (apply nth_error_some_lt in H1; exact H1). exact H1.
  - split; [reflexivity|]. intros i nm Hi. lia.
  - exists rows. split; [exact E|]. split; [exact Er|]. split; [exact Lr|]. intros i name Hi. apply Hr; [|exact Hi].
    apply nth_error_some_lt in Hi. cbn. lia.
Qed.
Print Assumptions C116_rows_partial.

(** ** Where the file is wrong *)

(** A tree whose root is its only split, on feature 0, with decrease [dec]: what Grow books
    (tree.go:143-148) and what growforest notes afterwards. *)
Definition root_tree {A : arith} (dec : A) (s : list (rmean A) * list (rmean A) * list nat) : res (list (rmean A) * list (rmean A) * list nat) :=
  let '(imps, mmds, used) := s in
  let* (imp, du) := book A 0 0 dec (Some imps) (Some used) in
  match imp, du with
  | Some imps, Some used => let* (mmds, used) := note_depths A (mmds, used) in Ok (imps, mmds, used)
  | _, _ => Panic
  end.

(** A feature that every tree uses at its root is reported as used by no tree, at mean depth
    0 and with an undefined score per tree using it. *)
Theorem C116_root_features_refuted : forall (dec : R) nTrees, 0 < nTrees ->
  exists imp mmd, for_up nTrees 0 (fun _ => root_tree (Some dec : XR)) (NewRunningMeans XR 1, NewRunningMeans XR 1, [0]) = Ok ([imp], [mmd], [0]) /\
    exists row, importance_rows XR ["N:x"] [imp] [mmd] nTrees = Ok [row] /\
      irCount row = Some (INR nTrees) /\ irMean row = Some dec /\ irPerTree row = Some dec /\
      irTrees row = Some 0%R /\ irPerUse row = None.
Proof.
  intros dec nTrees Hn.
  assert (G : yields (for_up nTrees 0 (fun _ => root_tree (Some dec : XR)) (NewRunningMeans XR 1, NewRunningMeans XR 1, [0]))
    (fun s => exists imp, s = ([imp], NewRunningMeans XR 1, [0]) /\ mean_of (repeat dec (0 + nTrees)) imp)).
  { apply (@for_up_total _ (fun k s => exists imp, s = ([imp], NewRunningMeans XR 1, [0]) /\ mean_of (repeat dec k) imp)).
    - intros k s _ (imp & -> & Hi). eexists. split; [reflexivity|]. eexists. split; [reflexivity|].
      cbn [repeat]. rewrite repeat_cons. apply mean_add. exact Hi.
    - exists (mkRM (Some 0%R : XR) (Some 0%R)). split; [reflexivity|]. apply (mean_new 1 0). reflexivity. }
  destruct G as (s & E & imp & -> & Hi). cbn [plus] in Hi. exists imp, (mkRM (Some 0%R : XR) (Some 0%R)). split; [exact E|].
  destruct Hi as [C1 C2]. rewrite repeat_length in C1, C2.
  assert (Hs : Rsum (repeat dec nTrees) = (INR nTrees * dec)%R).
  { clear. induction nTrees as [|n IH]; [cbn; lra|]. cbn [repeat Rsum]. rewrite IH, S_INR. lra. }
  assert (Hp : (INR nTrees <> 0)%R) by (apply not_0_INR; lia).
  eexists. split; [reflexivity|]. cbn [irCount irMean irPerTree irTrees irPerUse]. rewrite C1, C2, Hs.
  assert (Em : (INR nTrees * dec / INR nTrees)%R = dec) by (field; exact Hp). rewrite Em.
  split; [reflexivity|]. split; [reflexivity|]. split.
  - cbn -[xdiv INR IZR Z.of_nat]. rewrite <- INR_IZR_INZ, xdiv_some by exact Hp. f_equal. field. exact Hp.
  - split; [reflexivity|]. cbn. destruct (Req_EM_T 0 0); [reflexivity|contradiction].
Qed.
Print Assumptions C116_root_features_refuted.

(** In float64 that score is +Inf, and a feature that is not used gets NaN. *)
Definition scores (r : res (list (imp_row F64))) : list (list f64) :=
  match r with Ok rows => map (fun row => [irMean row; irCount row; irPerTree row; irPerUse row; irTrees row; irDepth row]) rows | _ => [] end.
Theorem C116_infinite_and_nan_refuted :
  scores (let* s := for_up 2 0 (fun _ => root_tree (A := F64) f1) (NewRunningMeans F64 1, NewRunningMeans F64 1, [0]) in
          let '(imps, mmds, _) := s in importance_rows F64 ["N:x"] imps mmds 2)
    = [[f1; f2; f1; S754_infinity false; f0; f0]] /\
  scores (importance_rows F64 ["N:x"] (NewRunningMeans F64 1) (NewRunningMeans F64 1) 2) = [[f0; f0; f0; S754_nan; f0; f0]].
Proof. split; vm_compute; reflexivity. Qed.
Print Assumptions C116_infinite_and_nan_refuted.

(** Two trees over two features: the first is used at depths 1 and 2, the second only once. *)
Definition imp_grow (k : nat) (used : list nat) : list nat := if k =? 0 then [1; 0] else [2; 3].
Example C116_example :
  (forall k, k < 2 -> length (imp_grow k (repeat 0 2)) = 2) /\
  noted (fun k => imp_grow k (repeat 0 2)) 0 (seq 0 2) = [INR 1; INR 2] /\ noted (fun k => imp_grow k (repeat 0 2)) 1 (seq 0 2) = [INR 3].
Proof. split; [intros [|k] _; reflexivity|]. split; reflexivity. Qed.
