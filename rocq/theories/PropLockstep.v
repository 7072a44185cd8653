(** C132: a tree depends on its target by the impurities and predictions only. *)
From Verif Require Import Go GoLemmas F64 Exact ModelFeature FeatureProofs ModelSample ModelImpurity ImpuritySpec ModelSplit ModelSearch ModelTargets ModelTree ModelGrow
  SplitterProofs GrowProofs PropByName PropImpurity PropImpurity2 PropImpurity3 PropRows OrderProofs OrderlessTargets Lockstep LockstepTargets.
From Verif Require PropSearch PropCatSearch.
From Coq Require Import SpecFloat.
Local Open Scope string_scope.
Local Open Scope nat_scope.
Local Open Scope list_scope.

(** ** C132.  The claim in full: a tree depends on its target only by the impurities the target
    reports and by what it predicts.  So numbering the classes differently, adding a constant to
    a numerical target or giving every class the same weight changes no split, and the
    predictions are those for the same cases. *)

(** Two runs of Grow: the trees have the same splits, and at corresponding leaves they predict
    for the same cases; candidates, importances, depths and random draws are the same. *)
Definition same_growth {A : arith} {St St' K K' : Type} (predict predict' : list nat -> res string) (n : node) (s : gstate A St K) (r : res (node * gstate A St' K')) : Prop :=
  exists n' s', r = Ok (n', s') /\
    same_but (fun a b => exists l, predict l = Ok a /\ predict' l = Ok b) n n' /\
    gCans s = gCans s' /\ gOob s = gOob s' /\ gImp s = gImp s' /\ gDepth s = gDepth s' /\ aDraw (gAl s) = aDraw (gAl s').
(** Where the two runs start: the same but for the contents of the scratch memory, the state of
    the target and its contrast. *)
Definition same_start {A : arith} {St St' K K' : Type} (near : St -> St' -> Prop) (kold : K -> K' -> Prop) (g : gstate A St K) (g' : gstate A St' K') : Prop :=
  gCans g = gCans g' /\ gOob g = gOob g' /\ gImp g = gImp g' /\ gDepth g = gDepth g' /\
  length (aVals (gAl g)) = length (aVals (gAl g')) /\ length (aCat (gAl g)) = length (aCat (gAl g')) /\ aDraw (gAl g) = aDraw (gAl g') /\
  near (aTgt (gAl g)) (aTgt (gAl g')) /\ kold (gK g) (gK g').

(** Any arithmetic, any two targets whose impurities are the same, with or without vetting. *)
Theorem C132_same_splits : forall A St St' (T : target A St) (T' : target A St') near holds predict predict' rnd
    K K' kCopyFrom kCopyFrom' kShuffleCases kShuffleCases' (kTarget : K -> target A St) (kTarget' : K' -> target A St') (knear kold : K -> K' -> Prop) p root cases g g' fuel n s,
  lockstep T T' near holds ->
  (forall l a, predict l = Ok a -> exists b, predict' l = Ok b) ->
  (forall k k', kold k k' -> knear (kCopyFrom k) (kCopyFrom' k')) -> (forall k k', knear k k' -> kold k k') ->
  (forall d l k k', knear k k' -> follows knear (kShuffleCases d l k) (kShuffleCases' d l k')) ->
  (forall k k', knear k k' -> lockstep (kTarget k) (kTarget' k') near holds) ->
  same_start near kold g g' ->
  Grow A St T predict rnd K kCopyFrom kShuffleCases kTarget fuel p root cases g = Ok (n, s) ->
  same_growth predict predict' n s (Grow A St' T' predict' rnd K' kCopyFrom' kShuffleCases' kTarget' fuel p root cases g').
Proof.
  intros A St St' T T' near holds predict predict' rnd K K' kCopyFrom kCopyFrom' kShuffleCases kShuffleCases' kTarget kTarget' knear kold p root cases g g' fuel n s
    Hlk Hp Hc Ho Hs Hk (G1 & G2 & G3 & G4 & G5 & G6 & G7 & G8 & G9) E.
  destruct (grow_near A St St' T T' near holds Hlk predict predict' (fun a b => exists l, predict l = Ok a /\ predict' l = Ok b)) with
    (rnd := rnd) (kCopyFrom := kCopyFrom) (kCopyFrom' := kCopyFrom') (kShuffleCases := kShuffleCases) (kShuffleCases' := kShuffleCases')
    (kTarget := kTarget) (kTarget' := kTarget') (knear := knear) (kold := kold) (p := p) (fuel := fuel) (n := root) (n' := root) (cases := cases) (depth := 0) (ncb := 0)
    (g := g) (g' := g') (a := (n, s)) as ([n' s'] & E' & Hn & H1 & H2 & H3 & H4 & H5 & H6); auto.
  - intros l a Ea. destruct (Hp l a Ea) as [b Eb]. eauto.
  - unfold gnear, alnear. auto 12.
  - apply same_but_refl.
  - exists n', s'. cbn [fst snd] in *. repeat (split; auto). apply H3.
Qed.
Print Assumptions C132_same_splits.

(** Shuffling a contrast whose values are the images of those of another. *)
Lemma swapl_map {B D} (h : B -> D) l i j : swapl (map h l) i j = rmap (map h) (swapl l i j).
Proof.
  unfold swapl, get, set. rewrite !nth_error_map, map_length. destruct (nth_error l i) as [x|]; [|reflexivity]. cbn [option_map bind].
  destruct (nth_error l j) as [y|]; [|reflexivity]. cbn [option_map bind].
  assert (U : forall (l : list B) i x, upd (map h l) i (h x) = map h (upd l i x)).
  { clear. induction l as [|a l IH]; intros [|i] x; cbn; try reflexivity. rewrite IH. reflexivity. }
  destruct (i <? length l); [|reflexivity]. cbn [bind]. rewrite U, map_length. destruct (j <? length (upd l i y)); [|reflexivity]. cbn [rmap]. rewrite U. reflexivity.
Qed.
Lemma shuffleCases_map {B D} (h : B -> D) d l ms (x : list B) :
  follows (fun a b => fst a = fst b /\ snd b = map h (snd a)) (shuffleCases d l ms x) (shuffleCases d l ms (map h x)).
Proof.
  unfold shuffleCases. apply follows_for_up; [split; reflexivity|]. intros i [m v] [m' v'] [E1 E2]. cbn [fst snd] in *. subst m' v'.
  follow. intros a ? <-. follow. intros r ? <-. follow. intros b ? <-. unfold swap2. follow. intros mm ? <-. rewrite swapl_map.
  destruct (swapl v a b); [|intros z Ez; discriminate..]. cbn [rmap bind]. apply follows_ok. split; reflexivity.
Qed.
Lemma shuffleCases_length {B} d l ms (x : list B) : ifok (shuffleCases d l ms x) (fun r => length (snd r) = length x /\ length (fst r) = length ms).
Proof.
  unfold shuffleCases. intros r E. revert r E.
  assert (G : forall n lo s, length (snd s) = length x /\ length (fst s) = length ms -> forall r,
    for_up n lo (fun (j : nat) (st : list bool * list B) => let* targeti := get l j in let* r := intn (d j) (length l - j) in let* sourcei := get l (j + r) in swap2 targeti sourcei st) s = Ok r ->
    length (snd r) = length x /\ length (fst r) = length ms).
  { induction n as [|n IH]; intros lo s Hs r E; cbn [for_up] in E; [injection E as <-; exact Hs|]. apply bind_ok in E as (s1 & E1 & E). apply (IH _ s1) in E; [exact E|].
    apply bind_ok in E1 as (a & _ & E1). apply bind_ok in E1 as (b & _ & E1). apply bind_ok in E1 as (c & _ & E1). destruct s as [m v]. unfold swap2 in E1.
    apply bind_ok in E1 as (m1 & F1 & E1). apply bind_ok in E1 as (v1 & F2 & E1). injection E1 as <-. cbn [fst snd] in *. apply swapl_length in F1, F2. lia. }
  intros r E. exact (G _ _ (ms, x) (conj eq_refl eq_refl) r E).
Qed.

(** *** Classes numbered differently: a name that had number c has number [sg c]. *)
Record renumbered_classes (n : nat) (sg : nat -> nat) (tf tf' : catF) : Prop := {
  rc_sg : renumbers n sg;
  rc_n : NCats (cMap tf) = n;
  rc_n' : NCats (cMap tf') = n;
  rc_data : cData tf' = map sg (cData tf);
  rc_missing : cMissing tf' = cMissing tf;
  rc_names : forall c, c < n -> nth_error (cmBack (cMap tf')) (sg c) = nth_error (cmBack (cMap tf)) c;
  rc_len : length (cData tf) = length (cMissing tf)
}.
Lemma FindPredicted_renumbered n sg tf tf' l a : renumbered_classes n sg tf tf' -> cFindPredicted tf l = Ok a -> exists b, cFindPredicted tf' l = Ok b.
Proof.
  intros [Hsg N N' D M B L] E. unfold cFindPredicted, cMode, cModei in *. apply bind_ok in E as (i & E1 & E2). apply bind_ok in E1 as (k & E1 & E3). injection E3 as <-.
  assert (F : follows (renumbered n sg 0) (mode_counts tf l) (mode_counts tf' l)).
  { unfold mode_counts. rewrite N, N', D, M. apply follows_foreach.
    - split; [apply repeat_length|]. split; [apply repeat_length|]. intros c Hc. rewrite !nth_error_repeat; auto using sg_lt.
    - intros b k1 k1' H. follow. intros m ? <-. destruct m; [apply follows_ok; exact H|]. apply (renumbered_bump n sg Hsg (cData tf) (fun n => n + 1) 0 0 k1 k1' b H). }
  destruct (F _ E1) as (k' & -> & L1 & L2 & _). cbn [bind].
  assert (Hn : 0 < n). { rewrite <- N. unfold NCats. apply get_inv in E2. destruct (cmBack (cMap tf)); [destruct (argmax_from 0 k 0 0); discriminate E2|cbn; lia]. }
  assert (Hi : argmax_from 0 k' 0 0 < NCats (cMap tf')).
  { rewrite N'. destruct (argmax_from_ok k' 0 0 0) as [[-> _]|(j & v & -> & H & _)]; [exact Hn|]. cbn. rewrite <- L2. apply nth_error_Some. congruence. }
  unfold NCats in Hi. destruct (nth_error (cmBack (cMap tf')) (argmax_from 0 k' 0 0)) as [b|] eqn:Eb; [|apply nth_error_None in Eb; lia]. exists b. apply get_nth. exact Eb.
Qed.
Lemma copy_data (k tf : catF) : length (cData k) = length (cData tf) -> cData (cCopyInTo tf k) = cData tf.
Proof. intros H. cbn. unfold copyinto. rewrite H, firstn_all, skipn_all2 by lia. apply app_nil_r. Qed.
Lemma copy_missing (k tf : catF) : length (cMissing k) = length (cMissing tf) -> cMissing (cCopyInTo tf k) = cMissing tf.
Proof. intros H. cbn. unfold copyinto. rewrite H, firstn_all, skipn_all2 by lia. apply app_nil_r. Qed.
Lemma cCopy_data tf : length (cData tf) = length (cMissing tf) -> cData (cCopy tf) = cData tf.
Proof. intros H. cbn. apply copyinto_same. congruence. Qed.
Lemma cCopy_missing tf : cMissing (cCopy tf) = cMissing tf.
Proof. cbn. apply copyinto_same. reflexivity. Qed.
Definition cleared (n : nat) (s : cst) : Prop := length (fst s) = n /\ length (kL (snd s)) = n /\ length (kR (snd s)) = n /\ length (kM (snd s)) = n.
Theorem C132_renumbered_exact : forall (F : list nat -> target XR cst) rnd sg m tf tf' p root cases cans oob al imp du fuel n s,
  F = gini_target XR \/ (exists nlog, F = entropy_target XR nlog) ->
  renumbered_classes m sg tf tf' -> cleared m (aTgt al) ->
  grow_cat XR cst F cFindPredicted rnd tf fuel p root cases cans oob al imp du = Ok (n, s) ->
  same_growth (cFindPredicted tf) (cFindPredicted tf') n s (grow_cat XR cst F cFindPredicted rnd tf' fuel p root cases cans oob al imp du).
Proof.
  intros F rnd sg m tf tf' p root cases cans oob al imp du fuel n s HF H (R1 & R2 & R3 & R4). pose proof H as [Hsg N N' D M B L]. unfold grow_cat.
  assert (Hlk : forall data, lockstep (F data) (F (map sg data)) (cnear (sized m)) (cholds (renumbered m sg))).
  { intros data. destruct HF as [->|[nlog ->]]; [apply gini_renumbered|apply entropy_renumbered]; exact Hsg. }
  rewrite D. apply C132_same_splits with (near := cnear (sized m)) (holds := cholds (renumbered m sg))
    (knear := fun k k' : catF => length (cData k) = length (cData tf) /\ length (cMissing k) = length (cMissing tf) /\ cData k' = map sg (cData k) /\ cMissing k' = cMissing k)
    (kold := fun k k' : catF => length (cData k) = length (cData tf) /\ length (cMissing k) = length (cMissing tf) /\ cData k' = map sg (cData k) /\ cMissing k' = cMissing k).
  - apply Hlk.
  - intros l a. apply (FindPredicted_renumbered m sg). exact H.
  - intros k k' (K1 & K2 & K3 & K4).
    rewrite (copy_data k tf K1), (copy_missing k tf K2), (copy_data k' tf') by (rewrite K3, D, !map_length; exact K1).
    rewrite (copy_missing k' tf') by (rewrite K4, M; exact K2). auto.
  - auto.
  - intros d l k k' (K1 & K2 & K3 & K4) x E. unfold cShuffleCases in *. apply bind_ok in E as ([ms v] & E & Ex). injection Ex as <-.
    pose proof (shuffleCases_length _ _ _ _ _ E) as [L1 L2]. cbn [fst snd] in *. rewrite K3, K4. destruct (shuffleCases_map sg _ _ _ _ _ E) as ([ms' v'] & -> & G1 & G2). cbn [bind fst snd] in *.
    eexists. split; [reflexivity|]. cbn. repeat split; try congruence.
  - intros k k' (K1 & K2 & K3 & K4). rewrite K3. apply Hlk.
  - unfold same_start. cbn [gCans gOob gImp gDepth gAl gK].
    rewrite (cCopy_data tf L), (cCopy_missing tf), (cCopy_data tf'), (cCopy_missing tf') by (rewrite D, M, map_length; exact L).
    assert (Nr : cnear (sized m) (aTgt al) (aTgt al)) by (unfold cnear, sized; auto 10). auto 15.
Qed.
Print Assumptions C132_renumbered_exact.

(** Where one class is the most frequent one, the prediction is the same too. *)
Theorem C132_same_prediction : forall n sg tf tf' l c,
  renumbered_classes n sg tf tf' ->
  Forall (fun i => i < length (cMissing tf)) l -> labelled (cData tf) n (PropImpurity3.known (cMissing tf) l) ->
  (forall d, d <> c -> count_occ Nat.eq_dec (labels (cData tf) (PropImpurity3.known (cMissing tf) l)) d < count_occ Nat.eq_dec (labels (cData tf) (PropImpurity3.known (cMissing tf) l)) c) ->
  exists name, nth_error (cmBack (cMap tf)) c = Some name /\ cFindPredicted tf l = Ok name /\ cFindPredicted tf' l = Ok name.
Proof.
  intros n sg tf tf' l c [Hsg N N' D M B L] Hl Hlab Hc. set (ls := labels (cData tf) (PropImpurity3.known (cMissing tf) l)) in *.
  assert (Hb : Forall (fun k => k < n) ls) by (apply labels_bound; exact Hlab). rewrite Forall_forall in Hb.
  assert (Hcn : c < n). { apply Hb. apply (count_occ_In Nat.eq_dec). specialize (Hc (S c) ltac:(lia)). lia. }
  destruct (C49_plain_majority tf l) as (k & _ & Hk & Mk & name & Ek & Ep); [lia|exact Hl|rewrite N; exact Hlab|]. fold ls in Mk.
  assert (k = c). { destruct (Nat.eq_dec k c) as [|Ne]; [assumption|]. specialize (Hc k Ne). destruct (Mk c) as [H _]. lia. } subst k.
  assert (Hlab' : labelled (cData tf') (NCats (cMap tf')) (PropImpurity3.known (cMissing tf') l)).
  { rewrite M, N', D. unfold labelled in *. eapply Forall_impl; [|exact Hlab]. intros i [H1 H2]. rewrite map_length. split; [exact H1|].
    rewrite (nth_indep _ 0 (sg 0)) by (rewrite map_length; exact H1). rewrite map_nth. apply (sg_lt n sg Hsg). exact H2. }
  destruct (C49_plain_majority tf' l) as (k' & _ & Hk' & Mk' & name' & Ek' & Ep'); [lia|rewrite M; exact Hl|exact Hlab'|].
  assert (Els : labels (cData tf') (PropImpurity3.known (cMissing tf') l) = map sg ls).
  { rewrite M, D. unfold ls, labels. rewrite map_map. apply map_ext_in. intros i Hi. unfold labelled in Hlab. rewrite Forall_forall in Hlab. destruct (Hlab i Hi) as [H1 _].
    rewrite (nth_indep _ 0 (sg 0)) by (rewrite map_length; exact H1). apply map_nth. }
  rewrite Els in Mk'.
  assert (Cnt : forall d, d < n -> count_occ Nat.eq_dec (map sg ls) (sg d) = count_occ Nat.eq_dec ls d).
  { intros d Hd. clear - Hsg Hb Hd. induction ls as [|x ls IH]; [reflexivity|]. cbn [map count_occ].
    destruct (Nat.eq_dec (sg x) (sg d)) as [E|E]; destruct (Nat.eq_dec x d) as [E'|E']; try (rewrite IH by (intros; apply Hb; right; assumption); reflexivity).
    - apply (sg_inj n sg Hsg) in E; [congruence|apply Hb; left; reflexivity|exact Hd].
    - congruence. }
  assert (Hs : exists d, d < n /\ sg d = k').
  { assert (I : In k' (map sg (seq 0 n))) by (eapply Permutation_in; [symmetry; exact Hsg|apply in_seq; lia]). apply in_map_iff in I as (d & E & I). apply in_seq in I. exists d. split; [lia|exact E]. }
  destruct Hs as (d & Hd & <-). assert (d = c).
  { destruct (Nat.eq_dec d c) as [|Ne]; [assumption|]. specialize (Hc d Ne). destruct (Mk' (sg c)) as [H _]. rewrite !Cnt in H by assumption. lia. } subst d.
  rewrite (B c Hcn) in Ek'. exists name. split; [exact Ek|]. split; [exact Ep|]. rewrite Ek in Ek'. injection Ek' as <-. exact Ep'.
Qed.
Print Assumptions C132_same_prediction.

(** *** Equal weights: the weighted forest target grows the very tree of the plain one. *)
Definition predict_weighted {A : arith} (weights : list A) (f : catF) (l : list nat) : res string := let* m := WRFPredicted A weights f l in get (cmBack (cMap f)) m.
Lemma weighted_mode n w : (0 < w)%R -> forall counts j m mx, j + length counts <= n ->
  exists x, foreach (indexed j counts) (fun '((k, v) : nat * nat) '((m, max) : nat * XR) =>
      let* u := get (repeat (Some w : XR) n) k in
      let val := nmul XR (num XR (Z.of_nat v)) u in
      Ok (if nltb XR max val then (k, val) else (m, max))) (m, Some (IZR (Z.of_nat mx) * w)%R) = Ok (argmax_from j counts m mx, x).
Proof.
  intros Hw. induction counts as [|v counts IH]; intros j m mx H; cbn [indexed foreach length argmax_from] in *; [eauto|].
  rewrite (get_nth (repeat (Some w : XR) n) j (nth_error_repeat (Some w : XR) (ltac:(lia) : j < n))). cbn [bind nmul nltb num nofZ XR lift2 xcmp].
  destruct (Nat.ltb_spec mx v) as [Hlt|Hge].
  - rewrite (proj2 (Rltb_true _ _)) by (apply Rmult_lt_compat_r; [exact Hw|apply IZR_lt; lia]). cbn [bind]. apply IH. lia.
  - rewrite (proj2 (Rltb_false _ _)) by (apply Rmult_le_compat_r; [apply Rlt_le; exact Hw|apply IZR_le; lia]). cbn [bind]. apply IH. lia.
Qed.
Lemma predict_weighted_same w f l : (0 < w)%R -> ifok (mode_counts f l) (fun k => length k = NCats (cMap f)) ->
  predict_weighted (repeat (Some w : XR) (NCats (cMap f))) f l = cFindPredicted f l.
Proof.
  intros Hw Hk. unfold predict_weighted, WRFPredicted, cFindPredicted, cMode, cModei. destruct (mode_counts f l) as [k| |] eqn:E; try reflexivity. cbn [bind].
  specialize (Hk k eq_refl). cbn beta in Hk. destruct (weighted_mode (NCats (cMap f)) w Hw k 0 0 0 ltac:(cbn; lia)) as (x & Ex).
  match goal with |- bind (bind ?m _) _ = _ => replace m with (Ok (argmax_from 0 k 0 0, x)) end; [reflexivity|].
  rewrite <- Ex. apply f_equal. apply (f_equal (fun x : R => (0, Some x : XR))). cbn. ring.
Qed.
Lemma mode_counts_length f l : ifok (mode_counts f l) (fun k => length k = NCats (cMap f)).
Proof.
  unfold mode_counts. intros r E. assert (G : forall l s r, foreach l (fun i counts => let* m := get (cMissing f) i in if m then Ok counts else let* c := get (cData f) i in let* n := get counts c in set counts c (n + 1)) s = Ok r -> length r = length s).
  { clear. induction l as [|i l IH]; intros s r E; cbn [foreach] in E; [injection E as <-; reflexivity|]. apply bind_ok in E as (s1 & E1 & E). rewrite (IH _ _ E).
    apply bind_ok in E1 as (m & _ & E1). destruct m; [injection E1 as <-; reflexivity|]. apply bind_ok in E1 as (c & _ & E1). apply bind_ok in E1 as (n & _ & E1). apply set_inv in E1 as [_ ->]. apply upd_length. }
  rewrite (G _ _ _ E). apply repeat_length.
Qed.
Lemma same_but_eq n n' (Q : string -> string -> Prop) : (forall a b, Q a b -> a = b) -> same_but Q n n' -> n = n'.
Proof.
  intros HQ H. induction H as [|d d' l l' r r' m m' E1 E2 E3 E4 _ -> _ -> _ ->]; [reflexivity|]. destruct d, d'. cbn in *. subst.
  destruct E4 as [->|E4]; [reflexivity|]. apply HQ in E4 as ->. reflexivity.
Qed.
Theorem C132_equal_weights_exact : forall w rnd m tf p root cases cans oob al imp du fuel n s,
  (0 < w)%R -> NCats (cMap tf) = m -> 0 < m -> cleared m (aTgt al) ->
  let weights := repeat (Some w : XR) m in
  grow_cat XR cst (gini_target XR) cFindPredicted rnd tf fuel p root cases cans oob al imp du = Ok (n, s) ->
  exists s', grow_cat XR cst (wrf_target XR weights) (predict_weighted weights) rnd tf fuel p root cases cans oob al imp du = Ok (n, s') /\ gImp s = gImp s' /\ gDepth s = gDepth s'.
Proof.
  intros w rnd m tf p root cases cans oob al imp du fuel n s Hw N Hm (R1 & R2 & R3 & R4) weights E. unfold grow_cat in *.
  assert (Hlk : forall data, lockstep (gini_target XR data) (wrf_target XR weights data) (cnear (alike m)) (cholds (counted m))) by (intros; apply wrf_gini; [exact Hm|lra]).
  assert (Pw : forall l, predict_weighted weights tf l = cFindPredicted tf l).
  { intros l. unfold weights. rewrite <- N. apply predict_weighted_same; [exact Hw|apply mode_counts_length]. }
  pose proof (C132_same_splits XR cst cst (gini_target XR (cData tf)) (wrf_target XR weights (cData tf)) (cnear (alike m)) (cholds (counted m)) (cFindPredicted tf) (predict_weighted weights tf) rnd
    catF catF (cCopyInTo tf) (cCopyInTo tf) cShuffleCases cShuffleCases (fun k => gini_target XR (cData k)) (fun k => wrf_target XR weights (cData k)) eq eq p root cases
    (mkG XR cst catF cans oob al (cCopy tf) imp du) (mkG XR cst catF cans oob al (cCopy tf) imp du) fuel n s) as H.
  apply H in E as (n' & s' & E' & Hn & _ & _ & Hi & Hd & _); clear H.
  - apply same_but_eq in Hn.
    + subst n'. exists s'. split; [exact E'|]. split; assumption.
    + intros a b (l & H1 & H2). rewrite Pw in H2. congruence.
  - apply Hlk.
  - intros l a Ea. exists a. rewrite Pw. exact Ea.
  - intros k k' <-. reflexivity.
  - auto.
  - intros d l k k' <-. apply follows_refl.
  - intros k k' <-. apply Hlk.
  - unfold same_start. cbn [gCans gOob gImp gDepth gAl gK]. assert (Nr : cnear (alike m) (aTgt al) (aTgt al)) by (unfold cnear, alike; auto 10). auto 15.
Qed.
Print Assumptions C132_equal_weights_exact.

(** *** A constant added to the target: squared error and gradient boosting.  The contrast target
    of -vet is a pair of flags and numbers. *)
Definition shuffle_numbers (d : nat -> nat) (l : list nat) (k : list bool * list R) : res (list bool * list R) := shuffleCases d l (fst k) (snd k).
Lemma shifted : forall St (F : list XR -> target XR St) c xs missing fmt rnd p root cases g fuel n s holds,
  (forall ys, lockstep (F (numeric ys)) (F (numeric (shift c ys))) (fun _ _ => True) holds) ->
  let tree (ys : list R) g := Grow XR St (F (numeric ys)) (fun l => rmap fmt (NumMean XR (numeric ys) missing l)) rnd (list bool * list R)%type
    (fun _ => (missing, ys)) shuffle_numbers (fun k => F (numeric (snd k))) fuel p root cases g in
  tree xs g = Ok (n, s) ->
  exists n' s', tree (shift c xs) (mkG XR St _ (gCans g) (gOob g) (gAl g) (fst (gK g), shift c (snd (gK g))) (gImp g) (gDepth g)) = Ok (n', s') /\
    same_but (fun a b => exists x : XR, a = fmt x /\ b = fmt (nadd XR x (Some c))) n n' /\ gImp s = gImp s' /\ gDepth s = gDepth s'.
Proof.
  intros St F c xs missing fmt rnd p root cases g fuel n s holds Hlk tree E.
    assert (Hm : forall l, follows (fun a b => exists x : XR, a = fmt x /\ b = fmt (nadd XR x (Some c)))
      (rmap fmt (NumMean XR (numeric xs) missing l)) (rmap fmt (NumMean XR (numeric (shift c xs)) missing l))).
    { intros l a Ea. destruct (NumMean XR (numeric xs) missing l) as [x| |] eqn:Ex; try discriminate. injection Ea as <-.
      destruct (NumMean_shift c xs missing l x Ex) as (y & -> & ->). cbn. eauto. }
    edestruct (grow_near XR St St (F (numeric xs)) (F (numeric (shift c xs))) (fun _ _ => True) holds (Hlk xs) _ _ _ Hm) with
      (kCopyFrom := fun _ : list bool * list R => (missing, xs)) (kShuffleCases := shuffle_numbers) (kTarget := fun k : list bool * list R => F (numeric (snd k)))
      (kCopyFrom' := fun _ : list bool * list R => (missing, shift c xs)) (kShuffleCases' := shuffle_numbers) (kTarget' := fun k : list bool * list R => F (numeric (snd k)))
      (knear := fun k k' : list bool * list R => fst k' = fst k /\ snd k' = shift c (snd k)) (kold := fun k k' : list bool * list R => fst k' = fst k /\ snd k' = shift c (snd k)) (n' := root) (a := (n, s))
      (g' := mkG XR St (list bool * list R)%type (gCans g) (gOob g) (gAl g) (fst (gK g), shift c (snd (gK g))) (gImp g) (gDepth g))
      as ([n' s'] & E' & Hn & H1 & H2 & H3 & H4 & H5 & H6).
    - intros k k' _. split; reflexivity.
    - auto.
    - intros d l [ms v] [ms' v'] [K1 K2] x Ex. cbn [fst snd] in *. subst ms' v'. unfold shuffle_numbers in *. cbn [fst snd] in *.
      destruct (shuffleCases_map (fun x => x + c)%R _ _ _ _ _ Ex) as (y & Ey & Y1 & Y2). exists y. split; [exact Ey|]. split; [congruence|exact Y2].
    - intros k k' [_ ->]. apply Hlk.
    - instantiate (1 := g). unfold gnear, alnear. cbn. auto 12.
    - apply same_but_refl.
    - exact E.
    - exists n', s'. cbn [fst snd] in *. auto.
Qed.
Definition shifted_trees {St} (F : list XR -> target XR St) : Prop := forall c xs missing fmt rnd p root cases g fuel n s,
  let tree (ys : list R) g := Grow XR St (F (numeric ys)) (fun l => rmap fmt (NumMean XR (numeric ys) missing l)) rnd (list bool * list R)%type
    (fun _ => (missing, ys)) shuffle_numbers (fun k => F (numeric (snd k))) fuel p root cases g in
  tree xs g = Ok (n, s) ->
  exists n' s', tree (shift c xs) (mkG XR St _ (gCans g) (gOob g) (gAl g) (fst (gK g), shift c (snd (gK g))) (gImp g) (gDepth g)) = Ok (n', s') /\
    same_but (fun a b => exists x : XR, a = fmt x /\ b = fmt (nadd XR x (Some c))) n n' /\ gImp s = gImp s' /\ gDepth s = gDepth s'.
Theorem C132_shifted_exact : shifted_trees (num_target XR) /\ shifted_trees (grad_target XR).
Proof.
  split; intros c xs missing fmt rnd p root cases g fuel n s tree E.
  - eapply shifted; [|exact E]. intros. apply num_shifted.
  - eapply shifted; [|exact E]. intros. apply grad_shifted.
Qed.
Print Assumptions C132_shifted_exact.

(** ** What fails in float64: the classes are summed in the order of their numbers, so equal
    impurities can come out different and another feature is chosen. *)
Definition root_feature {G} (r : res (node * G)) : option nat :=
  match r with Ok (Node d _ _ _, _) => if isCNil (dCode d) then None else Some (dFeat d) | _ => None end.
Definition root_predicts {G} (r : res (node * G)) : option string :=
  match r with Ok (Node d _ _ _, _) => Some (dPred d) | _ => None end.
Definition sg3 (c : nat) : nat := match c with 0 => 1 | 1 => 0 | _ => c end.
Definition abc : catF := PropCatSearch.cats ["a"; "b"; "c"] [0; 0; 2; 1] false.
Definition bac : catF := PropCatSearch.cats ["b"; "a"; "c"] [1; 1; 2; 0] false.
Definition room3 : allocs cst := mkAl (repeat f0 8) (repeat 0%Z 8) (repeat 0%Z 3, mkK (repeat 0%Z 3) (repeat 0%Z 3) (repeat 0%Z 3)) 0.
Lemma abc_bac : renumbered_classes 3 sg3 abc bac.
Proof.
  split; try reflexivity.
  - unfold renumbers. cbn. apply perm_swap.
  - intros c Hc. do 3 (destruct c; [reflexivity|]). lia.
Qed.
Definition two_cols : params :=
  mkP [FNum (PropSearch.plain (map f_of_Z [1; 1; 1; 0]%Z)); FNum (PropSearch.plain (map f_of_Z [1; 1; 0; 1]%Z))] 2 1 false false false false 0 false.
Theorem C132_renumbered_refuted :
  exists sg m tf tf' p cases cans al,
    renumbered_classes m sg tf tf' /\ cleared m (aTgt al) /\ pVet p = false /\ pEvalOob p = false /\
    let tree t := root_feature (grow_cat F64 cst (gini_target F64) cFindPredicted (fun _ => 0) t 9 p newNode cases cans [] al None None) in
    tree tf = Some 0 /\ tree tf' = Some 1.
Proof.
  exists sg3, 3, abc, bac, two_cols, [0; 1; 2; 3], [0; 1], room3. split; [exact abc_bac|]. split; [repeat split|]. split; [reflexivity|]. split; [reflexivity|].
  split; vm_compute; reflexivity.
Qed.
Print Assumptions C132_renumbered_refuted.

(** Ties between classes are decided by their numbers, so the names predicted can change. *)
Theorem C132_tie_refuted :
  exists sg m tf tf' p cases cans al,
    renumbered_classes m sg tf tf' /\ cleared m (aTgt al) /\ pVet p = false /\ pEvalOob p = false /\
    forall (A : arith) rnd,
    let tree t := root_predicts (grow_cat A cst (gini_target A) cFindPredicted rnd t 9 p newNode cases cans [] al None None) in
    tree tf = Some "a" /\ tree tf' = Some "b".
Proof.
  exists sg3, 3, abc, bac, (mkP [] 1 2 false false false false 0 false), [1; 3], [], room3. split; [exact abc_bac|]. split; [repeat split|]. split; [reflexivity|]. split; [reflexivity|].
  intros A rnd. split; reflexivity.
Qed.
Print Assumptions C132_tie_refuted.

(** Adding a constant to a numerical target, without rounding, can remove a split. *)
Definition small_t : numF := PropSearch.plain (map f_of_Z [2; 9; 9]%Z).
Definition large_t : numF := PropSearch.plain (map f_of_Z [800000002; 800000009; 800000009]%Z).
Definition one_col : params := mkP [FNum (PropSearch.plain (map f_of_Z [0; 1; 2]%Z))] 1 1 false false false false 0 false.
Definition sums0 : allocs (sums F64) := mkAl (repeat f0 3) (repeat 0%Z 3) (@mkSums F64 f0 f0 f0 f0 f0 f0) 0.
Theorem C132_shift_refuted :
  exists tf tf' p cases cans al,
    nData tf' = map (fun x => fadd x (f_of_Z 800000000)) (nData tf) /\ nMissing tf' = nMissing tf /\ pVet p = false /\ pEvalOob p = false /\
    forall fmtF rnd,
    let tree t := is_split (grow_num F64 (sums F64) (num_target F64) (predict_mean fmtF) rnd t 9 p newNode cases cans [] al None None) in
    tree tf = Some true /\ tree tf' = Some false.
Proof.
  exists small_t, large_t, one_col, [0; 1; 2], [0], sums0. split; [reflexivity|]. split; [reflexivity|]. split; [reflexivity|]. split; [reflexivity|].
  intros fmtF rnd. split; vm_compute; reflexivity.
Qed.
Print Assumptions C132_shift_refuted.

(** A case that meets the hypotheses: three classes renumbered, counters of size three, and a
    leaf whose prediction does not hang on a tie. *)
Example C132_ex :
  renumbered_classes 3 sg3 abc bac /\ cleared 3 (aTgt room3) /\ NCats (cMap abc) = 3 /\
  cFindPredicted abc [0; 1; 2] = Ok "a" /\ cFindPredicted bac [0; 1; 2] = Ok "a" /\
  root_feature (grow_cat F64 cst (gini_target F64) cFindPredicted (fun _ => 0) abc 9 two_cols newNode [0; 1; 2; 3] [0; 1] [] room3 None None) = Some 0.
Proof. split; [exact abc_bac|]. split; [repeat split|]. repeat split. Qed.
