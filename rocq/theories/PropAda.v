(** C51: adaptive boosting. *)
From Verif Require Import Go GoLemmas F64 Exact ModelFeature FeatureSpec ModelImpurity ImpuritySpec ImpurityProofs
  PropImpurity3 ModelBoost BoostProofs PropBoost.
Local Open Scope nat_scope.
Local Open Scope list_scope.

(** ** Spec *)

(** [maj] names the majority category of every leaf (the lowest numbered on ties). *)
Definition majorities (data : list nat) (maj : list nat -> nat) (leaves : list (list nat)) : Prop :=
  Forall (fun cs => is_mode (maj cs) (labels data cs)) leaves.
(** The cases a leaf predicts wrongly and rightly. *)
Definition misses (data : list nat) (maj : list nat -> nat) (leaves : list (list nat)) : list nat :=
  flat_map (fun cs => filter (fun c => negb (nth c data 0 =? maj cs)) cs) leaves.
Definition hits (data : list nat) (maj : list nat -> nat) (leaves : list (list nat)) : list nat :=
  flat_map (fun cs => filter (fun c => nth c data 0 =? maj cs) cs) leaves.
(** The weight carried by some cases. *)
Definition carried (ws : list R) (cases : list nat) : R := Rsum (map (fun c => nth c ws 0%R) cases).

Lemma is_mode_unique a b l : is_mode a l -> is_mode b l -> a = b.
Proof.
  intros Ha Hb. destruct (Nat.lt_trichotomy a b) as [H|[H|H]]; auto.
  - destruct (Hb a) as [_ H1]. specialize (H1 H). destruct (Ha b). lia.
  - destruct (Ha b) as [_ H1]. specialize (H1 H). destruct (Hb a). lia.
Qed.

Definition mem (d : nat) (l : list nat) : bool := existsb (Nat.eqb d) l.
Lemma mem_In d l : mem d l = true <-> In d l.
Proof.
  unfold mem. rewrite existsb_exists. split.
  - intros (x & H & E). apply Nat.eqb_eq in E. subst. auto.
  - intros H. exists d. rewrite Nat.eqb_refl. auto.
Qed.
Lemma mem_false d l : mem d l = false <-> ~ In d l.
Proof. rewrite <- not_true_iff_false, mem_In. tauto. Qed.

Lemma mode_is data k maj cs : 0 < k -> labelled data k cs -> is_mode (maj cs) (labels data cs) ->
  count_mode (counts data k cs) = maj cs.
Proof. intros Hk Hl Hm. eapply is_mode_unique; [|exact Hm]. apply C49_boosting_majority; auto. Qed.

Lemma nodup_app_l {X} (a b : list X) : NoDup (a ++ b) -> NoDup a.
Proof. induction a; intros H; [constructor|]. inversion H; subst. constructor; auto. rewrite in_app_iff in *. tauto. Qed.
Lemma nodup_app_r {X} (a b : list X) : NoDup (a ++ b) -> NoDup b.
Proof. induction a; intros H; auto. inversion H; auto. Qed.

Section Pass.
  Variable A : arith.
  Local Notation zero := (nofZ A 0).
  Variables (data : list nat) (missing : list bool) (k : nat) (maj : list nat -> nat) (up down : A) (n : nat).
  Hypothesis Hd : length data = n.
  Hypothesis Hm : length missing = n.
  Hypothesis Hk : 0 < k.

  Lemma leaf_pass m : forall cs (W : list A), NoDup cs -> Forall (fun c => c < n) cs -> length W = n ->
    exists W', foreach cs (fun c weights =>
        let* ms := get missing c in
        if ms then Ok weights
        else
          let* cat := get data c in
          let* w := get weights c in
          let* w := Ok (nmul A w (if cat =? m then down else up)) in
          set weights c w) W = Ok W' /\ length W' = n /\
      forall d, d < n -> nth d W' zero =
        if mem d cs && negb (nth d missing false) then nmul A (nth d W zero) (if nth d data 0 =? m then down else up) else nth d W zero.
  Proof.
    induction cs as [|c cs IH]; intros W Nd Hc HW.
    - exists W. cbn. auto.
    - apply NoDup_cons_iff in Nd as [H1 H2]. apply Forall_cons_iff in Hc as [H3 H4]. cbn [foreach].
      rewrite (get_lt missing c false) by lia. cbn [bind].
      destruct (nth c missing false) eqn:Em.
      + destruct (IH W) as (W' & E & L & V); auto. exists W'. split; auto. split; auto. intros d Hl. rewrite V by auto.
        cbn [mem existsb]. destruct (d =? c) eqn:Ed; auto. apply Nat.eqb_eq in Ed. subst d.
        change (existsb (Nat.eqb c) cs) with (mem c cs). apply mem_false in H1. rewrite H1, Em. cbn. reflexivity.
      + rewrite (get_lt data c 0) by lia. cbn [bind]. rewrite (get_lt W c zero) by lia. cbn [bind].
        rewrite set_ok by lia. cbn [bind].
        destruct (IH (upd W c (nmul A (nth c W zero) (if nth c data 0 =? m then down else up)))) as (W' & E & L & V); auto.
        { rewrite upd_length. auto. }
        exists W'. split; auto. split; auto. intros d Hl. rewrite V by auto. rewrite nth_upd by lia.
        cbn [mem existsb]. change (existsb (Nat.eqb d) cs) with (mem d cs).
        destruct (d =? c) eqn:Ed; auto. apply Nat.eqb_eq in Ed. subst d. apply mem_false in H1. rewrite H1, Em. reflexivity.
  Qed.

  Lemma leaves_pass : forall leaves (W : list A) counter, NoDup (concat leaves) ->
    Forall (labelled data k) leaves -> majorities data maj leaves -> length W = n -> length counter = k ->
    exists W' counter', foreach leaves (fun cases '((weights, counter) : list A * list Z) =>
        let* counter := CountPerCat data cases counter in
        let m := count_mode counter in
        let* weights := foreach cases (fun c weights =>
            let* ms := get missing c in
            if ms then Ok weights
            else
              let* cat := get data c in
              let* w := get weights c in
              let* w := Ok (nmul A w (if cat =? m then down else up)) in
              set weights c w) weights in
        Ok (weights, counter)) (W, counter) = Ok (W', counter') /\ length W' = n /\
      forall d, d < n -> nth d W' zero =
        if nth d missing false then nth d W zero
        else if mem d (misses data maj leaves) then nmul A (nth d W zero) up
        else if mem d (hits data maj leaves) then nmul A (nth d W zero) down
        else nth d W zero.
  Proof.
    induction leaves as [|cs leaves IH]; intros W counter Nd Hl Hj HW Hc.
    - exists W, counter. cbn. do 2 (split; auto). intros d _. destruct (nth d missing false); auto.
    - pose proof (Forall_inv Hl) as L1. pose proof (Forall_inv_tail Hl) as L2. pose proof (Forall_inv Hj) as J1. pose proof (Forall_inv_tail Hj) as J2. cbn beta in J1. cbn [concat] in Nd.
      cbn [foreach]. rewrite CountPerCat_ok by (rewrite Hc; auto). rewrite Hc. cbn [bind]. cbv zeta.
      rewrite (mode_is data k maj cs) by auto.
      destruct (leaf_pass (maj cs) cs W) as (W1 & E1 & W1l & V1); auto.
      { eapply nodup_app_l; eauto. }
      { eapply Forall_impl; [|exact L1]. intros c [H _]. cbn beta in H. lia. }
      match goal with |- context [bind (bind ?X _) _] => assert (EX : X = Ok W1) by exact E1; rewrite EX; clear EX E1 end. cbn [bind].
      destruct (IH W1 (counts data k cs)) as (W2 & counter' & E2 & W2l & V2); auto.
      { eapply nodup_app_r; eauto. }
      { apply counts_length. }
      exists W2, counter'. split; [exact E2|]. split; auto. intros d Hdn. rewrite V2 by auto. rewrite V1 by auto.
      destruct (nth d missing false) eqn:Em; [rewrite andb_false_r; auto|]. rewrite andb_true_r.
      unfold misses, hits. cbn [flat_map]. fold (misses data maj leaves) (hits data maj leaves).
      assert (Hsub : forall x, In x (misses data maj leaves) \/ In x (hits data maj leaves) -> In x (concat leaves)).
      { intros x H. unfold misses, hits in H. rewrite !in_flat_map in H.
        destruct H as [(l & H & H')|(l & H & H')]; apply filter_In in H' as [H' _]; apply in_concat; eauto. }
      destruct (mem d cs) eqn:Ec.
      + apply mem_In in Ec.
        assert (N : ~ In d (concat leaves)).
        { intros Hin. apply in_split in Ec as (l1 & l2 & ->). rewrite <- app_assoc in Nd. cbn in Nd.
          apply NoDup_remove_2 in Nd. apply Nd. rewrite !in_app_iff. auto. }
        assert (N1 : mem d (misses data maj leaves) = false) by (apply mem_false; auto).
        assert (N2 : mem d (hits data maj leaves) = false) by (apply mem_false; auto).
        rewrite N1, N2. destruct (nth d data 0 =? maj cs) eqn:Ej.
        * assert (M1 : mem d (filter (fun c => negb (nth c data 0 =? maj cs)) cs ++ misses data maj leaves) = false).
          { apply mem_false. rewrite in_app_iff, filter_In, Ej. apply mem_false in N1. cbn. intuition discriminate. }
          assert (M2 : mem d (filter (fun c => nth c data 0 =? maj cs) cs ++ hits data maj leaves) = true).
          { apply mem_In. rewrite in_app_iff, filter_In. auto. }
          rewrite M1, M2. reflexivity.
        * assert (M1 : mem d (filter (fun c => negb (nth c data 0 =? maj cs)) cs ++ misses data maj leaves) = true).
          { apply mem_In. rewrite in_app_iff, filter_In, Ej. auto. }
          rewrite M1. reflexivity.
      + apply mem_false in Ec.
        assert (M1 : mem d (filter (fun c => negb (nth c data 0 =? maj cs)) cs ++ misses data maj leaves) = mem d (misses data maj leaves)).
        { apply eq_true_iff_eq. rewrite !mem_In, in_app_iff, filter_In. tauto. }
        assert (M2 : mem d (filter (fun c => nth c data 0 =? maj cs) cs ++ hits data maj leaves) = mem d (hits data maj leaves)).
        { apply eq_true_iff_eq. rewrite !mem_In, in_app_iff, filter_In. tauto. }
        rewrite M1, M2. reflexivity.
  Qed.
End Pass.

(** ** Exact arithmetic *)

Definition exact (ws : list R) : list XR := map (fun w => Some w : XR) ws.
(** math.Log and math.Exp on the reals *)
Definition xlog (x : XR) : XR := match x with Some r => Some (ln r) | None => None end.
Definition xexp (x : XR) : XR := match x with Some r => Some (exp r) | None => None end.

Lemma nth_exact ws c : c < length ws -> nth c (exact ws) (Some 0%R) = Some (nth c ws 0%R).
Proof. intros H. unfold exact. rewrite (nth_indep _ (Some 0%R) (Some 0%R)) by (rewrite map_length; auto). apply (map_nth (fun w => Some w : XR)). Qed.

Lemma err_leaf data ws m : forall cs e, Forall (fun c => c < length data) cs -> length data = length ws ->
  foreach cs (fun c e => let* cat := get data c in
      if cat =? m then Ok e
      else let* w := get (exact ws) c in Ok (nadd XR e w)) (Some e) =
  Ok (Some (e + carried ws (filter (fun c => negb (nth c data O =? m)%nat) cs))%R : XR).
Proof.
  induction cs as [|c cs IH]; intros e H L.
  - cbn. unfold carried. cbn. do 2 f_equal. lra.
  - inversion H; subst. cbn [foreach filter]. rewrite (get_lt data c 0) by auto. cbn [bind].
    destruct (nth c data 0 =? m); cbn [negb].
    + cbn [bind]. auto.
    + rewrite (get_lt (exact ws) c (Some 0%R)) by (unfold exact; rewrite map_length; lia). cbn [bind].
      rewrite nth_exact by lia. cbn [nadd XR lift2]. rewrite IH by auto. unfold carried. cbn [map Rsum]. do 2 f_equal. lra.
Qed.

Lemma carried_app ws a b : carried ws (a ++ b) = (carried ws a + carried ws b)%R.
Proof. unfold carried. rewrite map_app. apply Rsum_app. Qed.

Lemma err_pass data k ws maj : 0 < k -> length data = length ws -> forall leaves e counter,
  Forall (labelled data k) leaves -> majorities data maj leaves -> length counter = k ->
  exists counter', length counter' = k /\
    foreach leaves (fun cases '((err, counter) : XR * list Z) =>
      let* (e, counter) := AdaImpurity XR (exact ws) data cases counter in
      Ok (nadd XR err e, counter)) (Some e, counter) = Ok (Some (e + carried ws (misses data maj leaves))%R, counter').
Proof.
  intros Hk L. induction leaves as [|cs leaves IH]; intros e counter Hl Hj Hc.
  - exists counter. split; auto. cbn. unfold carried. cbn. do 3 f_equal. lra.
  - pose proof (Forall_inv Hl) as L1. pose proof (Forall_inv_tail Hl) as L2. pose proof (Forall_inv Hj) as J1. pose proof (Forall_inv_tail Hj) as J2. cbn beta in J1. cbn [foreach].
    unfold AdaImpurity at 1. rewrite CountPerCat_ok by (rewrite Hc; auto). rewrite Hc. cbn [bind]. unfold AdaFromCounts at 1.
    rewrite (mode_is data k maj cs) by auto.
    assert (F : Forall (fun c => c < length data) cs) by (eapply Forall_impl; [|exact L1]; intros c [H _]; auto).
    pose proof (err_leaf data ws (maj cs) cs 0%R F L) as E0. cbn [nofZ XR].
    match goal with |- context [foreach cs ?b ?i] => assert (EX : foreach cs b i = _) by exact E0; rewrite EX; clear EX E0 end.
    cbn [bind nadd XR lift2].
    destruct (IH (e + (0 + carried ws (filter (fun c => negb (nth c data O =? maj cs)%nat) cs)))%R (counts data k cs)) as (c' & Hc' & E); auto.
    { apply counts_length. }
    exists c'. split; auto. etransitivity; [exact E|]. do 3 f_equal. unfold misses. cbn [flat_map]. fold (misses data maj leaves).
    rewrite carried_app. lra.
Qed.

Lemma sum_exact ws : forall s, fold_left (nadd XR) (exact ws) (Some s) = Some (s + Rsum ws)%R.
Proof. induction ws as [|w ws IH]; intros s; cbn; [f_equal; lra|]. unfold exact in IH. rewrite IH. f_equal. lra. Qed.

Lemma carried_all ws : carried ws (seq 0 (length ws)) = Rsum ws.
Proof.
  unfold carried. f_equal. apply nth_ext with (d := 0%R) (d' := 0%R); [rewrite map_length, seq_length; auto|].
  intros i Hi. rewrite map_length, seq_length in Hi. rewrite (nth_indep _ 0%R (nth 0 ws 0%R)) by (rewrite map_length, seq_length; auto).
  rewrite map_nth with (f := fun c => nth c ws 0%R), seq_nth by auto. reflexivity.
Qed.
Lemma carried_perm ws a b : Permutation a b -> carried ws a = carried ws b.
Proof. intros H. unfold carried. apply Rsum_perm, Permutation_map, H. Qed.
Lemma carried_scale ws ws' s cases : (forall c, In c cases -> nth c ws' 0%R = (nth c ws 0 * s)%R) ->
  carried ws' cases = (carried ws cases * s)%R.
Proof.
  unfold carried. induction cases as [|c cases IH]; intros H; cbn; [lra|]. rewrite IH by (intros; apply H; right; auto).
  rewrite (H c) by (left; auto). lra.
Qed.

Lemma split_leaves data maj leaves : Permutation (concat leaves) (misses data maj leaves ++ hits data maj leaves).
Proof.
  induction leaves as [|cs leaves IH]; [constructor|]. unfold misses, hits. cbn [concat flat_map].
  fold (misses data maj leaves) (hits data maj leaves).
  assert (P : Permutation cs (filter (fun c => negb (nth c data 0 =? maj cs)) cs ++ filter (fun c => nth c data 0 =? maj cs) cs)).
  { generalize (maj cs). intros m. clear. induction cs as [|c cs IH]; cbn; auto. destruct (nth c data 0 =? m); cbn; auto.
    apply Permutation_cons_app, IH. }
  rewrite P at 1. rewrite IH, <- !app_assoc. apply Permutation_app_head.
  rewrite !app_assoc. apply Permutation_app_tail, Permutation_app_comm.
Qed.

Lemma Rsum_pos ws : ws <> [] -> Forall (fun w => (0 < w)%R) ws -> (0 < Rsum ws)%R.
Proof.
  destruct ws as [|w ws]; [congruence|]. intros _ H. inversion H as [|? ? H1 H2]; subst. cbn.
  assert (0 <= Rsum ws)%R; [|lra]. clear - H2. induction H2; cbn; lra.
Qed.

Definition tree_weight (e : R) : R := (/ 2 * ln ((1 - e) / e))%R.

(** One round with an error strictly between 0 and 1/2: the weights before and after. *)
Lemma ada_round data missing k leaves ws maj : 0 < k -> length data = length ws -> length missing = length ws -> ws <> [] ->
  NoDup (concat leaves) -> Forall (labelled data k) leaves -> majorities data maj leaves ->
  Forall (fun w => (0 < w)%R) ws ->
  let e := carried ws (misses data maj leaves) in
  (0 < e < / 2)%R ->
  exists W, AdaBoost XR xlog xexp data missing k leaves (exact ws) = Ok (exact (map (fun w => w / Rsum W)%R W), Some (tree_weight e)) /\
    length W = length ws /\ Forall (fun w => (0 < w)%R) W /\
    forall d, d < length ws -> nth d W 0%R =
      if nth d missing false then nth d ws 0%R
      else if mem d (misses data maj leaves) then (nth d ws 0 * exp (tree_weight e))%R
      else if mem d (hits data maj leaves) then (nth d ws 0 * exp (- tree_weight e))%R
      else nth d ws 0%R.
Proof.
  intros Hk Ld Lm Hne Nd Hl Hj Hpos e He. unfold AdaBoost, ada_boost.
  destruct (err_pass data k ws maj Hk Ld leaves 0%R (repeat 0%Z k) Hl Hj) as (counter & Hc & E); [apply repeat_length|].
  match goal with |- context [bind (foreach leaves ?b ?i) _] =>
    assert (EX : foreach leaves b i = _) by exact E; rewrite EX; clear EX E end. cbn [bind]. rewrite Rplus_0_l. fold e.
  assert (E2 : xdiv (Some 1%R) (Some 2%R) = Some (/ 2)%R) by (rewrite xdiv_some by lra; f_equal; lra).
  cbn [ndiv nofZ XR]. rewrite E2. cbn [nleb XR xcmp]. unfold Rleb. destruct (Rle_dec (/ 2) e) as [H|_]; [lra|].
  cbn [nsub XR lift2]. rewrite xdiv_some by lra. cbn [xlog nmul XR lift2]. fold (tree_weight e).
  unfold nneg. cbn [nsub nofZ XR lift2 xexp].
  destruct (leaves_pass XR data missing k maj (Some (exp (tree_weight e))) (Some (exp (0 - tree_weight e))) (length ws) Ld Lm Hk
    leaves (exact ws) counter Nd Hl Hj) as (W & counter' & E3 & LW & V); auto.
  { unfold exact. apply map_length. }
  match goal with |- context [bind ?X _] => assert (EX : X = Ok (W, counter')) by exact E3; rewrite EX; clear EX E3 end. cbn [bind].
  set (g := fun d => if nth d missing false then nth d ws 0%R
      else if mem d (misses data maj leaves) then (nth d ws 0 * exp (tree_weight e))%R
      else if mem d (hits data maj leaves) then (nth d ws 0 * exp (- tree_weight e))%R
      else nth d ws 0%R).
  assert (EW : W = exact (map g (seq 0 (length ws)))).
  { apply nth_ext with (d := Some 0%R : XR) (d' := Some 0%R : XR).
    { unfold exact. rewrite !map_length, seq_length. auto. }
    rewrite LW. intros d Hd. specialize (V d Hd). cbn [nofZ XR] in V. rewrite V.
    rewrite nth_exact by auto. unfold exact. rewrite nth_indep with (d' := Some (g 0) : XR) by (rewrite !map_length, seq_length; auto).
    rewrite map_map, map_nth with (f := fun d => Some (g d) : XR). rewrite seq_nth by auto. cbn [plus]. unfold g.
    destruct (nth d missing false); auto. cbn [nmul XR lift2]. unfold Rminus. rewrite Rplus_0_l.
    destruct (mem d (misses data maj leaves)); auto. destruct (mem d (hits data maj leaves)); auto. }
  exists (map g (seq 0 (length ws))). rewrite EW.
  assert (Hg : forall d, d < length ws -> (0 < g d)%R).
  { intros d Hd. rewrite Forall_forall in Hpos. pose proof (Hpos _ (nth_In ws 0%R Hd)). unfold g.
    pose proof (exp_pos (tree_weight e)). pose proof (exp_pos (- tree_weight e)).
    destruct (nth d missing false); auto. destruct (mem d (misses data maj leaves)); [apply Rmult_lt_0_compat; auto|].
    destruct (mem d (hits data maj leaves)); auto. apply Rmult_lt_0_compat; auto. }
  assert (HW : Forall (fun w => (0 < w)%R) (map g (seq 0 (length ws)))).
  { apply Forall_forall. intros w H. apply in_map_iff in H as (d & <- & H). apply Hg. apply in_seq in H. lia. }
  assert (Hn : (Rsum (map g (seq 0 (length ws))) <> 0)%R).
  { apply Rgt_not_eq, Rsum_pos; auto. destruct ws; [congruence|discriminate]. }
  split; [|split; [rewrite map_length, seq_length; auto|split; auto]].
  - pose proof (sum_exact (map g (seq 0 (length ws))) 0) as Es. rewrite Rplus_0_l in Es. rewrite Es.
    do 2 f_equal. unfold exact. rewrite !map_map. apply map_ext. intros d. apply xdiv_some, Hn.
  - intros d Hd. rewrite nth_indep with (d' := g 0) by (rewrite map_length, seq_length; auto).
    rewrite map_nth, seq_nth by auto. reflexivity.
Qed.

(** The new weights are a distribution. *)
Theorem C51_weights_distribution : forall data missing k leaves ws maj,
  0 < k -> length data = length ws -> length missing = length ws -> ws <> [] ->
  NoDup (concat leaves) -> Forall (labelled data k) leaves -> majorities data maj leaves ->
  Forall (fun w => (0 < w)%R) ws ->
  (0 < carried ws (misses data maj leaves) < / 2)%R ->
  exists ws' weight, AdaBoost XR xlog xexp data missing k leaves (exact ws) = Ok (exact ws', Some weight) /\
    (0 < weight)%R /\ length ws' = length ws /\ Forall (fun w => (0 < w)%R) ws' /\ Rsum ws' = 1%R.
Proof.
  intros data missing k leaves ws maj Hk Ld Lm Hne Nd Hl Hj Hpos He.
  destruct (ada_round data missing k leaves ws maj) as (W & E & LW & HW & _); auto.
  set (e := carried ws (misses data maj leaves)) in *.
  assert (HS : (0 < Rsum W)%R) by (apply Rsum_pos; auto; destruct W, ws; try congruence; discriminate).
  eexists _, _. split; [exact E|]. split.
  { unfold tree_weight. apply Rmult_lt_0_compat; [lra|].
    rewrite <- ln_1. apply ln_increasing; [lra|]. apply Rmult_lt_reg_r with e; [lra|]. unfold Rdiv. rewrite Rmult_assoc, Rinv_l by lra. lra. }
  split; [rewrite map_length; auto|]. split.
  - apply Forall_forall. intros w H. apply in_map_iff in H as (x & <- & H). rewrite Forall_forall in HW.
    apply Rdiv_lt_0_compat; auto.
  - assert (G : forall s l, (s <> 0)%R -> Rsum (map (fun w => w / s)%R l) = (Rsum l / s)%R).
    { intros s l Hs. induction l; cbn; [field; auto|]. rewrite IHl. field. auto. }
    rewrite G by lra. field. lra.
Qed.

(** After boosting, what the tree got wrong weighs exactly one half. *)
Theorem C51_half_of_the_weight : forall data missing k leaves ws maj,
  0 < k -> length data = length ws -> ws <> [] ->
  missing = repeat false (length ws) ->
  Permutation (concat leaves) (seq 0 (length ws)) -> Forall (labelled data k) leaves -> majorities data maj leaves ->
  Forall (fun w => (0 < w)%R) ws -> Rsum ws = 1%R ->
  (0 < carried ws (misses data maj leaves) < / 2)%R ->
  exists ws' weight, AdaBoost XR xlog xexp data missing k leaves (exact ws) = Ok (exact ws', Some weight) /\
    carried ws' (misses data maj leaves) = (/ 2)%R /\ carried ws' (hits data maj leaves) = (/ 2)%R.
Proof.
  intros data missing k leaves ws maj Hk Ld Hne Hm HP Hl Hj Hpos Hsum He.
  assert (Nd : NoDup (concat leaves)) by (eapply Permutation_NoDup; [symmetry; exact HP|apply seq_NoDup]).
  destruct (ada_round data missing k leaves ws maj) as (W & E & LW & HW & V); auto.
  { subst missing. apply repeat_length. }
  set (e := carried ws (misses data maj leaves)) in *. set (a := tree_weight e) in *.
  assert (HS : (0 < Rsum W)%R) by (apply Rsum_pos; auto; destruct W, ws; try congruence; discriminate).
  assert (PS : Permutation (misses data maj leaves ++ hits data maj leaves) (seq 0 (length ws))) by (rewrite <- split_leaves; exact HP).
  assert (Nd2 : NoDup (misses data maj leaves ++ hits data maj leaves)) by (eapply Permutation_NoDup; [symmetry; exact PS|apply seq_NoDup]).
  assert (Hlt : forall c, In c (misses data maj leaves ++ hits data maj leaves) -> c < length ws).
  { intros c H. apply (Permutation_in _ PS) in H. apply in_seq in H. lia. }
  assert (Vm : forall c, In c (misses data maj leaves) -> nth c W 0%R = (nth c ws 0 * exp a)%R).
  { intros c H. rewrite V by (apply Hlt, in_app_iff; auto). subst missing. rewrite nth_repeat.
    apply mem_In in H. rewrite H. reflexivity. }
  assert (Vh : forall c, In c (hits data maj leaves) -> nth c W 0%R = (nth c ws 0 * exp (- a))%R).
  { intros c H. rewrite V by (apply Hlt, in_app_iff; auto). subst missing. rewrite nth_repeat.
    assert (N : mem c (misses data maj leaves) = false).
    { apply mem_false. intros H'. apply in_split in H' as (l1 & l2 & E'). rewrite E' in Nd2. rewrite <- app_assoc in Nd2.
      apply NoDup_remove_2 in Nd2. apply Nd2. rewrite !in_app_iff. auto. }
    apply mem_In in H. rewrite N, H. reflexivity. }
  assert (Eh : carried ws (hits data maj leaves) = (1 - e)%R).
  { rewrite <- carried_all in Hsum. rewrite <- (carried_perm _ _ _ PS), carried_app in Hsum. fold e in Hsum. lra. }
  assert (Em : carried W (misses data maj leaves) = (e * exp a)%R) by (apply carried_scale; auto).
  assert (Eh' : carried W (hits data maj leaves) = ((1 - e) * exp (- a))%R) by (rewrite <- Eh; apply carried_scale; auto).
  assert (Esum : Rsum W = (e * exp a + (1 - e) * exp (- a))%R).
  { rewrite <- carried_all, LW. rewrite <- (carried_perm _ _ _ PS), carried_app, Em, Eh'. reflexivity. }
  assert (Ea : ((1 - e) * exp (- a) = e * exp a)%R).
  { assert (X : (exp a * exp a = (1 - e) / e)%R).
    { rewrite <- exp_plus. replace (a + a)%R with (ln ((1 - e) / e)) by (unfold a, tree_weight; lra).
      apply exp_ln. apply Rdiv_lt_0_compat; lra. }
    rewrite exp_Ropp. apply Rmult_eq_reg_r with (exp a); [|apply Rgt_not_eq, exp_pos].
    rewrite Rmult_assoc, Rinv_l by (apply Rgt_not_eq, exp_pos). rewrite Rmult_assoc, X. field. lra. }
  assert (Hx : (0 < e * exp a)%R) by (apply Rmult_lt_0_compat; [lra|apply exp_pos]).
  assert (G : forall l, carried (map (fun w => w / Rsum W)%R W) l = (carried W l * / Rsum W)%R).
  { intros l. apply carried_scale. intros c _. 
    replace 0%R with (0 / Rsum W)%R at 1 by (unfold Rdiv; apply Rmult_0_l).
    rewrite (map_nth (fun w => w / Rsum W)%R). reflexivity. }
  eexists _, _. split; [exact E|]. rewrite !G, Em, Eh', Esum, Ea.
  set (x := (e * exp a)%R) in *. split; field; lra.
Qed.

(** A tree no better than chance: nothing changes and the tree gets no vote. *)
Theorem C51_useless_tree : forall data missing k leaves ws maj,
  0 < k -> length data = length ws -> Forall (labelled data k) leaves -> majorities data maj leaves ->
  (/ 2 <= carried ws (misses data maj leaves))%R ->
  AdaBoost XR xlog xexp data missing k leaves (exact ws) = Ok (exact ws, Some 0%R).
Proof.
  intros data missing k leaves ws maj Hk Ld Hl Hj He. unfold AdaBoost, ada_boost.
  destruct (err_pass data k ws maj Hk Ld leaves 0%R (repeat 0%Z k) Hl Hj) as (counter & Hc & E); [apply repeat_length|].
  match goal with |- context [bind (foreach leaves ?b ?i) _] =>
    assert (EX : foreach leaves b i = _) by exact E; rewrite EX; clear EX E end. cbn [bind]. rewrite Rplus_0_l.
  assert (E2 : xdiv (Some 1%R) (Some 2%R) = Some (/ 2)%R) by (rewrite xdiv_some by lra; f_equal; lra).
  cbn [ndiv nofZ XR]. rewrite E2. cbn [nleb XR xcmp]. unfold Rleb.
  destruct (Rle_dec (/ 2) (carried ws (misses data maj leaves))) as [H|H]; [reflexivity|contradiction].
Qed.

(** ** Any number of rounds *)

Definition partition_ok (data : list nat) (k n : nat) (leaves : list (list nat)) : Prop :=
  NoDup (concat leaves) /\ Forall (labelled data k) leaves.

(** adaboosttarget.go:115-159 round after round *)
Definition ada_rounds (data : list nat) (missing : list bool) (k : nat) (rounds : list (list (list nat))) (ws : list XR)
  : res (list XR * list XR) :=
  foreach rounds (fun leaves '((ws, trees) : list XR * list XR) =>
    let* (ws, w) := AdaBoost XR xlog xexp data missing k leaves ws in
    Ok (ws, trees ++ [w])) (ws, []).

Lemma Rsum_repeat x n : Rsum (repeat x n) = (INR n * x)%R.
Proof. induction n; [cbn; lra|]. rewrite S_INR. cbn [repeat Rsum]. rewrite IHn. lra. Qed.

Lemma new_weights n : 0 < n -> exists ws, NewAdaWeights XR n = exact ws /\ length ws = n /\
  Forall (fun w => (0 < w)%R) ws /\ Rsum ws = 1%R.
Proof.
  intros Hn. assert (Hp : (0 < INR n)%R) by (apply lt_0_INR; auto). exists (repeat (/ INR n)%R n). split.
  - unfold NewAdaWeights, exact. cbn [ndiv nofZ XR]. rewrite <- INR_IZR_INZ. rewrite xdiv_some by lra.
    replace (1 / INR n)%R with (/ INR n)%R by lra. generalize (/ INR n)%R. clear. induction n; intros; cbn; f_equal; auto.
  - rewrite repeat_length. split; auto. split.
    + apply Forall_forall. intros x H. apply repeat_spec in H. subst. apply Rinv_0_lt_compat, Hp.
    + rewrite Rsum_repeat. field. lra.
Qed.

Lemma carried_pos ws l : l <> [] -> Forall (fun w => (0 < w)%R) ws -> Forall (fun c => c < length ws) l -> (0 < carried ws l)%R.
Proof.
  intros Hl Hp Hc. unfold carried. apply Rsum_pos; [destruct l; [congruence|discriminate]|].
  apply Forall_forall. intros x H. apply in_map_iff in H as (c & <- & H). rewrite Forall_forall in *. apply Hp, nth_In, Hc, H.
Qed.

(** From the initial weights on, as long as every tree gets something wrong. *)
Theorem C51_history : forall data missing k maj rounds, 0 < k -> data <> [] -> length missing = length data ->
  Forall (fun leaves => partition_ok data k (length data) leaves /\ majorities data maj leaves /\ misses data maj leaves <> []) rounds ->
  exists ws weights, ada_rounds data missing k rounds (NewAdaWeights XR (length data)) = Ok (exact ws, exact weights) /\
    length ws = length data /\ Forall (fun w => (0 < w)%R) ws /\ Rsum ws = 1%R /\
    length weights = length rounds /\ Forall (fun w => (0 <= w)%R) weights.
Proof.
  intros data missing k maj rounds Hk Hne Lm.
  destruct (new_weights (length data)) as (ws0 & -> & L0 & P0 & S0); [destruct data; cbn; [congruence|lia]|].
  unfold ada_rounds. revert ws0 L0 P0 S0.
  enough (G : forall rounds ws0 tr, length ws0 = length data -> Forall (fun w => (0 < w)%R) ws0 -> Rsum ws0 = 1%R ->
    Forall (fun leaves => partition_ok data k (length data) leaves /\ majorities data maj leaves /\ misses data maj leaves <> []) rounds ->
    exists ws weights, foreach rounds (fun leaves '((ws, trees) : list XR * list XR) =>
      let* (ws, w) := AdaBoost XR xlog xexp data missing k leaves ws in
      Ok (ws, trees ++ [w])) (exact ws0, exact tr) = Ok (exact ws, exact (tr ++ weights)) /\
    length ws = length data /\ Forall (fun w => (0 < w)%R) ws /\ Rsum ws = 1%R /\
    length weights = length rounds /\ Forall (fun w => (0 <= w)%R) weights).
  { intros ws0 L0 P0 S0 H. apply (G rounds ws0 [] L0 P0 S0 H). }
  clear rounds. induction rounds as [|leaves rounds IH]; intros ws0 tr L0 P0 S0 Hr.
  - exists ws0, []. rewrite app_nil_r. cbn. do 5 (split; auto).
  - apply Forall_cons_iff in Hr as [((Nd & Hl) & Hj & Hm) Hr]. cbn [foreach].
    assert (He : (0 < carried ws0 (misses data maj leaves))%R).
    { apply carried_pos; auto. apply Forall_forall. intros c Hc. apply in_flat_map in Hc as (cs & H1 & H2).
      apply filter_In in H2 as [H2 _]. rewrite Forall_forall in Hl. specialize (Hl cs H1). unfold labelled in Hl.
      rewrite Forall_forall in Hl. destruct (Hl c H2). lia. }
    destruct (Rle_dec (/ 2) (carried ws0 (misses data maj leaves))) as [H|H].
    + rewrite (C51_useless_tree data missing k leaves ws0 maj) by auto. cbn [bind].
      destruct (IH ws0 (tr ++ [0%R]) L0 P0 S0 Hr) as (ws & weights & E & A1 & A2 & A3 & A4 & A5).
      exists ws, (0%R :: weights). split.
      * unfold exact in E at 2. rewrite map_app in E. etransitivity; [exact E|]. rewrite <- app_assoc. reflexivity.
      * do 3 (split; auto). cbn. split; [lia|]. constructor; [lra|auto].
    + destruct (C51_weights_distribution data missing k leaves ws0 maj) as (ws1 & w & E1 & B1 & B2 & B3 & B4); auto;
        try congruence; [destruct ws0; [destruct data; [congruence|discriminate]|discriminate]|lra|].
      rewrite E1. cbn [bind].
      destruct (IH ws1 (tr ++ [w])) as (ws & weights & E & A1 & A2 & A3 & A4 & A5); auto; [congruence|].
      exists ws, (w :: weights). split.
      * unfold exact in E at 2. rewrite map_app in E. etransitivity; [exact E|]. rewrite <- app_assoc. reflexivity.
      * do 3 (split; auto). cbn. split; [lia|]. constructor; [lra|auto].
Qed.

(** ** A tree without errors *)

Lemma fsum_zero n : fold_left fadd (repeat f0 n) f0 = f0.
Proof. induction n; cbn [repeat fold_left]; auto. Qed.

(** With float64: every weight becomes NaN.  Of the logarithm and exponential only their
    values at the infinities are used. *)
Theorem C51_perfect_tree_refuted : forall (nlog nexp : f64 -> f64) data k leaves ws maj,
  nlog (S754_infinity false) = S754_infinity false -> nexp (S754_infinity true) = f0 ->
  0 < k -> length data = length ws -> Permutation (concat leaves) (seq 0 (length ws)) ->
  Forall (labelled data k) leaves -> majorities data maj leaves -> misses data maj leaves = [] ->
  Forall (fun w => exists m e, w = S754_finite false m e) ws ->
  AdaBoost F64 nlog nexp data (repeat false (length ws)) k leaves ws =
    Ok (repeat S754_nan (length ws), S754_infinity false).
Proof.
  intros nlog nexp data k leaves ws maj Hlog Hexp Hk Ld HP Hl Hj Hm Hw. unfold AdaBoost, ada_boost.
  assert (E : exists counter, length counter = k /\ foreach leaves (fun cases '((err, counter) : F64 * list Z) =>
      let* (e, counter) := AdaImpurity F64 ws data cases counter in
      Ok (nadd F64 err e, counter)) (f0 : F64, repeat 0%Z k) = Ok (f0 : F64, counter)).
  { assert (Lr : length (repeat 0%Z k) = k) by apply repeat_length. revert Lr. generalize (repeat 0%Z k).
    clear HP. induction leaves as [|cs leaves IH]; intros counter Lr; [exists counter; auto|].
    pose proof (Forall_inv Hl) as L1. pose proof (Forall_inv_tail Hl) as L2.
    pose proof (Forall_inv Hj) as J1. pose proof (Forall_inv_tail Hj) as J2. cbn beta in J1.
    unfold misses in Hm. cbn [flat_map] in Hm. apply app_eq_nil in Hm as [M1 M2].
    cbn [foreach]. unfold AdaImpurity at 1. rewrite CountPerCat_ok by (rewrite Lr; auto). rewrite Lr. cbn [bind].
    unfold AdaFromCounts at 1. rewrite (mode_is data k maj cs) by auto.
    assert (E0 : forall e : F64, foreach cs (fun c e => let* cat := get data c in
      if cat =? maj cs then Ok e else let* w := get ws c in Ok (nadd F64 e w)) e = Ok e).
    { intros e. clear - L1 M1. revert L1 M1. generalize (maj cs). intros m L1 M1. unfold labelled in L1.
      induction cs as [|c cs IH]; cbn [foreach]; auto.
      inversion L1 as [|? ? [H1 _] H2]; subst. cbn [filter] in M1. rewrite (get_lt data c 0) by auto. cbn [bind].
      destruct (nth c data 0 =? m); cbn in M1; [|discriminate]. cbn [bind]. auto. }
    match goal with |- context [foreach cs ?b ?i] => assert (EX : foreach cs b i = _) by exact (E0 i); rewrite EX; clear EX E0 end.
    cbn [bind]. destruct (IH L2 J2 M2 (counts data k cs)) as (c' & H1 & H2); [apply counts_length|].
    exists c'. split; auto. }
  destruct E as (counter & Hc & E).
  match goal with |- context [bind (foreach leaves ?b ?i) _] => assert (EX : foreach leaves b i = _) by exact E; rewrite EX; clear EX E end.
  cbn [bind]. change (nleb F64 (ndiv F64 (nofZ F64 1) (nofZ F64 2)) f0) with false. cbv iota.
  change (ndiv F64 (nsub F64 (nofZ F64 1) f0) f0) with (S754_infinity false : F64). rewrite Hlog.
  change (nmul F64 (ndiv F64 (nofZ F64 1) (nofZ F64 2)) (S754_infinity false)) with (S754_infinity false : F64).
  change (nneg F64 (S754_infinity false)) with (S754_infinity true : F64). rewrite Hexp.
  assert (Nd : NoDup (concat leaves)) by (eapply Permutation_NoDup; [symmetry; exact HP|apply seq_NoDup]).
  destruct (leaves_pass F64 data (repeat false (length ws)) k maj (nexp (S754_infinity false)) f0 (length ws) Ld
    (repeat_length _ _) Hk leaves ws counter Nd Hl Hj) as (W & counter' & E3 & LW & V); auto.
  match goal with |- context [bind ?X _] => assert (EX : X = Ok (W, counter')) by exact E3; rewrite EX; clear EX E3 end. cbn [bind].
  assert (EW : W = repeat f0 (length ws)).
  { apply nth_ext with (d := f0) (d' := f0); [rewrite repeat_length; auto|]. rewrite LW. intros d Hd.
    specialize (V d Hd). change (nth d W f0 = nth d (repeat f0 (length ws)) f0). etransitivity; [exact V|].
    rewrite !nth_repeat. rewrite Hm. cbn [mem existsb].
    assert (Hh : mem d (hits data maj leaves) = true).
    { apply mem_In. assert (Hin : In d (misses data maj leaves ++ hits data maj leaves)).
      { eapply Permutation_in; [apply split_leaves|]. eapply Permutation_in; [symmetry; exact HP|]. apply in_seq. lia. }
      rewrite Hm in Hin. exact Hin. }
    rewrite Hh. rewrite Forall_forall in Hw. destruct (Hw (@nth f64 d ws f0)) as (m & e & Ew); [apply (@nth_In f64); auto|].
    change (fmul (@nth f64 d ws f0) f0 = f0). rewrite Ew. reflexivity. }
  rewrite EW. change (fold_left (nadd F64) (repeat f0 (length ws)) (nofZ F64 0)) with (fold_left fadd (repeat f0 (length ws)) f0).
  rewrite fsum_zero. f_equal. f_equal. clear. induction (length ws); cbn [repeat map]; f_equal; auto.
Qed.

(** ** Examples *)
(** Four cases, two leaves, one of the cases in the first leaf is of the other category. *)
Example C51_ex : let data := [0; 0; 1; 1] in let leaves := [[0; 1; 2]; [3]] in let ws := repeat (/ 4)%R 4 in
  let maj := fun cs => match cs with [3] => 1 | _ => 0 end in
  Permutation (concat leaves) (seq 0 4) /\ Forall (labelled data 2) leaves /\ majorities data maj leaves /\
  Rsum ws = 1%R /\ misses data maj leaves = [2] /\ carried ws (misses data maj leaves) = (/ 4)%R.
Proof.
  cbv zeta. split; [reflexivity|]. split; [repeat constructor|]. split.
  - apply Forall_cons; [|apply Forall_cons; [|constructor]].
    + intros [|[|j]]; cbn; lia.
    + intros [|[|j]]; cbn; lia.
  - split; [cbn; lra|]. split; [reflexivity|]. cbn. lra.
Qed.
Example C51_perfect_ex : let data := [0; 0; 1] in let leaves := [[0; 1]; [2]] in
  AdaBoost F64 (fun x => x) (fun x => match x with S754_infinity true => f0 | _ => x end) data (repeat false 3) 2 leaves (repeat f1 3) =
  Ok (repeat S754_nan 3, S754_infinity false).
Proof.
  cbv zeta. refine (C51_perfect_tree_refuted _ _ [0; 0; 1] 2 [[0; 1]; [2]] (repeat f1 3)
    (fun cs => match cs with [2] => 1 | _ => 0 end) eq_refl eq_refl _ eq_refl _ _ _ eq_refl _).
  - lia.
  - reflexivity.
  - repeat constructor.
  - apply Forall_cons; [|apply Forall_cons; [|constructor]]; intros [|[|j]]; cbn; lia.
  - assert (H : exists m e, f1 = S754_finite false m e) by (eexists _, _; vm_compute; reflexivity).
    apply Forall_forall. intros x Hx. apply repeat_spec in Hx. subst. exact H.
Qed.

Print Assumptions C51_weights_distribution.
Print Assumptions C51_half_of_the_weight.
Print Assumptions C51_useless_tree.
Print Assumptions C51_history.
Print Assumptions C51_perfect_tree_refuted.
