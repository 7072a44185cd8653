(** C109: cost sensitive adaptive boosting. *)
From Verif Require Import Go GoLemmas F64 Exact ModelFeature FeatureSpec ModelImpurity ImpuritySpec ImpurityProofs
  PropImpurity3 ModelBoost BoostProofs PropBoost PropAda.
Local Open Scope nat_scope.
Local Open Scope list_scope.

(** ** Spec *)

(** The weight carried by some cases, each counted with the cost of its category. *)
Definition costed (ws costs : list R) (data : list nat) (cases : list nat) : R :=
  Rsum (map (fun c => nth c ws 0 * nth (nth c data O) costs 0)%R cases).

Section Pass.
  Variable A : arith.
  Local Notation zero := (nofZ A 0).
  Variables (costs : list A) (data : list nat) (missing : list bool) (k : nat) (maj : list nat -> nat) (up down : A) (n : nat).
  Hypothesis Hd : length data = n.
  Hypothesis Hm : length missing = n.
  Hypothesis Hk : 0 < k.
  Hypothesis Hcost : length costs = k.

  Lemma cost_leaf_pass m : forall cs (W : list A), NoDup cs -> labelled data k cs -> length W = n ->
    exists W', foreach cs (fun c weights =>
        let* ms := get missing c in
        if ms then Ok weights
        else
          let* cat := get data c in
          let* w := get weights c in
          let* w := (let* x := get costs cat in Ok (nmul A (nmul A w (if cat =? m then down else up)) x)) in
          set weights c w) W = Ok W' /\ length W' = n /\
      forall d, d < n -> nth d W' zero =
        if mem d cs && negb (nth d missing false)
        then nmul A (nmul A (nth d W zero) (if nth d data 0 =? m then down else up)) (nth (nth d data 0) costs zero) else nth d W zero.
  Proof.
    induction cs as [|c cs IH]; intros W Nd Hc HW.
    - exists W. cbn. auto.
    - apply NoDup_cons_iff in Nd as [H1 H2]. apply Forall_cons_iff in Hc as [[H3 H3'] H4]. cbn [foreach].
      rewrite (get_lt missing c false) by lia. cbn [bind].
      destruct (nth c missing false) eqn:Em.
      + destruct (IH W) as (W' & E & L & V); auto. exists W'. split; auto. split; auto. intros d Hl. rewrite V by auto.
        cbn [mem existsb]. destruct (d =? c) eqn:Ed; auto. apply Nat.eqb_eq in Ed. subst d.
        change (existsb (Nat.eqb c) cs) with (mem c cs). apply mem_false in H1. rewrite H1, Em. cbn. reflexivity.
      + rewrite (get_lt data c 0) by lia. cbn [bind]. rewrite (get_lt W c zero) by lia. cbn [bind].
        rewrite (get_lt costs (nth c data 0) zero) by lia. cbn [bind].
        rewrite set_ok by lia. cbn [bind].
        destruct (IH (upd W c (nmul A (nmul A (nth c W zero) (if nth c data 0 =? m then down else up)) (nth (nth c data 0) costs zero)))) as (W' & E & L & V); auto.
        { rewrite upd_length. auto. }
        exists W'. split; auto. split; auto. intros d Hl. rewrite V by auto. rewrite nth_upd by lia.
        cbn [mem existsb]. change (existsb (Nat.eqb d) cs) with (mem d cs).
        destruct (d =? c) eqn:Ed; auto. apply Nat.eqb_eq in Ed. subst d. apply mem_false in H1. rewrite H1, Em. reflexivity.
  Qed.

  Lemma cost_leaves_pass : forall leaves (W : list A) counter, NoDup (concat leaves) ->
    Forall (labelled data k) leaves -> majorities data maj leaves -> length W = n -> length counter = k ->
    exists W' counter', foreach leaves (fun cases '((weights, counter) : list A * list Z) =>
        let* counter := CountPerCat data cases counter in
        let m := count_mode counter in
        let* weights := foreach cases (fun c weights =>
            let* ms := get missing c in
            if ms then Ok weights
            else
              let* cat := get data c in
              let* w := get weights c in
              let* w := (let* x := get costs cat in Ok (nmul A (nmul A w (if cat =? m then down else up)) x)) in
              set weights c w) weights in
        Ok (weights, counter)) (W, counter) = Ok (W', counter') /\ length W' = n /\
      forall d, d < n -> nth d W' zero =
        if nth d missing false then nth d W zero
        else if mem d (misses data maj leaves) then nmul A (nmul A (nth d W zero) up) (nth (nth d data 0) costs zero)
        else if mem d (hits data maj leaves) then nmul A (nmul A (nth d W zero) down) (nth (nth d data 0) costs zero)
        else nth d W zero.
  Proof.
    induction leaves as [|cs leaves IH]; intros W counter Nd Hl Hj HW Hc.
    - exists W, counter. cbn. do 2 (split; auto). intros d _. destruct (nth d missing false); auto.
    - pose proof (Forall_inv Hl) as L1. pose proof (Forall_inv_tail Hl) as L2. pose proof (Forall_inv Hj) as J1. pose proof (Forall_inv_tail Hj) as J2. cbn beta in J1. cbn [concat] in Nd.
      cbn [foreach]. rewrite CountPerCat_ok by (rewrite Hc; auto). rewrite Hc. cbn [bind]. cbv zeta.
      rewrite (mode_is data k maj cs) by auto.
      destruct (cost_leaf_pass (maj cs) cs W) as (W1 & E1 & W1l & V1); auto.
      { eapply nodup_app_l; eauto. }
      match goal with |- context [bind (bind ?X _) _] => assert (EX : X = Ok W1) by exact E1; rewrite EX; clear EX E1 end. cbn [bind].
      destruct (IH W1 (counts data k cs)) as (W2 & counter' & E2 & W2l & V2); auto.
      { eapply nodup_app_r; eauto. }
      { apply counts_length. }
      exists W2, counter'. split; [exact E2|]. split; auto. intros d Hdn. rewrite V2 by auto. rewrite V1 by auto.
      destruct (nth d missing false) eqn:Em; [rewrite andb_false_r; auto|]. rewrite andb_true_r.
      unfold misses, hits. cbn [flat_map]. fold (misses data maj leaves) (hits data maj leaves).
      assert (Hsub : forall x, In x (misses data maj leaves) \/ In x (hits data maj leaves) -> In x (concat leaves)).
      { intros x H. unfold misses, hits in H. rewrite !in_flat_map in H.
        destruct H as [(l & H & H')|(l & H & H')]; apply filter_In in H' as [H' _]; apply in_concat; eauto. }
      destruct (mem d cs) eqn:Ec.
      + apply mem_In in Ec.
        assert (N : ~ In d (concat leaves)).
        { intros Hin. apply in_split in Ec as (l1 & l2 & ->). rewrite <- app_assoc in Nd. cbn in Nd.
          apply NoDup_remove_2 in Nd. apply Nd. rewrite !in_app_iff. auto. }
        assert (N1 : mem d (misses data maj leaves) = false) by (apply mem_false; auto).
        assert (N2 : mem d (hits data maj leaves) = false) by (apply mem_false; auto).
        rewrite N1, N2. destruct (nth d data 0 =? maj cs) eqn:Ej.
        * assert (M1 : mem d (filter (fun c => negb (nth c data 0 =? maj cs)) cs ++ misses data maj leaves) = false).
          { apply mem_false. rewrite in_app_iff, filter_In, Ej. apply mem_false in N1. cbn. intuition discriminate. }
          assert (M2 : mem d (filter (fun c => nth c data 0 =? maj cs) cs ++ hits data maj leaves) = true).
          { apply mem_In. rewrite in_app_iff, filter_In. auto. }
          rewrite M1, M2. reflexivity.
        * assert (M1 : mem d (filter (fun c => negb (nth c data 0 =? maj cs)) cs ++ misses data maj leaves) = true).
          { apply mem_In. rewrite in_app_iff, filter_In, Ej. auto. }
          rewrite M1. reflexivity.
      + apply mem_false in Ec.
        assert (M1 : mem d (filter (fun c => negb (nth c data 0 =? maj cs)) cs ++ misses data maj leaves) = mem d (misses data maj leaves)).
        { apply eq_true_iff_eq. rewrite !mem_In, in_app_iff, filter_In. tauto. }
        assert (M2 : mem d (filter (fun c => nth c data 0 =? maj cs) cs ++ hits data maj leaves) = mem d (hits data maj leaves)).
        { apply eq_true_iff_eq. rewrite !mem_In, in_app_iff, filter_In. tauto. }
        rewrite M1, M2. reflexivity.
  Qed.
End Pass.

(** ** Exact arithmetic *)

Lemma costed_app ws costs data a b : costed ws costs data (a ++ b) = (costed ws costs data a + costed ws costs data b)%R.
Proof. unfold costed. rewrite map_app. apply Rsum_app. Qed.

Lemma cost_err_leaf data k ws costs m : length costs = k -> forall cs e, labelled data k cs -> length data = length ws ->
  foreach cs (fun c e => let* cat := get data c in
      if cat =? m then Ok e
      else let* w := get (exact ws) c in
           let* cost := get (exact costs) cat in Ok (nadd XR e (nmul XR w cost))) (Some e) =
  Ok (Some (e + costed ws costs data (filter (fun c => negb (nth c data O =? m)%nat) cs))%R : XR).
Proof.
  intros Lc. induction cs as [|c cs IH]; intros e H L.
  - cbn. unfold costed. cbn. do 2 f_equal. lra.
  - apply Forall_cons_iff in H as [[H H'] H4]. cbn [foreach filter]. rewrite (get_lt data c 0) by auto. cbn [bind].
    destruct (nth c data 0 =? m); cbn [negb].
    + cbn [bind]. auto.
    + rewrite (get_lt (exact ws) c (Some 0%R)) by (unfold exact; rewrite map_length; lia). cbn [bind].
      rewrite (get_lt (exact costs) (nth c data 0) (Some 0%R)) by (unfold exact; rewrite map_length; lia). cbn [bind].
      rewrite !nth_exact by lia. cbn [nadd nmul XR lift2]. rewrite IH by auto. unfold costed. cbn [map Rsum]. do 2 f_equal. lra.
Qed.

Lemma cost_err_pass data k ws costs maj : 0 < k -> length costs = k -> length data = length ws -> forall leaves e counter,
  Forall (labelled data k) leaves -> majorities data maj leaves -> length counter = k ->
  exists counter', length counter' = k /\
    foreach leaves (fun cases '((err, counter) : XR * list Z) =>
      let* (e, counter) := AdaCostImpurity XR (exact ws) (exact costs) data cases counter in
      Ok (nadd XR err e, counter)) (Some e, counter) = Ok (Some (e + costed ws costs data (misses data maj leaves))%R, counter').
Proof.
  intros Hk Lc L. induction leaves as [|cs leaves IH]; intros e counter Hl Hj Hc.
  - exists counter. split; auto. cbn. unfold costed. cbn. do 3 f_equal. lra.
  - pose proof (Forall_inv Hl) as L1. pose proof (Forall_inv_tail Hl) as L2. pose proof (Forall_inv Hj) as J1. pose proof (Forall_inv_tail Hj) as J2. cbn beta in J1. cbn [foreach].
    unfold AdaCostImpurity at 1. rewrite CountPerCat_ok by (rewrite Hc; auto). rewrite Hc. cbn [bind]. unfold AdaCostFromCounts at 1.
    rewrite (mode_is data k maj cs) by auto.
    pose proof (cost_err_leaf data k ws costs (maj cs) Lc cs 0%R L1 L) as E0. cbn [nofZ XR].
    match goal with |- context [foreach cs ?b ?i] => assert (EX : foreach cs b i = _) by exact E0; rewrite EX; clear EX E0 end.
    cbn [bind nadd XR lift2].
    destruct (IH (e + (0 + costed ws costs data (filter (fun c => negb (nth c data O =? maj cs)%nat) cs)))%R (counts data k cs)) as (c' & Hc' & E); auto.
    { apply counts_length. }
    exists c'. split; auto. etransitivity; [exact E|]. do 3 f_equal. unfold misses. cbn [flat_map]. fold (misses data maj leaves).
    rewrite costed_app. lra.
Qed.

(** One round with a cost weighted error strictly between 0 and 1/2. *)
Lemma cost_round data missing k leaves ws costs maj : 0 < k -> length costs = k -> length data = length ws -> length missing = length ws -> ws <> [] ->
  NoDup (concat leaves) -> Forall (labelled data k) leaves -> majorities data maj leaves ->
  Forall (fun w => (0 < w)%R) ws -> Forall (fun x => (0 < x)%R) costs ->
  let e := costed ws costs data (misses data maj leaves) in
  (0 < e < / 2)%R ->
  exists W, AdaCostBoost XR xlog xexp (exact costs) data missing k leaves (exact ws) = Ok (exact (map (fun w => w / Rsum W)%R W), Some (tree_weight e)) /\
    length W = length ws /\ Forall (fun w => (0 < w)%R) W /\
    forall d, d < length ws -> nth d W 0%R =
      if nth d missing false then nth d ws 0%R
      else if mem d (misses data maj leaves) then (nth d ws 0 * exp (tree_weight e) * nth (nth d data O) costs 0)%R
      else if mem d (hits data maj leaves) then (nth d ws 0 * exp (- tree_weight e) * nth (nth d data O) costs 0)%R
      else nth d ws 0%R.
Proof.
  intros Hk Lc Ld Lm Hne Nd Hl Hj Hpos Hcp e He. unfold AdaCostBoost, ada_boost.
  destruct (cost_err_pass data k ws costs maj Hk Lc Ld leaves 0%R (repeat 0%Z k) Hl Hj) as (counter & Hc & E); [apply repeat_length|].
  match goal with |- context [bind (foreach leaves ?b ?i) _] =>
    assert (EX : foreach leaves b i = _) by exact E; rewrite EX; clear EX E end. cbn [bind]. rewrite Rplus_0_l. fold e.
  assert (E2 : xdiv (Some 1%R) (Some 2%R) = Some (/ 2)%R) by (rewrite xdiv_some by lra; f_equal; lra).
  cbn [ndiv nofZ XR]. rewrite E2. cbn [nleb XR xcmp]. unfold Rleb. destruct (Rle_dec (/ 2) e) as [H|_]; [lra|].
  cbn [nsub XR lift2]. rewrite xdiv_some by lra. cbn [xlog nmul XR lift2]. fold (tree_weight e).
  unfold nneg. cbn [nsub nofZ XR lift2 xexp].
  destruct (cost_leaves_pass XR (exact costs) data missing k maj (Some (exp (tree_weight e))) (Some (exp (0 - tree_weight e))) (length ws) Ld Lm Hk
    (eq_trans (map_length _ _) Lc) leaves (exact ws) counter Nd Hl Hj) as (W & counter' & E3 & LW & V); auto.
  { unfold exact. apply map_length. }
  match goal with |- context [bind ?X _] => assert (EX : X = Ok (W, counter')) by exact E3; rewrite EX; clear EX E3 end. cbn [bind].
  set (g := fun d => if nth d missing false then nth d ws 0%R
      else if mem d (misses data maj leaves) then (nth d ws 0 * exp (tree_weight e) * nth (nth d data O) costs 0)%R
      else if mem d (hits data maj leaves) then (nth d ws 0 * exp (- tree_weight e) * nth (nth d data O) costs 0)%R
      else nth d ws 0%R).
  assert (Hcat : forall d, mem d (misses data maj leaves) = true \/ mem d (hits data maj leaves) = true -> nth d data O < length costs).
  { intros d H. assert (Hin : In d (concat leaves)).
    { eapply Permutation_in; [symmetry; apply split_leaves|]. apply in_app_iff. rewrite <- !mem_In. exact H. }
    apply in_concat in Hin as (cs & H1 & H2). rewrite Forall_forall in Hl. specialize (Hl cs H1). unfold labelled in Hl.
    rewrite Forall_forall in Hl. destruct (Hl d H2). lia. }
  assert (EW : W = exact (map g (seq 0 (length ws)))).
  { apply nth_ext with (d := Some 0%R : XR) (d' := Some 0%R : XR).
    { unfold exact. rewrite !map_length, seq_length. auto. }
    rewrite LW. intros d Hd. specialize (V d Hd). cbn [nofZ XR] in V. rewrite V.
    rewrite (nth_exact ws) by auto. rewrite (nth_exact (map g (seq 0 (length ws)))) by (rewrite map_length, seq_length; auto).
    rewrite (nth_indep (map g (seq 0 (length ws))) 0%R (g 0)) by (rewrite map_length, seq_length; auto).
    rewrite map_nth, seq_nth by auto. cbn [plus]. unfold g.
    destruct (nth d missing false); auto. cbn [nmul XR lift2]. unfold Rminus. rewrite Rplus_0_l.
    destruct (mem d (misses data maj leaves)) eqn:M1; [rewrite nth_exact by auto; reflexivity|].
    destruct (mem d (hits data maj leaves)) eqn:M2; [rewrite nth_exact by auto; reflexivity|auto]. }
  exists (map g (seq 0 (length ws))). rewrite EW.
  assert (Hg : forall d, d < length ws -> (0 < g d)%R).
  { intros d Hd. rewrite Forall_forall in Hpos, Hcp. pose proof (Hpos _ (nth_In ws 0%R Hd)). unfold g.
    pose proof (exp_pos (tree_weight e)). pose proof (exp_pos (- tree_weight e)).
    destruct (nth d missing false); auto.
    destruct (mem d (misses data maj leaves)) eqn:M1.
    { pose proof (Hcp _ (nth_In costs 0%R (Hcat d (or_introl M1)))). repeat apply Rmult_lt_0_compat; auto. }
    destruct (mem d (hits data maj leaves)) eqn:M2; auto.
    pose proof (Hcp _ (nth_In costs 0%R (Hcat d (or_intror M2)))). repeat apply Rmult_lt_0_compat; auto. }
  assert (HW : Forall (fun w => (0 < w)%R) (map g (seq 0 (length ws)))).
  { apply Forall_forall. intros w H. apply in_map_iff in H as (d & <- & H). apply Hg. apply in_seq in H. lia. }
  assert (Hn : (Rsum (map g (seq 0 (length ws))) <> 0)%R).
  { apply Rgt_not_eq, Rsum_pos; auto. destruct ws; [congruence|discriminate]. }
  split; [|split; [rewrite map_length, seq_length; auto|split; auto]].
  - pose proof (sum_exact (map g (seq 0 (length ws))) 0) as Es. rewrite Rplus_0_l in Es. rewrite Es.
    do 2 f_equal. unfold exact. rewrite !map_map. apply map_ext. intros d. apply xdiv_some, Hn.
  - intros d Hd. rewrite nth_indep with (d' := g 0) by (rewrite map_length, seq_length; auto).
    rewrite map_nth, seq_nth by auto. reflexivity.
Qed.

Lemma Rsum_div s l : (s <> 0)%R -> Rsum (map (fun w => w / s)%R l) = (Rsum l / s)%R.
Proof. intros Hs. induction l; cbn; [field; auto|]. rewrite IHl. field. auto. Qed.

(** The new weights are a distribution, the tree's vote is positive, and a present case's
    weight is multiplied by its cost and by exp of plus (wrong) or minus (right) the vote, up
    to the common norm. *)
Theorem C109_weights_distribution : forall data missing k leaves ws costs maj,
  0 < k -> length costs = k -> length data = length ws -> length missing = length ws -> ws <> [] ->
  NoDup (concat leaves) -> Forall (labelled data k) leaves -> majorities data maj leaves ->
  Forall (fun w => (0 < w)%R) ws -> Forall (fun x => (0 < x)%R) costs ->
  (0 < costed ws costs data (misses data maj leaves) < / 2)%R ->
  exists ws' vote norm, AdaCostBoost XR xlog xexp (exact costs) data missing k leaves (exact ws) = Ok (exact ws', Some vote) /\
    (0 < vote)%R /\ (0 < norm)%R /\ length ws' = length ws /\ Forall (fun w => (0 < w)%R) ws' /\ Rsum ws' = 1%R /\
    (forall c, In c (misses data maj leaves) -> nth c missing false = false ->
       (nth c ws' 0 * norm = nth c ws 0 * exp vote * nth (nth c data O) costs 0)%R) /\
    (forall c, In c (hits data maj leaves) -> nth c missing false = false ->
       (nth c ws' 0 * norm = nth c ws 0 * exp (- vote) * nth (nth c data O) costs 0)%R).
Proof.
  intros data missing k leaves ws costs maj Hk Lc Ld Lm Hne Nd Hl Hj Hpos Hcp He.
  destruct (cost_round data missing k leaves ws costs maj) as (W & E & LW & HW & V); auto.
  set (e := costed ws costs data (misses data maj leaves)) in *.
  assert (HS : (0 < Rsum W)%R) by (apply Rsum_pos; auto; destruct W, ws; try congruence; discriminate).
  assert (Hlt : forall c, In c (misses data maj leaves) \/ In c (hits data maj leaves) -> c < length ws).
  { intros c H. assert (Hin : In c (concat leaves)).
    { eapply Permutation_in; [symmetry; apply split_leaves|]. apply in_app_iff. exact H. }
    apply in_concat in Hin as (cs & H1 & H2). rewrite Forall_forall in Hl. specialize (Hl cs H1). unfold labelled in Hl.
    rewrite Forall_forall in Hl. destruct (Hl c H2). lia. }
  assert (G : forall c, c < length ws -> (nth c (map (fun w => w / Rsum W) W) 0 * Rsum W = nth c W 0)%R).
  { intros c Hc. rewrite nth_indep with (d' := (0 / Rsum W)%R) by (rewrite map_length; lia).
    rewrite (map_nth (fun w => w / Rsum W)%R). field. lra. }
  eexists _, _, (Rsum W). split; [exact E|]. split.
  { unfold tree_weight. apply Rmult_lt_0_compat; [lra|].
    rewrite <- ln_1. apply ln_increasing; [lra|]. apply Rmult_lt_reg_r with e; [lra|]. unfold Rdiv. rewrite Rmult_assoc, Rinv_l by lra. lra. }
  split; auto. split; [rewrite map_length; auto|]. split; [|split; [|split]].
  - apply Forall_forall. intros w H. apply in_map_iff in H as (x & <- & H). rewrite Forall_forall in HW.
    apply Rdiv_lt_0_compat; auto.
  - rewrite Rsum_div by lra. field. lra.
  - intros c H Hm. rewrite G by auto. rewrite V by auto. rewrite Hm. apply mem_In in H. rewrite H. reflexivity.
  - intros c H Hm. rewrite G by auto. rewrite V by auto. rewrite Hm.
    assert (N : mem c (misses data maj leaves) = false).
    { apply mem_false. intros H'.
      assert (Nd2 : NoDup (misses data maj leaves ++ hits data maj leaves)) by (eapply Permutation_NoDup; [apply split_leaves|auto]).
      apply in_split in H' as (l1 & l2 & E'). rewrite E' in Nd2. rewrite <- app_assoc in Nd2.
      apply NoDup_remove_2 in Nd2. apply Nd2. rewrite !in_app_iff. auto. }
    apply mem_In in H. rewrite N, H. reflexivity.
Qed.

(** A tree whose cost weighted error is 1/2 or more changes nothing and gets no vote. *)
Theorem C109_useless_tree : forall data missing k leaves ws costs maj,
  0 < k -> length costs = k -> length data = length ws -> Forall (labelled data k) leaves -> majorities data maj leaves ->
  (/ 2 <= costed ws costs data (misses data maj leaves))%R ->
  AdaCostBoost XR xlog xexp (exact costs) data missing k leaves (exact ws) = Ok (exact ws, Some 0%R).
Proof.
  intros data missing k leaves ws costs maj Hk Lc Ld Hl Hj He. unfold AdaCostBoost, ada_boost.
  destruct (cost_err_pass data k ws costs maj Hk Lc Ld leaves 0%R (repeat 0%Z k) Hl Hj) as (counter & Hc & E); [apply repeat_length|].
  match goal with |- context [bind (foreach leaves ?b ?i) _] =>
    assert (EX : foreach leaves b i = _) by exact E; rewrite EX; clear EX E end. cbn [bind]. rewrite Rplus_0_l.
  assert (E2 : xdiv (Some 1%R) (Some 2%R) = Some (/ 2)%R) by (rewrite xdiv_some by lra; f_equal; lra).
  cbn [ndiv nofZ XR]. rewrite E2. cbn [nleb XR xcmp]. unfold Rleb.
  destruct (Rle_dec (/ 2) (costed ws costs data (misses data maj leaves))) as [H|H]; [reflexivity|contradiction].
Qed.

Lemma costed_perm ws costs data a b : Permutation a b -> costed ws costs data a = costed ws costs data b.
Proof. intros H. unfold costed. apply Rsum_perm, Permutation_map, H. Qed.

(** After a round the weight on what the tree got wrong is (1-e)/(1-e+h), where e and h are
    the cost weighted weights of what it got wrong and right: one half, as in plain adaptive
    boosting, exactly when e + h = 1. *)
Theorem C109_share_of_the_misses : forall data missing k leaves ws costs maj,
  0 < k -> length costs = k -> length data = length ws -> ws <> [] ->
  missing = repeat false (length ws) ->
  Permutation (concat leaves) (seq 0 (length ws)) -> Forall (labelled data k) leaves -> majorities data maj leaves ->
  Forall (fun w => (0 < w)%R) ws -> Forall (fun x => (0 < x)%R) costs ->
  let e := costed ws costs data (misses data maj leaves) in
  let h := costed ws costs data (hits data maj leaves) in
  (0 < e < / 2)%R ->
  exists ws' vote, AdaCostBoost XR xlog xexp (exact costs) data missing k leaves (exact ws) = Ok (exact ws', Some vote) /\
    carried ws' (misses data maj leaves) = ((1 - e) / (1 - e + h))%R /\
    (carried ws' (misses data maj leaves) = (/ 2)%R <-> (e + h = 1)%R).
Proof.
  intros data missing k leaves ws costs maj Hk Lc Ld Hne Hm HP Hl Hj Hpos Hcp e h He.
  assert (Nd : NoDup (concat leaves)) by (eapply Permutation_NoDup; [symmetry; exact HP|apply seq_NoDup]).
  destruct (cost_round data missing k leaves ws costs maj) as (W & E & LW & HW & V); auto.
  { subst missing. apply repeat_length. }
  fold e in E, V. set (a := tree_weight e) in *.
  assert (HS : (0 < Rsum W)%R) by (apply Rsum_pos; auto; destruct W, ws; try congruence; discriminate).
  assert (PS : Permutation (misses data maj leaves ++ hits data maj leaves) (seq 0 (length ws))) by (rewrite <- split_leaves; exact HP).
  assert (Nd2 : NoDup (misses data maj leaves ++ hits data maj leaves)) by (eapply Permutation_NoDup; [symmetry; exact PS|apply seq_NoDup]).
  assert (Hlt : forall c, In c (misses data maj leaves ++ hits data maj leaves) -> c < length ws).
  { intros c H. apply (Permutation_in _ PS) in H. apply in_seq in H. lia. }
  assert (G0 : forall l s, (forall c, In c l -> nth c W 0%R = (nth c ws 0 * s * nth (nth c data O) costs 0)%R) ->
    carried W l = (costed ws costs data l * s)%R).
  { unfold carried, costed. induction l as [|c l IH]; intros s H; cbn; [lra|]. rewrite (IH s) by (intros; apply H; right; auto).
    rewrite (H c) by (left; auto). lra. }
  assert (Em : carried W (misses data maj leaves) = (e * exp a)%R).
  { apply G0. intros c H. rewrite V by (apply Hlt, in_app_iff; auto). subst missing. rewrite nth_repeat.
    apply mem_In in H. rewrite H. reflexivity. }
  assert (Eh : carried W (hits data maj leaves) = (h * exp (- a))%R).
  { apply G0. intros c H. rewrite V by (apply Hlt, in_app_iff; auto). subst missing. rewrite nth_repeat.
    assert (N : mem c (misses data maj leaves) = false).
    { apply mem_false. intros H'. apply in_split in H' as (l1 & l2 & E'). rewrite E' in Nd2. rewrite <- app_assoc in Nd2.
      apply NoDup_remove_2 in Nd2. apply Nd2. rewrite !in_app_iff. auto. }
    apply mem_In in H. rewrite N, H. reflexivity. }
  assert (Esum : Rsum W = (e * exp a + h * exp (- a))%R).
  { rewrite <- carried_all, LW. rewrite <- (carried_perm _ _ _ PS), carried_app, Em, Eh. reflexivity. }
  assert (Hh : (0 <= h)%R).
  { assert (Gn : forall l, (forall c, In c l -> (0 <= nth c ws 0 * nth (nth c data O) costs 0)%R) -> (0 <= costed ws costs data l)%R).
    { unfold costed. induction l as [|c l IH]; intros H; cbn; [lra|].
      pose proof (H c (or_introl eq_refl)). assert (0 <= Rsum (map (fun c => nth c ws 0 * nth (nth c data O) costs 0)%R l))%R by (apply IH; intros; apply H; right; auto).
      lra. }
    apply Gn. intros c H. rewrite Forall_forall in Hpos, Hcp.
    assert (Hc : c < length ws) by (apply Hlt, in_app_iff; auto). pose proof (Hpos _ (nth_In ws 0%R Hc)).
    assert (Hq : (0 <= nth (nth c data O) costs 0)%R).
    { destruct (Nat.lt_ge_cases (nth c data O) (length costs)) as [Hq|Hq]; [|rewrite nth_overflow by auto; lra].
      pose proof (Hcp _ (nth_In costs 0%R Hq)). lra. }
    apply Rmult_le_pos; lra. }
  assert (Ea : (exp a = (1 - e) / e * exp (- a))%R).
  { assert (X : (exp a * exp a = (1 - e) / e)%R).
    { rewrite <- exp_plus. replace (a + a)%R with (ln ((1 - e) / e)) by (unfold a, tree_weight; lra).
      apply exp_ln. apply Rdiv_lt_0_compat; lra. }
    rewrite <- X, exp_Ropp. pose proof (exp_pos a). field. lra. }
  assert (G : forall l, carried (map (fun w => w / Rsum W)%R W) l = (carried W l * / Rsum W)%R).
  { intros l. apply carried_scale. intros c _.
    replace 0%R with (0 / Rsum W)%R at 1 by (unfold Rdiv; apply Rmult_0_l).
    rewrite (map_nth (fun w => w / Rsum W)%R). reflexivity. }
  assert (Ef : carried (map (fun w => w / Rsum W)%R W) (misses data maj leaves) = ((1 - e) / (1 - e + h))%R).
  { rewrite G, Em, Esum, Ea. pose proof (exp_pos (- a)). set (x := exp (- a)) in *.
    replace (e * ((1 - e) / e * x))%R with (x * (1 - e))%R by (field; lra).
    replace (x * (1 - e) + h * x)%R with (x * (1 - e + h))%R by ring.
    assert (X1 : (x <> 0)%R) by lra. assert (X2 : (1 - e + h <> 0)%R) by lra. field. split; auto. }
  eexists _, _. split; [exact E|]. split; [exact Ef|]. rewrite Ef. split.
  - intros H. assert (X : ((1 - e) = / 2 * (1 - e + h))%R) by (rewrite <- H; field; lra). lra.
  - intros H. replace h with (1 - e)%R by lra. field. lra.
Qed.

(** ** Costs that were never set, or that are 0 for every category present *)

Theorem C109_no_costs_refuted : forall (nlog nexp : f64 -> f64) data k leaves (ws costs : list f64) maj,
  nlog (S754_infinity false) = S754_infinity false -> nexp (S754_infinity true) = f0 ->
  nexp (S754_infinity false) = S754_infinity false ->
  0 < k -> costs = repeat f0 k -> length data = length ws -> Permutation (concat leaves) (seq 0 (length ws)) ->
  Forall (labelled data k) leaves -> majorities data maj leaves ->
  Forall (fun w => exists m e, w = S754_finite false m e) ws ->
  AdaCostBoost F64 nlog nexp costs data (repeat false (length ws)) k leaves ws =
    Ok (repeat S754_nan (length ws), S754_infinity false).
Proof.
  intros nlog nexp data k leaves ws costs maj Hlog Hexp Hexp2 Hk Hcost Ld HP Hl Hj Hw. unfold AdaCostBoost, ada_boost.
  assert (Lc : length costs = k) by (subst; apply repeat_length).
  assert (Hz : forall i, nth i costs f0 = f0) by (intros i; subst; apply nth_repeat).
  assert (E : exists counter, length counter = k /\ foreach leaves (fun cases '((err, counter) : F64 * list Z) =>
      let* (e, counter) := AdaCostImpurity F64 ws costs data cases counter in
      Ok (nadd F64 err e, counter)) (f0 : F64, repeat 0%Z k) = Ok (f0 : F64, counter)).
  { assert (Lr : length (repeat 0%Z k) = k) by apply repeat_length. revert Lr. generalize (repeat 0%Z k).
    clear HP. induction leaves as [|cs leaves IH]; intros counter Lr; [exists counter; auto|].
    pose proof (Forall_inv Hl) as L1. pose proof (Forall_inv_tail Hl) as L2.
    pose proof (Forall_inv Hj) as J1. pose proof (Forall_inv_tail Hj) as J2. cbn beta in J1.
    cbn [foreach]. unfold AdaCostImpurity at 1. rewrite CountPerCat_ok by (rewrite Lr; auto). rewrite Lr. cbn [bind].
    unfold AdaCostFromCounts at 1. rewrite (mode_is data k maj cs) by auto.
    assert (E0 : foreach cs (fun c e => let* cat := get data c in
      if cat =? maj cs then Ok e else let* w := get ws c in let* cost := get costs cat in Ok (nadd F64 e (nmul F64 w cost))) f0 = Ok f0).
    { generalize (maj cs). intros m. unfold labelled in L1.
      clear J1 Hl Hj. induction cs as [|c cs IHc]; cbn [foreach]; auto.
      inversion L1 as [|? ? [H1 H1'] H2]; subst x l. rewrite (get_lt data c 0) by auto. cbn [bind].
      destruct (nth c data 0 =? m); [apply IHc; auto|].
      assert (Hc : c < length ws) by lia.
      rewrite (get_lt ws c f0) by auto. cbn [bind]. rewrite (get_lt costs (nth c data 0) f0) by lia. cbn [bind]. rewrite Hz.
      rewrite Forall_forall in Hw. destruct (Hw _ (nth_In ws f0 Hc)) as (mm & ee & ->).
      change (nadd F64 f0 (nmul F64 (S754_finite false mm ee) f0)) with (f0 : F64). apply IHc; auto. }
    match goal with |- context [foreach cs ?b ?i] => assert (EX : foreach cs b i = _) by exact E0; rewrite EX; clear EX E0 end.
    cbn [bind]. destruct (IH L2 J2 (counts data k cs)) as (c' & H1 & H2); [apply counts_length|].
    exists c'. split; auto. }
  destruct E as (counter & Hc & E).
  match goal with |- context [bind (foreach leaves ?b ?i) _] => assert (EX : foreach leaves b i = _) by exact E; rewrite EX; clear EX E end.
  cbn [bind]. change (nleb F64 (ndiv F64 (nofZ F64 1) (nofZ F64 2)) f0) with false. cbv iota.
  change (ndiv F64 (nsub F64 (nofZ F64 1) f0) f0) with (S754_infinity false : F64). rewrite Hlog.
  change (nmul F64 (ndiv F64 (nofZ F64 1) (nofZ F64 2)) (S754_infinity false)) with (S754_infinity false : F64).
  change (nneg F64 (S754_infinity false)) with (S754_infinity true : F64). rewrite Hexp, Hexp2.
  assert (Nd : NoDup (concat leaves)) by (eapply Permutation_NoDup; [symmetry; exact HP|apply seq_NoDup]).
  destruct (cost_leaves_pass F64 costs data (repeat false (length ws)) k maj (S754_infinity false) f0 (length ws) Ld
    (repeat_length _ _) Hk Lc leaves ws counter Nd Hl Hj) as (W & counter' & E3 & LW & V); auto.
  match goal with |- context [bind ?X _] => assert (EX : X = Ok (W, counter')) by exact E3; rewrite EX; clear EX E3 end. cbn [bind].
  assert (EW : Forall (fun w : f64 => w = f0 \/ w = S754_nan) W).
  { apply Forall_forall. intros x Hx. destruct (@In_nth f64 W x f0 Hx) as (d & Hd & <-). assert (Hdw : d < length ws) by (rewrite <- LW; exact Hd).
    specialize (V d Hdw).
    rewrite nth_repeat in V.
    assert (V' : @nth f64 d W f0 = if mem d (misses data maj leaves) then fmul (fmul (@nth f64 d ws f0) (S754_infinity false)) (@nth f64 (nth d data 0) costs f0)
        else if mem d (hits data maj leaves) then fmul (fmul (@nth f64 d ws f0) f0) (@nth f64 (nth d data 0) costs f0) else @nth f64 d ws f0) by exact V.
    rewrite V'. rewrite Hz.
    rewrite Forall_forall in Hw. destruct (Hw (@nth f64 d ws f0)) as (m & e & Ew); [apply (@nth_In f64); auto|]. rewrite Ew.
    assert (Hin : In d (misses data maj leaves ++ hits data maj leaves)).
    { eapply Permutation_in; [apply split_leaves|]. eapply Permutation_in; [symmetry; exact HP|]. apply in_seq. lia. }
    apply in_app_iff in Hin. rewrite <- !mem_In in Hin.
    destruct (mem d (misses data maj leaves)); [right; reflexivity|].
    destruct (mem d (hits data maj leaves)); [left; reflexivity|]. destruct Hin; discriminate. }
  assert (Es : forall l (s : f64), Forall (fun w : f64 => w = f0 \/ w = S754_nan) l -> s = f0 \/ s = S754_nan ->
    fold_left fadd l s = f0 \/ fold_left fadd l s = S754_nan).
  { induction l as [|w l IH]; intros s Hf Hs; cbn [fold_left]; auto. apply Forall_cons_iff in Hf as [H1 H2]. apply IH; auto.
    destruct Hs as [-> | ->], H1 as [-> | ->]; cbn; auto. }
  specialize (Es W f0 EW (or_introl eq_refl)).
  change (fold_left (nadd F64) W (nofZ F64 0)) with (fold_left fadd W f0).
  f_equal. f_equal. rewrite <- LW. clear - EW Es. revert Es. generalize (fold_left fadd W f0). intros s Hs.
  induction EW as [|w l Hw EW IH]; [reflexivity|]. cbn [length repeat map]. f_equal; [|exact IH].
  destruct Hs as [-> | ->], Hw as [-> | ->]; reflexivity.
Qed.

(** ** Examples *)
Example C109_ex : let data := [0; 0; 1; 1] in let leaves := [[0; 1; 2]; [3]] in let ws := repeat (/ 4)%R 4 in
  let costs := [1; 3 / 2]%R in
  let maj := fun cs => match cs with [3] => 1 | _ => 0 end in
  Permutation (concat leaves) (seq 0 4) /\ Forall (labelled data 2) leaves /\ majorities data maj leaves /\
  costed ws costs data (misses data maj leaves) = (3 / 8)%R /\ costed ws costs data (hits data maj leaves) = (7 / 8)%R.
Proof.
  cbv zeta. split; [reflexivity|]. split; [repeat constructor|]. split.
  - apply Forall_cons; [|apply Forall_cons; [|constructor]].
    + intros [|[|j]]; cbn; lia.
    + intros [|[|j]]; cbn; lia.
  - split; unfold costed; cbn; lra.
Qed.
Example C109_no_costs_ex : let data := [0; 0; 1] in let leaves := [[0; 1]; [2]] in
  Permutation (concat leaves) (seq 0 3) /\ Forall (labelled data 2) leaves /\
  majorities data (fun cs => match cs with [2] => 1 | _ => 0 end) leaves /\
  Forall (fun w => exists m e, w = S754_finite false m e) (repeat f1 3).
Proof.
  cbv zeta. split; [reflexivity|]. split; [repeat constructor|]. split.
  - apply Forall_cons; [|apply Forall_cons; [|constructor]]; intros [|[|j]]; cbn; lia.
  - assert (H : exists m e, f1 = S754_finite false m e) by (eexists _, _; vm_compute; reflexivity).
    apply Forall_forall. intros x Hx. apply repeat_spec in Hx. subst. exact H.
Qed.

Print Assumptions C109_weights_distribution.
Print Assumptions C109_useless_tree.
Print Assumptions C109_share_of_the_misses.
Print Assumptions C109_no_costs_refuted.

(** ** Equal costs *)
(** With cost 1 for every category the target is that of adaptive boosting: the same impurities
    and the same weights and tree weights, in every arithmetic in which a factor 1 changes
    nothing. *)
Definition unit_factor (A : arith) : Prop := forall w : A, nmul A w (nofZ A 1) = w.
Lemma same_loop {X St} (l : list X) (f g : X -> St -> res St) : (forall x s, f x s = g x s) -> forall s, foreach l f s = foreach l g s.
Proof. intros H. induction l as [|x l IH]; intros s; cbn [foreach]; [reflexivity|]. rewrite H. destruct (g x s); cbn [bind]; auto. Qed.
Lemma unit_get (A : arith) k i : i < k -> get (repeat (nofZ A 1) k) i = Ok (nofZ A 1).
Proof. intros H. rewrite (get_lt _ i (nofZ A 1)) by (rewrite repeat_length; auto). rewrite nth_repeat. reflexivity. Qed.
Theorem C109_unit_costs_impurity : forall (A : arith) k data, unit_factor A -> Forall (fun c => c < k) data ->
  forall ws cases counter, AdaCostImpurity A ws (repeat (nofZ A 1) k) data cases counter = AdaImpurity A ws data cases counter.
Proof.
  intros A k data H1 Hd ws cases counter. unfold AdaCostImpurity, AdaImpurity. destruct (CountPerCat data cases counter) as [cs| |]; cbn [bind]; auto.
  assert (E : AdaCostFromCounts A ws (repeat (nofZ A 1) k) data cases cs = AdaFromCounts A ws data cases cs).
  { unfold AdaCostFromCounts, AdaFromCounts. apply same_loop. intros c e. destruct (get data c) as [cat| |] eqn:Ec; cbn [bind]; auto.
    destruct (cat =? count_mode cs); auto. destruct (get ws c); cbn [bind]; auto.
    assert (Hk : cat < k).
    { unfold get in Ec. destruct (nth_error data c) eqn:En; [|discriminate]. injection Ec as <-. rewrite Forall_forall in Hd. apply Hd. eapply nth_error_In. eauto. }
    rewrite unit_get by exact Hk. cbn [bind]. rewrite H1. reflexivity. }
  rewrite E. reflexivity.
Qed.
Theorem C109_unit_costs : forall (A : arith) nlog nexp k data missing leaves ws, unit_factor A -> Forall (fun c => c < k) data ->
  AdaCostBoost A nlog nexp (repeat (nofZ A 1) k) data missing k leaves ws = AdaBoost A nlog nexp data missing k leaves ws.
Proof.
  intros A nlog nexp k data missing leaves ws H1 Hd. unfold AdaCostBoost, AdaBoost, ada_boost.
  rewrite (same_loop leaves _ (fun cases '((err, counter) : A * list Z) =>
          let* (e, counter) := AdaImpurity A ws data cases counter in Ok (nadd A err e, counter))).
  2:{ intros cases [err counter]. rewrite C109_unit_costs_impurity by auto. reflexivity. }
  destruct (foreach leaves _ _) as [[err counter]| |]; cbn [bind]; auto. destruct (nleb A _ err); auto.
  match goal with |- bind ?X _ = bind ?Y _ => assert (E : X = Y); [|rewrite E; reflexivity] end.
  apply same_loop. intros cases [w c]. destruct (CountPerCat data cases c) as [cs| |]; cbn [bind]; auto.
  match goal with |- bind ?X _ = bind ?Y _ => assert (E : X = Y); [|rewrite E; reflexivity] end.
  apply same_loop. intros i s. destruct (get missing i) as [[|]| |]; cbn [bind]; auto.
  destruct (get data i) as [cat| |] eqn:Ec; cbn [bind]; auto. destruct (get s i); cbn [bind]; auto.
  assert (Hk : cat < k).
  { unfold get in Ec. destruct (nth_error data i) eqn:En; [|discriminate]. injection Ec as <-. rewrite Forall_forall in Hd. apply Hd. eapply nth_error_In. eauto. }
  rewrite unit_get by exact Hk. cbn [bind]. rewrite H1. reflexivity.
Qed.
(** Real arithmetic is one. *)
Lemma unit_XR : unit_factor XR.
Proof. intros [w|]; cbn; [|reflexivity]. f_equal. ring. Qed.
(** Other equal costs do not cancel: with cost [q > 1] for every category a tree whose weighted
    error is at least 1/(2q), though less than 1/2, gets no vote and changes no weight, where
    adaptive boosting gives it a positive vote. *)
Theorem C109_equal_costs_refuted : forall data missing k leaves ws q maj,
  0 < k -> length data = length ws -> length missing = length ws -> ws <> [] ->
  NoDup (concat leaves) -> Forall (labelled data k) leaves -> majorities data maj leaves ->
  Forall (fun w => (0 < w)%R) ws -> (1 < q)%R -> (/ (2 * q) <= carried ws (misses data maj leaves) < / 2)%R ->
  AdaCostBoost XR xlog xexp (exact (repeat q k)) data missing k leaves (exact ws) = Ok (exact ws, Some 0%R) /\
  exists ws' vote, AdaBoost XR xlog xexp data missing k leaves (exact ws) = Ok (exact ws', Some vote) /\ (0 < vote)%R.
Proof.
  intros data missing k leaves ws q maj Hk Ld Lm Hne Nd Hl Hj Hpos Hq [He1 He2].
  assert (Hp : (0 < / (2 * q))%R) by (apply Rinv_0_lt_compat; lra). split.
  - apply (C109_useless_tree data missing k leaves ws (repeat q k) maj); auto; [apply repeat_length|].
    assert (E : costed ws (repeat q k) data (misses data maj leaves) = (q * carried ws (misses data maj leaves))%R).
    { assert (Hin : forall c, In c (misses data maj leaves) -> nth c data 0 < k).
      { intros c H. assert (Hin : In c (concat leaves)).
        { eapply Permutation_in; [symmetry; apply split_leaves|]. apply in_app_iff. left. exact H. }
        apply in_concat in Hin as (cs & H1 & H2). rewrite Forall_forall in Hl. specialize (Hl cs H1). unfold labelled in Hl.
        rewrite Forall_forall in Hl. apply (Hl c H2). }
      unfold costed, carried. clear He1 He2. induction (misses data maj leaves) as [|c cs IH]; cbn [map Rsum fold_right]; [cbn; ring|].
      unfold Rsum in *. cbn [fold_right]. rewrite IH by (intros; apply Hin; right; auto).
      assert (Hn : nth (nth c data 0) (repeat q k) 0%R = q).
      { rewrite nth_indep with (d' := q) by (rewrite repeat_length; apply Hin; left; auto). apply nth_repeat. }
      rewrite Hn. ring. }
    rewrite E. apply Rmult_le_compat_l with (r := q) in He1; [|lra]. replace (/ 2)%R with (q * / (2 * q))%R by (field; lra). exact He1.
  - destruct (C51_weights_distribution data missing k leaves ws maj) as (ws' & vote & E & V & _); auto; [split; lra|]. exists ws', vote. auto.
Qed.
Example C109_equal_costs_ex : let data := [0; 0; 1; 1] in let leaves := [[0; 1; 2]; [3]] in let ws := repeat (/ 4)%R 4 in
  let maj := fun cs => match cs with [3] => 1 | _ => 0 end in
  Forall (fun c => c < 2) data /\ NoDup (concat leaves) /\ Forall (labelled data 2) leaves /\ majorities data maj leaves /\
  (/ (2 * 2) <= carried ws (misses data maj leaves) < / 2)%R.
Proof.
  cbv zeta. split; [repeat constructor|]. split; [repeat constructor; cbn; intuition discriminate|]. split; [repeat constructor|]. split.
  - apply Forall_cons; [|apply Forall_cons; [|constructor]]; intros [|[|j]]; cbn; lia.
  - unfold carried. cbn. lra.
Qed.
Print Assumptions C109_unit_costs_impurity.
Print Assumptions C109_unit_costs.
Print Assumptions C109_equal_costs_refuted.
