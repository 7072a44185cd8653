(** Properties C64, C65, C66 and C87: the workers of growforest. *)
From Verif Require Import Go GoLemmas ModelWorkers WorkersProofs.
Local Open Scope nat_scope.
Local Open Scope list_scope.

(** ** C64 *)

(** In every schedule: after finitely many steps, bounded in advance, nothing can
    move any more, and then the main goroutine has gone on, the program has not
    crashed, and exactly [max nTrees nCores] trees have been grown.  Each of them
    was written once, whole, to the forest file. *)
Theorem C64_every_schedule_grows_all : forall c sched s,
  calm c -> 1 <= cCores c -> wrun c sched (winit c) = Some s ->
  let n := Nat.max (cTrees c) (cCores c) in
  length sched <= 11 * n + 2
  /\ (wMain s = false -> exists t s', wstep c t s = Some s')
  /\ (wMain s = true ->
        wCrashed s = false /\ wGrown s = n /\ Permutation (map fst (wFile s)) (seq 1 n)
        /\ (forall w, In w (wThreads s) -> fst w = PGone)
        /\ forall t, wstep c t s = None).
Proof.
  intros c sched s Hcalm Hc Hr n. pose proof (wrun_inv _ _ _ _ (winit_inv c) Hr) as I.
  pose proof (wrun_bound _ _ _ _ (winit_inv c) Hr) as B. rewrite measure_init in B. fold n in B.
  assert (Hcl : wClosed s = false) by (apply (v_calm _ _ I); auto).
  assert (Hcr : wCrashed s = false).
  { destruct (wCrashed s) eqn:E; auto. rewrite (v_crash _ _ I E) in Hcl. discriminate. }
  split; [lia|]. split.
  - intros Hm. destruct (wprogress _ _ I Hcr Hm) as [H|(_ & X & _)]; auto. congruence.
  - intros Hm. split; auto. destruct (main_done _ _ I Hm) as [Hg _].
    assert (Hz : cnt togrow (wThreads s) = 0) by (apply cnt_none; intros w Hw; unfold togrow; rewrite (Hg w Hw); auto).
    assert (Hgrown : wGrown s = n).
    { pose proof (v_grow _ _ I). pose proof (v_lo _ _ I). pose proof (v_hi _ _ I) as Hhi. unfold n.
      destruct (wThreads s) as [|w ws] eqn:Ew.
      - pose proof (v_len _ _ I) as X. rewrite Ew in X. cbn in X. lia.
      - pose proof (v_pcs _ _ I) as X. rewrite Ew in X. apply Forall_inv in X as [_ X].
        rewrite (Hg w) in X by (left; auto). destruct X as [X|X]; [lia|congruence]. }
    split; auto. split; [|split; auto].
    + destruct (v_file _ _ I) as (lost & Hl & Hp). rewrite Hcl in Hl. destruct lost; [|discriminate].
      assert (E : pending (wHeap s) (wThreads s) = []).
      { generalize (wHeap s). intros h. unfold pending. revert Hg. generalize (wThreads s). induction l as [|w l IH]; intros H; auto. cbn.
        rewrite IH by (intros; apply H; cbn; auto). rewrite (H w); cbn; auto. }
      rewrite E, !app_nil_r, Hgrown in Hp. auto.
    + intros t. unfold wstep. rewrite Hm, orb_true_r. auto.
Qed.

(** Without cores nothing is grown. *)
Theorem C64_no_cores : forall c sched s, cCores c = 0 -> wrun c sched (winit c) = Some s -> wGrown s = 0.
Proof.
  intros c sched s Hc Hr. pose proof (wrun_inv _ _ _ _ (winit_inv c) Hr) as I.
  pose proof (wrun_bound _ _ _ _ (winit_inv c) Hr) as B.
  assert (G : forall sched s s', winv c s -> wGrown s = 0 -> wrun c sched s = Some s' -> wGrown s' = 0).
  { induction sched0 as [|t sc IH]; cbn; intros s0 s' I0 H0 H; [inversion H; subst; auto|].
    destruct (wstep c t s0) as [s1|] eqn:E; [|discriminate].
    apply (IH s1); auto; [eapply wstep_inv; eauto|]. unfold wstep in E.
    destruct (wCrashed s0 || wMain s0)%bool; [discriminate|].
    destruct (wThreads s0) as [|w ws] eqn:Ew.
    - destruct t; cbn in E; destruct (main_ready c s0); try discriminate; inversion E; auto.
    - pose proof (v_len _ _ I0) as X. rewrite Ew in X. cbn in X. lia. }
  eapply G; [apply winit_inv| |eauto]. reflexivity.
Qed.

(** ** C66 *)

(** With more than one core, once a worker has met an infinite weight and left, the
    main goroutine never goes on, whatever the schedule: the wait group is never
    told about the worker that left. *)
Theorem C66_lost_worker_blocks_main_refuted : forall c sched s sched' s',
  1 < cCores c -> wrun c sched (winit c) = Some s -> wClosed s = true ->
  wrun c sched' s = Some s' -> wMain s' = false.
Proof.
  intros c sched s sched' s' Hc Hr Hcl Hr'. pose proof (wrun_inv _ _ _ _ (winit_inv c) Hr) as I.
  assert (G : forall sched s s', wClosed s = true -> wrun c sched s = Some s' -> wClosed s' = true).
  { clear. induction sched as [|t sc IH]; cbn; intros s0 s' H0 H; [inversion H; subst; auto|].
    destruct (wstep c t s0) as [s1|] eqn:E; [|discriminate]. apply (IH s1); auto. unfold wstep in E.
    destruct (wCrashed s0 || wMain s0)%bool; [discriminate|].
    destruct (nth_error (wThreads s0) t) as [[pc a]|].
    - destruct pc; cbn [worker_step] in E;
      repeat match type of E with context [if ?b then _ else _] => destruct b end; inversion E; cbn; auto.
    - destruct (main_ready c s0); inversion E; auto. }
  pose proof (wrun_inv _ _ _ _ I Hr') as I'. destruct (wMain s') eqn:Em; auto.
  destruct (main_done _ _ I' Em) as [_ X]. rewrite (G _ _ _ Hcl Hr') in X. specialize (X Hc). discriminate.
Qed.

(** ... so every such run ends in a crash or in a state where no goroutine can move. *)
Theorem C66_deadlock_or_crash_refuted : forall c sched s,
  1 < cCores c -> wrun c sched (winit c) = Some s -> wClosed s = true ->
  exists sched' s', wrun c sched' s = Some s' /\ wMain s' = false /\ forall t, wstep c t s' = None.
Proof.
  intros c sched s Hc Hr Hcl.
  assert (G : forall m s, measure c s < m -> winv c s -> wClosed s = true ->
    exists sched' s', wrun c sched' s = Some s' /\ forall t, wstep c t s' = None).
  { clear - Hc. induction m as [|m IH]; intros s Hm I Hcl; [lia|].
    destruct (wCrashed s) eqn:Ec; [|destruct (wMain s) eqn:Em].
    - exists [], s. split; auto. intros t. unfold wstep. rewrite Ec. auto.
    - exists [], s. split; auto. intros t. unfold wstep. rewrite Em, orb_true_r. auto.
    - destruct (wprogress _ _ I Ec Em) as [(t & s1 & E)|(_ & _ & Hg)].
      + pose proof (wstep_measure _ _ _ _ I E). pose proof (wstep_inv _ _ _ _ I E) as I1.
        destruct (IH s1) as (sc & s2 & H1 & H2); auto; [lia| |].
        * unfold wstep in E. rewrite Ec, Em in E. cbn [orb] in E.
          destruct (nth_error (wThreads s) t) as [[pc a]|].
          -- destruct pc; cbn [worker_step] in E;
             repeat match type of E with context [if ?b then _ else _] => destruct b end; inversion E; cbn; auto.
          -- destruct (main_ready c s); inversion E; auto.
        * exists (t :: sc), s2. split; auto. cbn. rewrite E. auto.
      + exists [], s. split; auto. intros t. unfold wstep. rewrite Ec, Em. cbn [orb].
        destruct (nth_error (wThreads s) t) as [[pc a]|] eqn:Et.
        * pose proof (Hg _ (nth_error_In _ _ Et)) as X. cbn in X. subst pc. reflexivity.
        * unfold main_ready. destruct (Nat.ltb_spec 1 (cCores c)) as [X|X]; [|lia].
          destruct I. specialize (v_wait X). rewrite Hcl in v_wait. cbn in v_wait.
          destruct (Nat.eqb_spec (wWait s) 0); auto. lia. }
  destruct (G (S (measure c s)) s) as (sc & s2 & H1 & H2); auto.
  - eapply wrun_inv; eauto. apply winit_inv.
  - exists sc, s2. split; auto. split; auto. eapply C66_lost_worker_blocks_main_refuted; eauto.
Qed.

(** It does happen: two cores, the first tree has infinite weight; then the other
    worker finishes and both it and the main goroutine are stuck for good.  If the
    second tree has infinite weight too, the second close of the channel crashes the program. *)
Definition boost_conf (inf : nat -> bool) : wconf := mkWC 2 2 true false false inf.
Theorem C66_it_happens_refuted :
  (exists sched s, wrun (boost_conf (fun k => k =? 1)) sched (winit (boost_conf (fun k => k =? 1))) = Some s
     /\ wClosed s = true /\ wCrashed s = false /\ wMain s = false /\ forall t, wstep (boost_conf (fun k => k =? 1)) t s = None)
  /\ exists sched s, wrun (boost_conf (fun k => k <=? 2)) sched (winit (boost_conf (fun k => k <=? 2))) = Some s /\ wCrashed s = true.
Proof.
  split.
  - exists [0; 0; 0; 1; 1; 1; 1; 1; 1; 1; 1]. eexists. split; [vm_compute; reflexivity|]. repeat (split; [reflexivity|]).
    intros [|[|t]]; reflexivity || (unfold wstep; cbn; destruct t; reflexivity).
  - exists [0; 0; 0; 1; 1; 1]. eexists. split; [vm_compute; reflexivity|reflexivity].
Qed.

(** With one core, which is what growforest uses unless -multiboost is given,
    boosting terminates whatever the weights: nothing crashes and the main
    goroutine goes on. *)
Theorem C66_one_core_partial : forall c sched s,
  cCores c = 1 -> wrun c sched (winit c) = Some s ->
  length sched <= 11 * Nat.max (cTrees c) 1 + 2
  /\ wCrashed s = false
  /\ (wMain s = false -> exists t s', wstep c t s = Some s').
Proof.
  intros c sched s Hc Hr. pose proof (wrun_inv _ _ _ _ (winit_inv c) Hr) as I.
  pose proof (wrun_bound _ _ _ _ (winit_inv c) Hr) as B. rewrite measure_init, Hc in B. split; [lia|].
  assert (Hcr : wCrashed s = false).
  { assert (G : forall sched s s', winv c s -> (wClosed s = true -> forall w, In w (wThreads s) -> fst w = PGone) /\ wCrashed s = false -> wrun c sched s = Some s' ->
      (wClosed s' = true -> forall w, In w (wThreads s') -> fst w = PGone) /\ wCrashed s' = false).
    { clear - Hc. induction sched as [|t sc IH]; cbn; intros s s' I H0 H; [inversion H; subst; auto|].
      destruct (wstep c t s) as [s1|] eqn:E; [|discriminate]. apply (IH s1); auto; [eapply wstep_inv; eauto|].
      destruct H0 as [H0 H1]. clear H IH. unfold wstep in E. destruct (wCrashed s || wMain s)%bool; [discriminate|].
      destruct (wThreads s) as [|w [|w2 ws]] eqn:Ew; try (pose proof (v_len _ _ I) as X; rewrite Ew in X; cbn in X; lia).
      destruct t as [|t].
      - cbn [nth_error] in E. destruct w as [pc a]. destruct (wClosed s) eqn:Ecl.
        + specialize (H0 eq_refl (pc, a) (or_introl eq_refl)). cbn in H0. subst pc. discriminate.
        + destruct pc; cbn [worker_step] in E; rewrite ?Ecl in E;
          repeat match type of E with context [if ?b then _ else _] => destruct b end; inversion E; cbn; rewrite ?Ew; cbn; try (split; [congruence|auto]).
          split; auto. intros _ w [<-|[]]. auto.
      - assert (En : nth_error [w] (S t) = None) by (destruct t; auto). rewrite En in E.
        destruct (main_ready c s); inversion E; cbn. split; auto; rewrite Ew; auto. }
    eapply (G sched (winit c) s); auto; [apply winit_inv|]. split; auto. discriminate. }
  split; auto. intros Hm. destruct (wprogress _ _ I Hcr Hm) as [H|(X & _)]; auto. lia.
Qed.
Print Assumptions C64_every_schedule_grows_all.
Print Assumptions C64_no_cores.
Print Assumptions C66_lost_worker_blocks_main_refuted.
Print Assumptions C66_deadlock_or_crash_refuted.
Print Assumptions C66_it_happens_refuted.
Print Assumptions C66_one_core_partial.

(** Two cores and three trees, with the second worker overtaking the first. *)
Definition plain_conf : wconf := mkWC 3 2 false true false (fun _ => false).
Definition plain_sched : list nat :=
  [0; 1; 1; 1; 1; 1; 1; 1; 1; 1; 1; 1; 0; 0; 0; 0; 0; 0; 0; 0; 1; 1; 1; 1; 1; 1; 1; 1; 2].
Example C64_example :
  match wrun plain_conf plain_sched (winit plain_conf) with
  | Some s => (wMain s, wGrown s, map fst (wFile s), wTrees s, tested s)
  | None => (false, 0, [], [], [])
  end = (true, 3, [2; 1; 3], [1; 0; 1], [3; 1; 3]).
Proof. vm_compute. reflexivity. Qed.
