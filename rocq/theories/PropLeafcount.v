(** Property C67: the goroutines of leafcount. *)
From Verif Require Import Go GoLemmas ModelWorkers WorkersProofs.
Local Open Scope nat_scope.
Local Open Scope list_scope.

Definition working (w : lpc) : list nat := match w with LWork f => [f] | _ => [] end.
Definition offering (w : lpc) : bool := match w with LOffer => true | _ => false end.

Record linv (threads nfiles : nat) (s : lstate) : Prop := {
  l_len : length (lWorkers s) = threads;
  l_files : Permutation (lCounted s ++ flat_map working (lWorkers s)) (seq 0 (lNext s));
  l_tok : lTokens s + cnt offering (lWorkers s) = length (lCounted s);
  l_le : lNext s <= nfiles
}.

Lemma flat_map_upd {A B} (f : A -> list B) : forall l t w w', nth_error l t = Some w ->
  Permutation (f w ++ flat_map f (upd l t w')) (f w' ++ flat_map f l).
Proof.
  induction l as [|x l IH]; destruct t; cbn; intros w w' H; try discriminate.
  - inversion H; subst x. rewrite !app_assoc. apply Permutation_app_tail, Permutation_app_comm.
  - specialize (IH _ _ w' H). rewrite !app_assoc, (Permutation_app_comm (f w)), (Permutation_app_comm (f w')), <- !app_assoc. apply Permutation_app_head. auto.
Qed.

Lemma linit_inv threads nfiles : linv threads nfiles (linit threads).
Proof.
  split; cbn [linit lWorkers lCounted lNext lTokens app seq length plus].
  - apply repeat_length.
  - assert (E : flat_map working (repeat LWait threads) = []) by (induction threads; auto). rewrite E. auto.
  - rewrite cnt_none; auto. intros w Hw. apply repeat_spec in Hw. subst; auto.
  - lia.
Qed.
(** Every step adds one to the sum of what was handed over, counted and received. *)
Definition lclock (s : lstate) : nat := lNext s + length (lCounted s) + lTokens s.

Lemma lstep_inv threads nfiles t s s' : linv threads nfiles s -> lstep nfiles t s = Some s' ->
  linv threads nfiles s' /\ lclock s' = S (lclock s).
Proof.
  intros [I1 I2 I3 I4] H. unfold lstep in H. destruct (Nat.eqb_spec (lTokens s) nfiles) as [|Hne]; [discriminate|].
  destruct (nth_error (lWorkers s) t) as [w|] eqn:Ht; [|discriminate].
  destruct w as [|f|].
  - destruct (Nat.ltb_spec (lNext s) nfiles) as [Hlt|]; [|discriminate]. inversion H; subst s'; clear H. unfold lclock. split; [split|]; cbn [lWorkers lCounted lNext lTokens].
    + rewrite upd_length. auto.
    + pose proof (flat_map_upd working _ _ _ (LWork (lNext s)) Ht) as P. cbn [working app] in P.
      rewrite seq_S. cbn [plus]. rewrite P. rewrite <- (Permutation_cons_append (seq 0 (lNext s))), <- Permutation_middle. apply perm_skip. auto.
    + pose proof (cnt_upd offering _ _ _ (LWork (lNext s)) Ht) as X. cbn in X. lia.
    + lia.
    + lia.
  - inversion H; subst s'; clear H. unfold lclock. split; [split|]; cbn [lWorkers lCounted lNext lTokens].
    + rewrite upd_length. auto.
    + pose proof (flat_map_upd working _ _ _ LOffer Ht) as P. cbn [working app] in P. rewrite <- app_assoc. cbn [app]. rewrite P. auto.
    + pose proof (cnt_upd offering _ _ _ LOffer Ht) as X. cbn in X. rewrite app_length. cbn. lia.
    + auto.
    + rewrite app_length. cbn. lia.
  - inversion H; subst s'; clear H. unfold lclock. split; [split|]; cbn [lWorkers lCounted lNext lTokens].
    + rewrite upd_length. auto.
    + pose proof (flat_map_upd working _ _ _ LWait Ht) as P. cbn [working app] in P. rewrite P. auto.
    + pose proof (cnt_upd offering _ _ _ LWait Ht) as X. cbn in X. lia.
    + auto.
    + lia.
Qed.
Lemma lrun_inv threads nfiles sched : forall s s', linv threads nfiles s -> lrun nfiles sched s = Some s' ->
  linv threads nfiles s' /\ lclock s' = lclock s + length sched.
Proof.
  induction sched as [|t sched IH]; cbn [lrun length]; intros s s' I H; [inversion H; subst; auto|].
  destruct (lstep nfiles t s) as [s1|] eqn:E; [|discriminate]. destruct (lstep_inv _ _ _ _ _ I E) as [I1 C1].
  destruct (IH _ _ I1 H) as [I2 C2]. split; auto. lia.
Qed.

Lemma sizes threads nfiles s : linv threads nfiles s ->
  length (lCounted s) + length (flat_map working (lWorkers s)) = lNext s.
Proof. intros [_ P _ _]. apply Permutation_length in P. rewrite app_length, seq_length in P. auto. Qed.

(** For every number of files and of workers, at least one, and in every
    schedule: no file is ever counted twice; the run has at most three steps
    per file; as long as the main goroutine waits some worker can move; and when
    it has stopped waiting each file has been counted exactly once. *)
Theorem C67_each_file_once : forall nfiles threads sched s,
  1 <= threads -> lrun nfiles sched (linit threads) = Some s ->
  NoDup (lCounted s)
  /\ length sched <= 3 * nfiles
  /\ (lTokens s <> nfiles -> exists t s', lstep nfiles t s = Some s')
  /\ (lTokens s = nfiles -> Permutation (lCounted s) (seq 0 nfiles) /\ length sched = 3 * nfiles).
Proof.
  intros nfiles threads sched s Hth Hr.
  destruct (lrun_inv threads nfiles _ _ _ (linit_inv threads nfiles) Hr) as [I C]. pose proof (sizes _ _ _ I) as Z.
  destruct I as [I1 I2 I3 I4]. change (lclock (linit threads)) with 0 in C. unfold lclock in C.
  split; [|split; [lia|split]].
  - assert (N : NoDup (lCounted s ++ flat_map working (lWorkers s))) by (eapply Permutation_NoDup; [symmetry; eauto|apply seq_NoDup]).
    clear -N. induction (lCounted s) as [|x l IH]; [constructor|]. cbn in N. apply NoDup_cons_iff in N as [N1 N2]. constructor; auto.
    intros X. apply N1. apply in_or_app; auto.
  - intros Hne.
    destruct (Exists_dec (fun w => w <> LWait) (lWorkers s)) as [E|E].
    { intros [| |]; [right; congruence|left; congruence|left; congruence]. }
    + apply Exists_exists in E as (w & Hw & Hn). apply In_nth_error in Hw as [t Ht]. exists t. unfold lstep.
      rewrite (proj2 (Nat.eqb_neq _ _) Hne), Ht. destruct w; [congruence| |]; eauto.
    + assert (F : forall w, In w (lWorkers s) -> w = LWait).
      { intros w Hw. destruct w; auto; exfalso; apply E; apply Exists_exists; eexists; (split; [eauto|congruence]). }
      assert (Hz : cnt offering (lWorkers s) = 0) by (apply cnt_none; intros w Hw; rewrite (F w Hw); auto).
      assert (Hn : flat_map working (lWorkers s) = []).
      { clear -F. induction (lWorkers s) as [|w l IH]; auto. cbn. rewrite (F w) by (cbn; auto). cbn. apply IH. intros; apply F; cbn; auto. }
      rewrite Hn in Z. cbn in Z. destruct (lWorkers s) as [|w l] eqn:Ew; [cbn in I1; lia|].
      exists 0. unfold lstep. rewrite (proj2 (Nat.eqb_neq _ _) Hne), Ew. cbn [nth_error]. rewrite (F w) by (cbn; auto).
      destruct (Nat.ltb_spec (lNext s) nfiles); [eauto|lia].
  - intros Hd. assert (Hl : length (flat_map working (lWorkers s)) = 0) by lia. apply length_zero_iff_nil in Hl. rewrite Hl, app_nil_r in I2.
    cbn in Z. split; [|rewrite Hl in Z; cbn in Z; lia]. replace nfiles with (lNext s); auto. rewrite Hl in Z. cbn in Z. lia.
Qed.
Print Assumptions C67_each_file_once.

(** Without any worker the program waits for ever: no step is possible. *)
Theorem C67_no_workers_blocks : forall nfiles t,
  lstep nfiles t (linit 0) = None.
Proof. intros. unfold lstep. cbn [linit lTokens lWorkers repeat]. destruct (0 =? nfiles); auto. destruct t; auto. Qed.
Print Assumptions C67_no_workers_blocks.

(** Three files, two workers; the second worker counts two of the files. *)
Example C67_example :
  match lrun 3 [0; 1; 1; 1; 1; 0; 1; 0; 1] (linit 2) with
  | Some s => (lTokens s, lCounted s)
  | None => (0, [])
  end = (3, [1; 0; 2]).
Proof. vm_compute. reflexivity. Qed.
