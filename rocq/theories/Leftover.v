(** Targets do not read what an earlier tree left in their scratch memory. *)
From Verif Require Import Go GoLemmas F64 ModelFeature ModelSample ModelImpurity ModelSplit ModelSearch ModelTargets ModelTargets2 ModelTree ModelGrow
  OrderProofs PropImpurity2 OrderlessTargets Lockstep.
Local Open Scope nat_scope.
Local Open Scope list_scope.

(** ** Counters *)
(** Counters of the same sizes, and counters with the same counts of the two sides. *)
Definition ksize (k k' : counters) : Prop := length (kL k) = length (kL k') /\ length (kR k) = length (kR k') /\ length (kM k) = length (kM k').
Definition csize (s s' : cst) : Prop := length (fst s) = length (fst s') /\ ksize (snd s) (snd s').
Definition kequal (_ _ : list nat) (k k' : counters) : Prop := kL k = kL k' /\ kR k = kR k'.
Definition cequal (l r : list nat) (s s' : cst) : Prop := kequal l r (snd s) (snd s').

Lemma Count_size data l k k' : length k = length k' -> CountPerCat data l k = CountPerCat data l k'.
Proof.
  intros H. unfold CountPerCat. f_equal. revert k' H. induction k as [|a k IH]; intros [|b k'] H; cbn in *; try discriminate; [reflexivity|]. f_equal. apply IH. lia.
Qed.

Section Counting.
  Variable A : arith.
  Variable data : list nat.
  (** Impurities that start by counting. *)
  Variable imp : impurity A.
  Variable rest : list nat -> list Z -> res (A * list Z).
  Hypothesis Himp : forall l k, imp l k = let* c := CountPerCat data l k in rest l c.
  Lemma imp_same l k k' : length k = length k' -> imp l k = imp l k'.
  Proof. intros H. rewrite !Himp, (Count_size data l k k' H). reflexivity. Qed.

  Lemma split_same l r m k k' : ksize k k' ->
    follows (out (fun t t' => ksize t t' /\ (m = None -> kequal l r t t'))) (SplitImpurity A imp l r m k) (SplitImpurity A imp l r m k').
  Proof.
    intros (H1 & H2 & H3). unfold SplitImpurity. rewrite <- (imp_same l _ _ H1), <- (imp_same r _ _ H2).
    follow. intros [il lc] ? <-. follow. intros [ir rc] ? <-. destruct (has_m m) as [mm|] eqn:Em.
    - rewrite <- (imp_same mm _ _ H3). follow. intros [im mc] ? <-. apply follows_ok. repeat split; auto.
    - apply follows_ok. repeat split; auto.
  Qed.
  Lemma update_same from l r k k' v : ksize k k' -> kequal l (v ++ r) k k' ->
    follows (out (fun t t' => ksize t t' /\ kequal (l ++ v) r t t')) (UpdateSImp A data from (l ++ v) r None k v) (UpdateSImp A data from (l ++ v) r None k' v).
  Proof.
    intros (_ & _ & H3) [E1 E2]. unfold UpdateSImp. cbn [has_m]. rewrite <- E1, <- E2. follow. intros [lc rc] ? <-. follow. intros il ? <-. follow. intros ir ? <-.
    apply follows_ok. repeat split; auto.
  Qed.
  Lemma update_gini_same from l r k k' v : ksize k k' -> kequal l (v ++ r) k k' ->
    follows (out (fun t t' => ksize t t' /\ kequal (l ++ v) r t t')) (UpdateSImp_gini A data from (l ++ v) r None k v) (UpdateSImp_gini A data from (l ++ v) r None k' v).
  Proof.
    intros (_ & _ & H3) [E1 E2]. unfold UpdateSImp_gini. cbn [has_m]. rewrite <- E1, <- E2. follow. intros [lc rc] ? <-. follow. intros il ? <-. follow. intros ir ? <-.
    apply follows_ok. repeat split; auto.
  Qed.
  Lemma counting_forgets upd :
    (forall l r k k' v, ksize k k' -> kequal l (v ++ r) k k' ->
       follows (out (fun t t' => ksize t t' /\ kequal (l ++ v) r t t')) (upd (l ++ v) r None k v) (upd (l ++ v) r None k' v)) ->
    lockstep (counting_target A imp upd) (counting_target A imp upd) csize cequal.
  Proof.
    intros Hu. split; cbn [tImp tSplit tUpdate counting_target].
    - intros l [c k] [c' k'] [H1 H2]. cbn [fst snd] in *. rewrite <- (imp_same l _ _ H1). follow. intros [e d] ? <-. apply follows_ok. split; [reflexivity|]. split; auto.
    - intros l r m [c k] [c' k'] [H1 H2]. cbn [fst snd] in *. apply (follows_bind (out (fun t t' => ksize t t' /\ (m = None -> kequal l r t t')))); [apply split_same; exact H2|].
      intros [e t] [e' t'] (E & S1 & S2). cbn [fst snd] in *. subst e'. apply follows_ok. repeat split; auto; try apply S1; cbn; try (intros; apply S2; assumption).
      all: apply S2; assumption.
    - intros l r v [c k] [c' k'] [H1 H2] H3. unfold cequal in H3. cbn [fst snd] in *. apply (follows_bind (out (fun t t' => ksize t t' /\ kequal (l ++ v) r t t'))); [apply Hu; assumption|].
      intros [e t] [e' t'] (E & S1 & S2). cbn [fst snd] in *. subst e'. apply follows_ok. repeat split; auto; try apply S1; apply S2.
  Qed.
End Counting.

Lemma gini_forgets A data : lockstep (gini_target A data) (gini_target A data) csize cequal.
Proof.
  apply (counting_forgets A data _ (fun l c => let total := Z.of_nat (length l) in let t := num A (total * total) in
    Ok (fold_left (fun e i => nsub A e (ndiv A (num A (i * i)) t)) c (nadd A (nofZ A 0) (num A 1)), c))); [reflexivity|]. intros. apply update_gini_same; assumption.
Qed.
Lemma others_forget A nlog data costs weights cweights posi alpha kappa imp from :
  In (imp, from) (counting_targets A nlog data costs weights cweights posi alpha kappa) ->
  let T := counting_target A imp (UpdateSImp A data from) in lockstep T T csize cequal.
Proof.
  intros H. apply (counting_forgets A data imp (fun l c => let* e := from l c in Ok (e, c))).
  - intros l k. exact (targets_coherent _ _ _ _ _ _ _ _ _ _ _ H l k).
  - intros. apply update_same; assumption.
Qed.
Lemma dentropy_forgets A nlog data costs :
  let T := counting_target A (DEntropyImpurity A nlog data) (UpdateSImp A data (DEntropyFromCounts A nlog costs)) in lockstep T T csize cequal.
Proof. eapply counting_forgets; [intros; unfold DEntropyImpurity; reflexivity|]. intros. apply update_same; assumption. Qed.
Lemma hdist_forgets A data : lockstep (hdist_target A data) (hdist_target A data) ksize kequal.
Proof.
  split; cbn [tImp tSplit tUpdate hdist_target].
  - intros l s s' H. apply follows_ok. split; auto.
  - intros l r m k k' (H1 & H2 & H3). unfold HDistSplit. rewrite <- (Count_size data l _ _ H1), <- (Count_size data r _ _ H2). follow. intros lc ? <-. follow. intros rc ? <-.
    follow. intros d ? <-. apply follows_ok. repeat split; auto.
  - intros l r v k k' (H1 & H2 & H3) [E1 E2]. unfold HDistUpdate. rewrite <- E1, <- E2. follow. intros [lc rc] ? <-. follow. intros d ? <-. apply follows_ok. repeat split; auto.
Qed.

(** ** Sums *)
Definition always {S : Type} (_ _ : S) : Prop := True.
Definition sums_equal (A : arith) (_ _ : list nat) (s s' : sums A) : Prop := sLs A s = sLs A s' /\ sLq A s = sLq A s' /\ sRs A s = sRs A s' /\ sRq A s = sRq A s'.
Lemma num_forgets A data : lockstep (num_target A data) (num_target A data) always (sums_equal A).
Proof.
  split; cbn [tImp tSplit tUpdate num_target].
  - intros l s s' _. follow. intros e ? <-. apply follows_ok. split; [reflexivity|exact I].
  - intros l r m s s' _. unfold NumSplitImpurity. follow. intros [ls lq] ? <-. follow. intros [rs rq] ? <-. destruct (has_m m) as [mm|] eqn:Em.
    + follow. intros [ms mq] ? <-. apply follows_ok. split; [reflexivity|]. split; [exact I|]. intros _. repeat split.
    + apply follows_ok. split; [reflexivity|]. split; [exact I|]. intros _. repeat split.
  - intros l r v s s' _ (E1 & E2 & E3 & E4). unfold NumUpdate. cbn [has_m]. follow. intros [vs vq] ? <-. cbn [sLs sLq sRs sRq]. rewrite <- E1, <- E2, <- E3, <- E4.
    apply follows_ok. split; [reflexivity|]. split; [exact I|]. repeat split; cbn; congruence.
Qed.
Lemma grad_forgets A data : lockstep (grad_target A data) (grad_target A data) always (fun _ _ => eq).
Proof.
  split; cbn [tImp tSplit tUpdate grad_target].
  - intros l s s' _. follow. intros e ? <-. apply follows_ok. split; [reflexivity|exact I].
  - intros l r m s s' _. unfold GBSplit. follow. intros ls ? <-. follow. intros rs ? <-. apply follows_ok. split; [reflexivity|]. split; [exact I|reflexivity].
  - intros l r v s s' _ <- x E. exists x. split; [exact E|]. split; [reflexivity|]. split; [exact I|reflexivity].
Qed.
(** The targets without scratch memory. *)
Lemma plain_forgets A imp : lockstep (plain_target A imp) (plain_target A imp) always (fun _ _ => always).
Proof.
  split; cbn [tImp tSplit tUpdate plain_target].
  - intros l s s' _. follow. intros e ? <-. apply follows_ok. split; [reflexivity|exact I].
  - intros l r m s s' _. follow. intros e ? <-. apply follows_ok. split; [reflexivity|]. split; [exact I|intros; exact I].
  - intros l r v s s' _ _. follow. intros e ? <-. apply follows_ok. split; [reflexivity|]. split; exact I.
Qed.
