(** C141: the training error of an adaptively boosted forest. *)
From Verif Require Import Go GoLemmas F64 Exact ModelFeature FeatureSpec ModelImpurity ImpuritySpec ImpurityProofs
  PropImpurity3 ModelBoost BoostProofs PropBoost PropAda TreeProofs ModelBallot BallotSpec BallotProofs.
Local Open Scope nat_scope.
Local Open Scope list_scope.

(** ** Spec *)
(** What a partition says about a case: the majority of its leaf. *)
Definition says_cat (maj : list nat -> nat) (leaves : list (list nat)) (d : nat) : nat :=
  match find (fun cs => mem d cs) leaves with Some cs => maj cs | None => 0 end.
(** The weights of the trees that say [c] about the case [d]. *)
Fixpoint backing (maj : list nat -> nat) (d c : nat) (trees : list (list (list nat) * R)) : R :=
  match trees with
  | [] => 0
  | (leaves, a) :: trees => ((if says_cat maj leaves d =? c then a else 0) + backing maj d c trees)%R
  end.
Fixpoint Rprod (l : list R) : R := match l with [] => 1%R | x :: l => (x * Rprod l)%R end.
(** The weight of a tree of error [e] and what it does to the bound. *)
Definition gain (e : R) : R := if Rlt_dec e (/ 2) then tree_weight e else 0%R.
Definition factor (e : R) : R := if Rlt_dec e (/ 2) then (2 * sqrt (e * (1 - e)))%R else 1%R.
(** A partition of all cases, as Partition makes it from a tree. *)
Definition whole (data : list nat) (k : nat) (leaves : list (list nat)) : Prop :=
  Permutation (concat leaves) (seq 0 (length data)) /\ Forall (labelled data k) leaves.
Definition wrong (data : list nat) (answer : nat -> nat) : list nat :=
  filter (fun d => negb (answer d =? nth d data 0)) (seq 0 (length data)).

(** ** One round *)
Lemma nodup_apart {A} (l l' : list A) a : NoDup (l ++ l') -> In a l -> ~ In a l'.
Proof.
  intros Nd H H'. apply in_split in H as (l1 & l2 & ->). rewrite <- app_assoc in Nd. apply NoDup_remove_2 in Nd. apply Nd. rewrite !in_app_iff. auto.
Qed.
Lemma nodup_right {A} (l l' : list A) : NoDup (l ++ l') -> NoDup l'.
Proof. induction l; cbn; auto. intros H. inversion H; auto. Qed.
Lemma misses_says data maj leaves d : NoDup (concat leaves) -> In d (concat leaves) ->
  mem d (misses data maj leaves) = negb (says_cat maj leaves d =? nth d data 0).
Proof.
  unfold says_cat. induction leaves as [|cs leaves IH]; intros Nd Hd; [destruct Hd|]. cbn [find]. unfold misses. cbn [flat_map]. fold (misses data maj leaves).
  cbn [concat] in Nd, Hd. destruct (mem d cs) eqn:Em.
  - apply mem_In in Em. assert (Hn : ~ In d (misses data maj leaves)).
    { intros H. apply (nodup_apart _ _ d Nd Em). unfold misses in H. apply in_flat_map in H as (cs' & H1 & H2). apply filter_In in H2 as [H2 _].
      apply in_concat. eauto. }
    destruct (maj cs =? nth d data 0) eqn:E; cbn [negb].
    + apply mem_false. rewrite in_app_iff. intros [H|H]; [|contradiction]. apply filter_In in H as [_ H]. rewrite Nat.eqb_sym, E in H. discriminate.
    + apply mem_In. rewrite in_app_iff. left. apply filter_In. rewrite Nat.eqb_sym, E. auto.
  - apply mem_false in Em. rewrite in_app_iff in Hd. destruct Hd as [Hd|Hd]; [contradiction|]. apply nodup_right in Nd. rewrite <- (IH Nd Hd).
    destruct (mem d (misses data maj leaves)) eqn:E.
    + apply mem_In. apply mem_In in E. rewrite in_app_iff. auto.
    + apply mem_false. apply mem_false in E. rewrite in_app_iff. intros [H|H]; [|contradiction]. apply filter_In in H as [H _]. contradiction.
Qed.

Lemma gain_nonneg e : (0 < e)%R -> (0 <= gain e)%R.
Proof.
  intros He. unfold gain. destruct (Rlt_dec e (/ 2)); [|lra]. unfold tree_weight. apply Rmult_le_pos; [lra|].
  rewrite <- ln_1. left. apply ln_increasing; [lra|]. apply Rmult_lt_reg_r with e; [lra|]. unfold Rdiv. rewrite Rmult_assoc, Rinv_l by lra. lra.
Qed.
Lemma factor_pos e : (0 < e)%R -> (0 < factor e)%R.
Proof.
  intros He. unfold factor. destruct (Rlt_dec e (/ 2)); [|lra]. apply Rmult_lt_0_compat; [lra|]. apply sqrt_lt_R0. apply Rmult_lt_0_compat; lra.
Qed.

Lemma ada_step data k leaves ws maj : 0 < k -> length data = length ws -> ws <> [] -> whole data k leaves -> majorities data maj leaves ->
  Forall (fun w => (0 < w)%R) ws -> Rsum ws = 1%R ->
  let e := carried ws (misses data maj leaves) in (0 < e)%R ->
  exists ws', AdaBoost XR xlog xexp data (repeat false (length data)) k leaves (exact ws) = Ok (exact ws', Some (gain e)) /\
    length ws' = length ws /\ Forall (fun w => (0 < w)%R) ws' /\ Rsum ws' = 1%R /\
    forall d, d < length ws -> (nth d ws' 0 * factor e = nth d ws 0 * exp (if (says_cat maj leaves d =? nth d data 0)%nat then - gain e else gain e))%R.
Proof.
  intros Hk Ld Hne [HP Hl] Hj Hpos Hsum e He. rewrite Ld in HP. unfold gain, factor. destruct (Rlt_dec e (/ 2)) as [Hh|Hh].
  2:{ exists ws. rewrite (C51_useless_tree data _ k leaves ws maj) by (auto; fold e; lra). split; [reflexivity|]. split; [reflexivity|]. split; [exact Hpos|].
      split; [exact Hsum|]. intros d Hd. replace (if says_cat maj leaves d =? nth d data 0 then (-0)%R else 0%R) with 0%R by (destruct (says_cat maj leaves d =? nth d data 0); lra).
      rewrite exp_0. reflexivity. }
  assert (Nd : NoDup (concat leaves)) by (eapply Permutation_NoDup; [symmetry; exact HP|apply seq_NoDup]).
  destruct (ada_round data (repeat false (length data)) k leaves ws maj) as (W & E & LW & HW & V); auto.
  { rewrite repeat_length. exact Ld. }
  fold e in E, V. set (a := tree_weight e) in *.
  assert (HS : (0 < Rsum W)%R) by (apply Rsum_pos; auto; destruct W, ws; try congruence; discriminate).
  assert (PS : Permutation (misses data maj leaves ++ hits data maj leaves) (seq 0 (length ws))) by (rewrite <- split_leaves; exact HP).
  assert (VW : forall d, d < length ws -> nth d W 0%R = (nth d ws 0 * exp (if (says_cat maj leaves d =? nth d data 0)%nat then - a else a))%R).
  { intros d Hd. rewrite V by exact Hd. rewrite nth_repeat.
    assert (Hin : In d (concat leaves)) by (eapply Permutation_in; [symmetry; exact HP|apply in_seq; lia]).
    rewrite (misses_says data maj leaves d Nd Hin). destruct (says_cat maj leaves d =? nth d data 0) eqn:Es; cbn [negb]; [|reflexivity].
    assert (Hh' : In d (hits data maj leaves)).
    { assert (Hx : In d (misses data maj leaves ++ hits data maj leaves)) by (eapply Permutation_in; [symmetry; exact PS|apply in_seq; lia]).
      apply in_app_iff in Hx as [Hx|Hx]; [|exact Hx]. apply mem_In in Hx. rewrite (misses_says data maj leaves d Nd Hin), Es in Hx. discriminate. }
    apply mem_In in Hh'. rewrite Hh'. reflexivity. }
  assert (Hlt : forall c, In c (misses data maj leaves ++ hits data maj leaves) -> c < length ws).
  { intros c H. apply (Permutation_in _ PS) in H. apply in_seq in H. lia. }
  assert (Nd2 : NoDup (misses data maj leaves ++ hits data maj leaves)) by (eapply Permutation_NoDup; [symmetry; exact PS|apply seq_NoDup]).
  assert (Em : carried W (misses data maj leaves) = (e * exp a)%R).
  { apply carried_scale. intros c H. rewrite VW by (apply Hlt, in_app_iff; auto).
    assert (Hin : In c (concat leaves)) by (eapply Permutation_in; [symmetry; exact HP|apply in_seq; split; [lia|apply Hlt, in_app_iff; auto]]).
    apply mem_In in H. rewrite (misses_says data maj leaves c Nd Hin) in H. apply negb_true_iff in H. rewrite H. reflexivity. }
  assert (Eh : carried ws (hits data maj leaves) = (1 - e)%R).
  { rewrite <- carried_all in Hsum. rewrite <- (carried_perm _ _ _ PS), carried_app in Hsum. fold e in Hsum. lra. }
  assert (Eh' : carried W (hits data maj leaves) = ((1 - e) * exp (- a))%R).
  { rewrite <- Eh. apply carried_scale. intros c H. rewrite VW by (apply Hlt, in_app_iff; auto).
    assert (Hin : In c (concat leaves)) by (eapply Permutation_in; [symmetry; exact HP|apply in_seq; split; [lia|apply Hlt, in_app_iff; auto]]).
    assert (N : mem c (misses data maj leaves) = false).
    { apply mem_false. intros H'. apply in_split in H' as (l1 & l2 & E'). rewrite E' in Nd2. rewrite <- app_assoc in Nd2.
      apply NoDup_remove_2 in Nd2. apply Nd2. rewrite !in_app_iff. auto. }
    rewrite (misses_says data maj leaves c Nd Hin) in N. apply negb_false_iff in N. rewrite N. reflexivity. }
  assert (Esum : Rsum W = (e * exp a + (1 - e) * exp (- a))%R).
  { rewrite <- carried_all, LW. rewrite <- (carried_perm _ _ _ PS), carried_app, Em, Eh'. reflexivity. }
  assert (X : (exp a * exp a = (1 - e) / e)%R).
  { rewrite <- exp_plus. replace (a + a)%R with (ln ((1 - e) / e)) by (unfold a, tree_weight; lra). apply exp_ln. apply Rdiv_lt_0_compat; lra. }
  assert (Ea : ((1 - e) * exp (- a) = e * exp a)%R).
  { rewrite exp_Ropp. apply Rmult_eq_reg_r with (exp a); [|apply Rgt_not_eq, exp_pos].
    rewrite Rmult_assoc, Rinv_l by (apply Rgt_not_eq, exp_pos). rewrite Rmult_assoc, X. field. lra. }
  assert (Hx : (0 < e * exp a)%R) by (apply Rmult_lt_0_compat; [lra|apply exp_pos]).
  assert (Er : sqrt (e * (1 - e)) = (e * exp a)%R).
  { apply sqrt_lem_1; [apply Rmult_le_pos; lra|lra|]. replace (e * exp a * (e * exp a))%R with (e * e * (exp a * exp a))%R by ring. rewrite X. field. lra. }
  assert (EZ : Rsum W = (2 * sqrt (e * (1 - e)))%R) by (rewrite Esum, Ea, Er; ring).
  eexists. split; [exact E|]. split; [rewrite map_length; exact LW|]. split.
  { apply Forall_forall. intros w H. apply in_map_iff in H as (x & <- & H). rewrite Forall_forall in HW. apply Rdiv_lt_0_compat; auto. }
  split.
  { assert (G : forall s l, (s <> 0)%R -> Rsum (map (fun w => w / s)%R l) = (Rsum l / s)%R).
    { intros s l Hs. induction l; cbn; [field; auto|]. rewrite IHl. field. auto. }
    rewrite G by lra. field. lra. }
  intros d Hd. rewrite (nth_indep _ 0%R (0 / Rsum W)%R) by (rewrite map_length, LW; exact Hd).
  rewrite (map_nth (fun w => w / Rsum W)%R). rewrite <- VW by exact Hd. rewrite <- EZ. field. lra.
Qed.

(** ** All rounds *)
Lemma backing_app maj d c l l' : backing maj d c (l ++ l') = (backing maj d c l + backing maj d c l')%R.
Proof. induction l as [|[lv a] l IH]; cbn [app backing]; [lra|]. rewrite IH. lra. Qed.
Lemma Rprod_app l l' : Rprod (l ++ l') = (Rprod l * Rprod l')%R.
Proof. induction l as [|x l IH]; cbn [app Rprod]; [lra|]. rewrite IH. lra. Qed.
Lemma Rprod_pos l : Forall (fun x => (0 < x)%R) l -> (0 < Rprod l)%R.
Proof. induction 1; cbn [Rprod]; [lra|]. apply Rmult_lt_0_compat; auto. Qed.
Lemma backing_two maj d c c' l : c <> c' -> Forall (fun t => (0 <= snd t)%R) l ->
  (backing maj d c l + backing maj d c' l <= Rsum (map snd l))%R.
Proof.
  intros Hc. induction 1 as [|[lv a] l Ha H IH]; cbn [backing map snd Rsum] in *; [lra|].
  destruct (says_cat maj lv d =? c) eqn:E1; destruct (says_cat maj lv d =? c') eqn:E2; try lra.
  apply Nat.eqb_eq in E1, E2. congruence.
Qed.
Lemma Rsum_app l l' : Rsum (l ++ l') = (Rsum l + Rsum l')%R.
Proof. induction l; cbn; [lra|]. rewrite IHl. lra. Qed.
Lemma combine_snoc {A B} (l : list A) (l' : list B) a b : length l = length l' -> combine (l ++ [a]) (l' ++ [b]) = combine l l' ++ [(a, b)].
Proof. revert l'. induction l; intros [|x l'] H; try discriminate; cbn; auto. f_equal. apply IHl. cbn in H. lia. Qed.
Lemma snd_combine {A B} (l : list A) (l' : list B) : length l = length l' -> map snd (combine l l') = l'.
Proof. revert l'. induction l; intros [|x l'] H; try discriminate; cbn; auto. f_equal. apply IHl. cbn in H. lia. Qed.

(** The history of the rounds: the weights of the cases before round [j], the
    share of them the [j]th tree gets wrong, and the vote it is given for it. *)
Definition history data maj k rounds (alphas errs : list R) : Prop :=
  length alphas = length rounds /\ length errs = length rounds /\
  forall j, j < length rounds -> exists ws,
    ada_rounds data (repeat false (length data)) k (firstn j rounds) (NewAdaWeights XR (length data)) = Ok (exact ws, exact (firstn j alphas)) /\
    length ws = length data /\ Forall (fun w => (0 < w)%R) ws /\ Rsum ws = 1%R /\
    nth j errs 0%R = carried ws (misses data maj (nth j rounds [])) /\ nth j alphas 0%R = gain (nth j errs 0%R).

Lemma ada_rounds_snoc data missing k rounds leaves ws :
  ada_rounds data missing k (rounds ++ [leaves]) ws =
  let* (ws, trees) := ada_rounds data missing k rounds ws in
  let* (ws, w) := AdaBoost XR xlog xexp data missing k leaves ws in Ok (ws, trees ++ [w]).
Proof.
  unfold ada_rounds. rewrite foreach_app. destruct (foreach rounds _ _) as [[w' tr]| |]; cbn [bind foreach]; auto.
  destruct (AdaBoost XR xlog xexp data missing k leaves w') as [[w2 x]| |]; reflexivity.
Qed.

Definition trained (data : list nat) k maj (leaves : list (list nat)) : Prop :=
  whole data k leaves /\ majorities data maj leaves /\ misses data maj leaves <> [].

Lemma ada_history data k maj rounds : 0 < k -> data <> [] -> Forall (trained data k maj) rounds ->
  exists ws alphas errs, ada_rounds data (repeat false (length data)) k rounds (NewAdaWeights XR (length data)) = Ok (exact ws, exact alphas) /\
    length ws = length data /\ Forall (fun w => (0 < w)%R) ws /\ Rsum ws = 1%R /\
    history data maj k rounds alphas errs /\ Forall (fun e => (0 < e)%R) errs /\
    forall d, d < length data -> (nth d ws 0 * (INR (length data) * Rprod (map factor errs)) =
      exp (Rsum alphas - 2 * backing maj d (nth d data 0%nat) (combine rounds alphas)))%R.
Proof.
  intros Hk Hne. set (n := length data). assert (Hn : 0 < n) by (unfold n; destruct data; cbn; [congruence|lia]).
  assert (Hp : (0 < INR n)%R) by (apply lt_0_INR; auto).
  induction rounds as [|leaves rounds IH] using rev_ind; intros Hr.
  - exists (repeat (/ INR n)%R n), [], []. split.
    { unfold ada_rounds. cbn [foreach]. f_equal. f_equal. unfold NewAdaWeights, exact. cbn [ndiv nofZ XR]. rewrite <- INR_IZR_INZ. rewrite xdiv_some by lra.
      replace (1 / INR n)%R with (/ INR n)%R by lra. generalize (/ INR n)%R. generalize n. clear. induction n; intros; cbn; f_equal; auto. }
    rewrite repeat_length. split; [reflexivity|]. split.
    { apply Forall_forall. intros x H. apply repeat_spec in H. subst. apply Rinv_0_lt_compat, Hp. }
    split; [rewrite Rsum_repeat; field; lra|]. split; [split; [reflexivity|]; split; [reflexivity|]; intros j H; cbn in H; lia|]. split; [constructor|].
    intros d Hd. rewrite (nth_indep _ 0%R (/ INR n)%R) by (rewrite repeat_length; exact Hd). rewrite nth_repeat. cbn [map Rprod combine backing Rsum].
    replace (0 - 2 * 0)%R with 0%R by lra. rewrite exp_0. field. lra.
  - apply Forall_app in Hr as [Hr Hl]. apply Forall_cons_iff in Hl as [Hl _]. destruct Hl as (Hw & Hj & Hm).
    destruct (IH Hr) as (ws & alphas & errs & E & L & P & Sm & (La & Le & Hh) & Pe & V). clear IH.
    set (e := carried ws (misses data maj leaves)).
    assert (He : (0 < e)%R).
    { apply carried_pos; auto. apply Forall_forall. intros c H. unfold misses in H. apply in_flat_map in H as (cs & H1 & H2). apply filter_In in H2 as [H2 _].
      destruct Hw as [HP _]. assert (Hc : In c (concat leaves)) by (apply in_concat; eauto). apply (Permutation_in _ HP), in_seq in Hc. fold n in Hc. lia. }
    destruct (ada_step data k leaves ws maj) as (ws' & E' & L' & P' & S' & V'); auto.
    { destruct ws; [cbn in L; lia|discriminate]. }
    fold e in E', V'.
    exists ws', (alphas ++ [gain e]), (errs ++ [e]). split.
    { rewrite ada_rounds_snoc, E. cbn [bind]. fold n in E'. rewrite E'. cbn [bind]. unfold exact. rewrite map_app. reflexivity. }
    split; [lia|]. split; [exact P'|]. split; [exact S'|]. split.
    { split; [rewrite !app_length; cbn; lia|]. split; [rewrite !app_length; cbn; lia|]. intros j Hjl. rewrite app_length in Hjl. cbn in Hjl.
      rewrite !firstn_app. destruct (Nat.eq_dec j (length rounds)) as [->|Hn'].
      - replace (length rounds - length alphas) with 0 by lia. rewrite Nat.sub_diag. cbn [firstn]. rewrite !app_nil_r. rewrite firstn_all.
        rewrite firstn_all2 by lia. exists ws. split; [exact E|]. split; [exact L|]. split; [exact P|]. split; [exact Sm|].
        rewrite (app_nth2 errs), (app_nth2 alphas), (app_nth2 rounds) by lia.
        replace (length rounds - length errs) with 0 by lia. replace (length rounds - length alphas) with 0 by lia. rewrite Nat.sub_diag. cbn [nth]. auto.
      - destruct (Hh j ltac:(lia)) as (wj & H). replace (j - length rounds) with 0 by lia. replace (j - length alphas) with 0 by lia. cbn [firstn]. rewrite !app_nil_r.
        exists wj. rewrite (app_nth1 errs), (app_nth1 alphas), (app_nth1 rounds) by lia. exact H. }
    split; [apply Forall_app; split; auto|].
    intros d Hd. rewrite map_app, Rprod_app. cbn [map Rprod]. rewrite combine_snoc by (symmetry; exact La). rewrite backing_app, Rsum_app. cbn [backing Rsum].
    replace (nth d ws' 0 * (INR n * (Rprod (map factor errs) * (factor e * 1))))%R
      with (nth d ws' 0 * factor e * (INR n * Rprod (map factor errs)))%R by ring.
    rewrite V' by lia. 
    replace (nth d ws 0 * exp (if (says_cat maj leaves d =? nth d data 0)%nat then - gain e else gain e) * (INR n * Rprod (map factor errs)))%R
      with (nth d ws 0 * (INR n * Rprod (map factor errs)) * exp (if (says_cat maj leaves d =? nth d data 0)%nat then - gain e else gain e))%R by ring.
    rewrite V by exact Hd. rewrite <- exp_plus. f_equal. destruct (says_cat maj leaves d =? nth d data 0); lra.
Qed.

Lemma Rsum_filter_le (f : nat -> R) (p : nat -> bool) l : (forall d, In d l -> (0 <= f d)%R) -> (forall d, In d l -> p d = true -> (1 <= f d)%R) ->
  (INR (length (filter p l)) <= Rsum (map f l))%R.
Proof.
  induction l as [|d l IH]; intros H0 H1; cbn [filter map Rsum length]; [cbn; lra|].
  assert (IH' := IH (fun d H => H0 d (or_intror H)) (fun d H => H1 d (or_intror H))).
  destruct (p d) eqn:E.
  - cbn [length]. rewrite S_INR. specialize (H1 d (or_introl eq_refl) E). lra.
  - specialize (H0 d (or_introl eq_refl)). lra.
Qed.
Lemma Rsum_map_scale (f : nat -> R) x l : Rsum (map (fun d => f d * x)%R l) = (Rsum (map f l) * x)%R.
Proof. induction l; cbn; [lra|]. rewrite IHl. lra. Qed.
Lemma Rsum_seq ws : Rsum (map (fun d => nth d ws 0%R) (seq 0 (length ws))) = Rsum ws.
Proof. exact (carried_all ws). Qed.

(** Cases with a wrong category backed at least as much as the right one. *)
Lemma outvoted_few data k maj rounds alphas errs ws (p : nat -> bool) : data <> [] ->
  length ws = length data -> Rsum ws = 1%R -> history data maj k rounds alphas errs -> Forall (fun e => (0 < e)%R) errs ->
  (forall d, d < length data -> (nth d ws 0 * (INR (length data) * Rprod (map factor errs)) =
      exp (Rsum alphas - 2 * backing maj d (nth d data 0%nat) (combine rounds alphas)))%R) ->
  (forall d, d < length data -> p d = true -> exists c, c <> nth d data 0 /\
     (backing maj d (nth d data 0%nat) (combine rounds alphas) <= backing maj d c (combine rounds alphas))%R) ->
  (INR (length (filter p (seq 0 (length data)))) / INR (length data) <= Rprod (map factor errs))%R.
Proof.
  intros Hne L Sm Hh Pe V Hw.
  set (n := length data) in *. assert (Hn : 0 < n) by (unfold n; destruct data; cbn; [congruence|lia]). assert (Hp : (0 < INR n)%R) by (apply lt_0_INR; auto).
  set (B := Rprod (map factor errs)) in *.
  assert (Hpos : Forall (fun t => (0 <= snd t)%R) (combine rounds alphas)).
  { apply Forall_forall. intros [lv a] H. apply in_combine_r in H. cbn. destruct (In_nth _ _ 0%R H) as (j & Hj & <-). destruct Hh as (La & Le & Hh).
    destruct (Hh j ltac:(lia)) as (wj & _ & _ & _ & _ & _ & ->). apply gain_nonneg. rewrite Forall_forall in Pe. apply Pe, nth_In. lia. }
  apply Rmult_le_reg_r with (INR n); [exact Hp|]. unfold Rdiv. rewrite Rmult_assoc, Rinv_l, Rmult_1_r by lra.
  apply Rle_trans with (Rsum (map (fun d => nth d ws 0 * (INR n * B))%R (seq 0 n))).
  - apply Rsum_filter_le.
    + intros d Hd. apply in_seq in Hd. rewrite V by lia. left. apply exp_pos.
    + intros d Hd Hpd. apply in_seq in Hd. rewrite V by lia. destruct (Hw d ltac:(lia) Hpd) as (c & Hc & Ha).
      pose proof (backing_two maj d c (nth d data 0) _ Hc Hpos) as H2. rewrite snd_combine in H2 by (destruct Hh; lia).
      rewrite <- exp_0.
      assert (Hx : (0 <= Rsum alphas - 2 * backing maj d (nth d data 0%nat) (combine rounds alphas))%R) by lra.
      destruct Hx as [Hx|Hx]; [left; apply exp_increasing; exact Hx|right; rewrite <- Hx; reflexivity].
  - rewrite Rsum_map_scale. rewrite <- L, Rsum_seq, Sm, L. right. ring.
Qed.

(** The history is one. *)
Lemma exact_inj l l' : exact l = exact l' -> l = l'.
Proof.
  revert l'. induction l as [|x l IH]; intros [|y l'] H; try discriminate; auto. cbn in H. injection H as -> H. f_equal. apply IH, H.
Qed.
Lemma history_one data maj k rounds alphas errs alphas' errs' :
  history data maj k rounds alphas errs -> history data maj k rounds alphas' errs' -> alphas = alphas' /\ errs = errs'.
Proof.
  intros (L1 & L2 & H) (L1' & L2' & H').
  assert (G : forall j, j < length rounds -> nth j errs 0%R = nth j errs' 0%R /\ nth j alphas 0%R = nth j alphas' 0%R).
  { intros j Hj. destruct (H j Hj) as (ws & E & _ & _ & _ & -> & ->). destruct (H' j Hj) as (ws' & E' & _ & _ & _ & He' & ->).
    rewrite E in E'. injection E' as Ew _. apply exact_inj in Ew. subst ws'. rewrite He'. destruct (H j Hj) as (ws2 & E2 & _ & _ & _ & -> & _).
    rewrite E in E2. apply (f_equal (fun r => match r with Ok p => fst p | _ => [] end)) in E2. cbn in E2. apply exact_inj in E2. subst. auto. }
  split; (eapply nth_ext; [congruence|]); intros j Hj; apply G; lia.
Qed.

(** *** The ballot box *)
Lemma tally_some es : (forall k v, In (k, v) es -> v <> None) -> forall k0 v0,
  exists k v, tally_loop XR es k0 (Some v0) = (k, Some v) /\ (v0 <= v)%R /\ (forall k' r, In (k', Some r) es -> (r <= v)%R) /\
    ((k = k0 /\ v = v0) \/ In (k, Some v) es).
Proof.
  induction es as [|[k1 v1] es IH]; intros He k0 v0; cbn [tally_loop].
  - exists k0, v0. split; [reflexivity|]. split; [lra|]. split; [intros ? ? []|auto].
  - destruct v1 as [r1|]; [|exfalso; eapply He; [left; reflexivity|reflexivity]].
    assert (He' : forall k v, In (k, v) es -> v <> None) by (intros k v H; eapply He; right; exact H).
    cbn [nltb XR xcmp]. unfold Rltb. destruct (Rlt_dec v0 r1) as [H|H].
    + destruct (IH He' k1 r1) as (k & v & E & H1 & H2 & H3). exists k, v. split; [exact E|]. split; [lra|]. split.
      * intros k' r [E1|E1]; [injection E1 as _ <-; lra|eauto].
      * right. destruct H3 as [[-> ->]|H3]; [left; reflexivity|right; exact H3].
    + destruct (IH He' k0 v0) as (k & v & E & H1 & H2 & H3). exists k, v. split; [exact E|]. split; [lra|]. split.
      * intros k' r [E1|E1]; [injection E1 as _ <-; lra|eauto].
      * destruct H3 as [H3|H3]; [left; exact H3|right; right; exact H3].
Qed.

Lemma tally_exact (bb : catBox XR) votes i b iter (t : string -> R) :
  ballot_ok XR (cbMap bb) votes i b -> Permutation iter b -> (forall name, total_for XR i name votes = Some (t name)) ->
  exists ans, catTally XR bb iter = Ok ans /\
    ((ans = "NA"%string /\ forall name, (t name <= 0)%R) \/ ((0 < t ans)%R /\ forall name, (t name <= t ans)%R)).
Proof.
  intros [H1 H2 H3] Hp Ht.
  assert (Hin : forall k v, In (k, v) iter <-> In (k, v) b) by (intros; split; apply Permutation_in; auto; symmetry; auto).
  assert (Hno : forall name, weights_for XR i name votes = [] -> t name = 0%R).
  { intros name E. specialize (Ht name). unfold total_for in Ht. rewrite E in Ht. cbn in Ht. injection Ht as <-. reflexivity. }
  assert (Hs : forall k v, In (k, v) iter -> v <> None).
  { intros k v H. apply Hin in H. destruct (H2 _ _ H) as (name & _ & -> & _). rewrite Ht. discriminate. }
  unfold catTally. change (nofZ XR 0) with (Some 0%R). destruct (tally_some iter Hs 0 0%R) as (k & v & E & V0 & Vm & Vin). rewrite E. cbn [nltb XR xcmp]. unfold Rltb.
  assert (Hall : forall name, (t name <= v)%R).
  { intros name. destruct (weights_for XR i name votes) eqn:Ew; [rewrite (Hno _ Ew); exact V0|].
    destruct (H3 name) as (k' & v' & Hi & Hk); [congruence|]. destruct (H2 _ _ Hi) as (name' & Hk' & -> & _). assert (name' = name) by congruence. subst name'.
    apply Hin in Hi. rewrite Ht in Hi. eapply Vm, Hi. }
  destruct (Rlt_dec 0 v) as [Hv|Hv].
  - destruct Vin as [[_ ->]|Vin]; [lra|]. apply Hin in Vin. destruct (H2 _ _ Vin) as (name & Hk & Ev & _). rewrite Ht in Ev. injection Ev as Ev.
    rewrite (get_nth _ _ Hk). exists name. split; [reflexivity|]. right. rewrite <- Ev. split; [exact Hv|exact Hall].
  - exists "NA"%string. split; [reflexivity|]. left. split; [reflexivity|]. intros name. specialize (Hall name). lra.
Qed.

(** Every tree votes, with its weight, for its category of every case. *)
Definition forest_ballots (n : nat) (names : list string) (maj : list nat -> nat) (trees : list (list (list nat) * R)) : list (vote XR) :=
  flat_map (fun '(leaves, a) => map (fun d => (d, nth (says_cat maj leaves d) names ""%string, Some a)) (seq 0 n)) trees.

Lemma weights_one (f : nat -> string) (a : XR) i name len : forall s,
  weights_for XR i name (map (fun d => (d, f d, a)) (seq s len)) = if (s <=? i) && (i <? s + len) && String.eqb (f i) name then [a] else [].
Proof.
  induction len as [|len IH]; intros s; cbn [seq map].
  - destruct (s <=? i) eqn:E1; destruct (i <? s + 0) eqn:E2; cbn; auto. apply Nat.leb_le in E1. apply Nat.ltb_lt in E2. lia.
  - change (weights_for XR i name ((s, f s, a) :: map (fun d => (d, f d, a)) (seq (S s) len))) with
      ((if (s =? i) && String.eqb (f s) name then [a] else []) ++ weights_for XR i name (map (fun d => (d, f d, a)) (seq (S s) len))).
    rewrite IH. destruct (Nat.eqb_spec s i) as [->|Hn]; cbn [andb].
    + replace (S i <=? i) with false by (symmetry; apply Nat.leb_gt; lia). replace (i <=? i) with true by (symmetry; apply Nat.leb_le; lia).
      replace (i <? i + S len) with true by (symmetry; apply Nat.ltb_lt; lia). cbn [andb]. apply app_nil_r.
    + cbn [app]. replace (S s <=? i) with (s <=? i) by (apply eq_true_iff_eq; rewrite !Nat.leb_le; lia).
      replace (i <? S s + len) with (i <? s + S len) by (apply eq_true_iff_eq; rewrite !Nat.ltb_lt; lia). reflexivity.
Qed.

Lemma total_backing n names maj trees i name c : i < n ->
  (forall lv a, In (lv, a) trees -> (String.eqb (nth (says_cat maj lv i) names ""%string) name = (says_cat maj lv i =? c))) ->
  total_for XR i name (forest_ballots n names maj trees) = Some (backing maj i c trees).
Proof.
  intros Hi Hc. unfold total_for.
  enough (G : forall x, fold_left (nadd XR) (weights_for XR i name (forest_ballots n names maj trees)) (Some x) = Some (x + backing maj i c trees)%R).
  { change (nofZ XR 0) with (Some 0%R). rewrite G. f_equal. lra. }
  induction trees as [|[lv a] trees IH]; intros x; [cbn; f_equal; lra|].
  assert (E : weights_for XR i name (forest_ballots n names maj ((lv, a) :: trees)) =
    (if says_cat maj lv i =? c then [Some a] else []) ++ weights_for XR i name (forest_ballots n names maj trees)).
  { change (forest_ballots n names maj ((lv, a) :: trees)) with
      (map (fun d => (d, nth (says_cat maj lv d) names ""%string, Some a : XR)) (seq 0 n) ++ forest_ballots n names maj trees).
    rewrite weights_for_app. f_equal.
    rewrite (weights_one (fun d => nth (says_cat maj lv d) names ""%string) (Some a) i name n 0).
    replace (i <? 0 + n) with true by (symmetry; apply Nat.ltb_lt; lia). cbn [Nat.leb andb]. rewrite (Hc lv a) by (left; reflexivity). reflexivity. }
  rewrite E, fold_left_app. cbn [backing].
  assert (IH' := IH (fun lv a H => Hc lv a (or_intror H))).
  destruct (says_cat maj lv i =? c); cbn [fold_left].
  - change (nadd XR (Some x) (Some a)) with (Some (x + a)%R). rewrite IH'. f_equal. lra.
  - rewrite IH'. f_equal. lra.
Qed.

Lemma says_named data k maj leaves d : whole data k leaves -> majorities data maj leaves -> d < length data -> says_cat maj leaves d < k.
Proof.
  intros [HP Hl] Hm Hd. unfold says_cat. destruct (find (fun cs => mem d cs) leaves) as [cs|] eqn:E.
  - apply find_some in E as [Hc Hd']. apply mem_In in Hd'. unfold majorities in Hm. rewrite Forall_forall in Hm, Hl. specialize (Hm cs Hc). specialize (Hl cs Hc).
    destruct (Hm (nth d data 0)) as [H _]. assert (H0 : In (nth d data 0) (labels data cs)) by (apply in_map_iff; eauto).
    apply (count_occ_In Nat.eq_dec) in H0. assert (H1 : In (maj cs) (labels data cs)) by (apply (count_occ_In Nat.eq_dec); lia).
    apply in_map_iff in H1 as (x & <- & Hx). unfold labelled in Hl. rewrite Forall_forall in Hl. apply Hl in Hx. tauto.
  - exfalso. assert (Hi : In d (concat leaves)) by (eapply Permutation_in; [symmetry; exact HP|apply in_seq; lia]).
    apply in_concat in Hi as (cs & H1 & H2). pose proof (find_none _ _ E cs H1) as H. cbn in H. apply mem_false in H. contradiction.
Qed.

(** ** Theorems *)

(** The share of the training cases an adaptively boosted forest gets wrong is
    at most the product, over its trees, of twice the square root of the error
    times its complement: every answer backed by the most weight, however ties fall. *)
Theorem C141_training_error_partial : forall data k maj rounds, 0 < k -> data <> [] -> Forall (trained data k maj) rounds ->
  exists ws alphas errs,
    ada_rounds data (repeat false (length data)) k rounds (NewAdaWeights XR (length data)) = Ok (exact ws, exact alphas) /\
    history data maj k rounds alphas errs /\
    forall answer,
      (forall d c, d < length data -> (backing maj d c (combine rounds alphas) <= backing maj d (answer d) (combine rounds alphas))%R) ->
      (INR (length (wrong data answer)) / INR (length data) <= Rprod (map factor errs))%R.
Proof.
  intros data k maj rounds Hk Hne Hr. destruct (ada_history data k maj rounds Hk Hne Hr) as (ws & alphas & errs & E & L & P & Sm & Hh & Pe & V).
  exists ws, alphas, errs. split; [exact E|]. split; [exact Hh|]. intros answer Ha. unfold wrong.
  apply (outvoted_few data k maj rounds alphas errs ws); auto. intros d Hd Hw. apply negb_true_iff, Nat.eqb_neq in Hw. exists (answer d). auto.
Qed.

(** The same of the answers the ballot box gives when the trees vote with their
    weights, in whatever order its maps are read; "NA" counts as wrong. *)
Theorem C141_ballot_box_partial : forall data names maj rounds alphas errs iters,
  data <> [] -> NoDup names -> names <> [] -> Forall (trained data (length names) maj) rounds ->
  history data maj (length names) rounds alphas errs ->
  exists bb, cast XR (forest_ballots (length data) names maj (combine rounds alphas)) (NewCatBallotBox XR (length data)) = Ok bb /\
    ((forall i, i < length data -> Permutation (iters i) (nth i (cbBox bb) [])) ->
     exists answers, (forall i, i < length data -> catTally XR bb (iters i) = Ok (answers i)) /\
       (INR (length (filter (fun i => negb (String.eqb (answers i) (nth (nth i data 0%nat) names ""%string))) (seq 0 (length data)))) / INR (length data)
          <= Rprod (map factor errs))%R).
Proof.
  intros data names maj rounds alphas errs iters Hne Hnd Hnn Hr Hh. set (k := length names). assert (Hk : 0 < k) by (unfold k; destruct names; cbn; [congruence|lia]).
  destruct (ada_history data k maj rounds Hk Hne Hr) as (ws & alphas' & errs' & E & L & P & Sm & Hh' & Pe & V).
  destruct (history_one _ _ _ _ _ _ _ _ Hh Hh') as [<- <-]. clear Hh'.
  set (trees := combine rounds alphas) in *.
  destruct (cast_ok XR (length data) (forest_ballots (length data) names maj trees)) as (bb & Eb & _ & Lb & Hb).
  { apply Forall_forall. intros [[c p] w] H. unfold forest_ballots in H. apply in_flat_map in H as ((lv & a) & _ & H). apply in_map_iff in H as (d & Ed & H).
    injection Ed as <- _ _. apply in_seq in H. lia. }
  exists bb. split; [exact Eb|]. intros Hit.
  assert (Htr : forall lv a, In (lv, a) trees -> trained data k maj lv).
  { intros lv a H. apply in_combine_l in H. rewrite Forall_forall in Hr. auto. }
  set (t := fun i name => match find (fun c => String.eqb (nth c names ""%string) name) (seq 0 k) with Some c => backing maj i c trees | None => backing maj i k trees end).
  assert (Ht : forall i, i < length data -> forall name, total_for XR i name (forest_ballots (length data) names maj trees) = Some (t i name)).
  { intros i Hi name. unfold t. destruct (find _ (seq 0 k)) as [c|] eqn:Ef.
    - apply find_some in Ef as [Hc En]. apply in_seq in Hc. apply String.eqb_eq in En. apply total_backing; auto. intros lv a H.
      destruct (Htr lv a H) as (Hw & Hm & _). pose proof (says_named data k maj lv i Hw Hm Hi) as Hs. subst name.
      destruct (says_cat maj lv i =? c) eqn:Ec; [apply Nat.eqb_eq in Ec; rewrite Ec; apply String.eqb_refl|].
      apply String.eqb_neq. intros Heq. apply Nat.eqb_neq in Ec. apply Ec. apply (proj1 (NoDup_nth names ""%string) Hnd); auto. unfold k in Hc. lia.
    - apply total_backing; auto. intros lv a H. destruct (Htr lv a H) as (Hw & Hm & _). pose proof (says_named data k maj lv i Hw Hm Hi) as Hs.
      pose proof (find_none _ _ Ef (says_cat maj lv i) ltac:(apply in_seq; lia)) as Hf. cbn in Hf. rewrite Hf. symmetry. apply Nat.eqb_neq. lia. }
  assert (Hex : forall i, exists ans, i < length data -> catTally XR bb (iters i) = Ok ans /\
    ((ans = "NA"%string /\ forall name, (t i name <= 0)%R) \/ ((0 < t i ans)%R /\ forall name, (t i name <= t i ans)%R))).
  { intros i. destruct (lt_dec i (length data)) as [Hi|Hi]; [|exists ""%string; intros; lia].
    destruct (tally_exact bb (forest_ballots (length data) names maj trees) i (nth i (cbBox bb) []) (iters i) (t i)) as (ans & Ea & Ha).
    - apply Hb. apply nth_error_nth'. lia.
    - apply Hit, Hi.
    - intros name. apply Ht, Hi.
    - exists ans. auto. }
  assert (Hex' : exists answers, forall i, i < length data -> catTally XR bb (iters i) = Ok (answers i) /\
    ((answers i = "NA"%string /\ forall name, (t i name <= 0)%R) \/ ((0 < t i (answers i))%R /\ forall name, (t i name <= t i (answers i))%R))).
  { clear - Hex. generalize (length data) as n, Hex. clear Hex. intros n Hex.
    assert (G : forall m, exists l, length l = m /\ forall i, i < m -> i < n -> catTally XR bb (iters i) = Ok (nth i l ""%string) /\
      ((nth i l ""%string = "NA"%string /\ forall name, (t i name <= 0)%R) \/ ((0 < t i (nth i l ""%string))%R /\ forall name, (t i name <= t i (nth i l ""%string))%R))).
    { induction m as [|m (l & Ll & Hl)]; [exists []; split; [reflexivity|intros; lia]|]. destruct (Hex m) as (ans & Ha). exists (l ++ [ans]).
      split; [rewrite app_length; cbn; lia|]. intros i H1 H2. destruct (Nat.eq_dec i m) as [->|Hn].
      - rewrite app_nth2, Ll, Nat.sub_diag by lia. cbn [nth]. auto.
      - rewrite app_nth1 by lia. apply Hl; lia. }
    destruct (G n) as (l & _ & H). exists (fun i => nth i l ""%string). intros i Hi. apply H; auto. }
  destruct Hex' as (answers & Ha). exists answers. split; [intros i Hi; apply Ha, Hi|].
  assert (Tname : forall i c, i < length data -> c < k -> t i (nth c names ""%string) = backing maj i c trees).
  { intros i c Hi Hc. unfold t. destruct (find _ (seq 0 k)) as [c'|] eqn:Ef.
    - apply find_some in Ef as [Hc' En]. apply in_seq in Hc'. apply String.eqb_eq in En. replace c' with c; [reflexivity|].
      symmetry. apply (proj1 (NoDup_nth names ""%string) Hnd); unfold k in *; auto; lia.
    - pose proof (find_none _ _ Ef c ltac:(apply in_seq; lia)) as Hf. cbn in Hf. rewrite String.eqb_refl in Hf. discriminate. }
  assert (Hlab : forall i, i < length data -> trees <> [] -> nth i data 0 < k).
  { intros i Hi Hne'. destruct trees as [|[lv a] tr] eqn:Et; [congruence|]. destruct (Htr lv a (or_introl eq_refl)) as ([HP Hl] & _ & _).
    assert (Hin : In i (concat lv)) by (eapply Permutation_in; [symmetry; exact HP|apply in_seq; lia]). apply in_concat in Hin as (cs & H1 & H2).
    rewrite Forall_forall in Hl. specialize (Hl cs H1). unfold labelled in Hl. rewrite Forall_forall in Hl. apply Hl in H2. tauto. }
  assert (Hpos : forall d c, (0 <= backing maj d c trees)%R).
  { intros d c. assert (Hp : Forall (fun t => (0 <= snd t)%R) trees).
    { apply Forall_forall. intros [lv a] H. apply in_combine_r in H. cbn. destruct (In_nth _ _ 0%R H) as (j & Hj & <-). destruct Hh as (La & Le & Hh).
      destruct (Hh j ltac:(lia)) as (wj & _ & _ & _ & _ & _ & ->). apply gain_nonneg. rewrite Forall_forall in Pe. apply Pe, nth_In. lia. }
    clear - Hp. induction Hp as [|[lv a] tr Hx Hp IH]; cbn [backing snd] in *; [lra|]. destruct (says_cat maj lv d =? c); lra. }
  apply (outvoted_few data k maj rounds alphas errs ws); auto. fold trees. intros d Hd Hw. apply negb_true_iff, String.eqb_neq in Hw.
  assert (Hd0 : trees = [] \/ trees <> []) by (destruct trees; [left; reflexivity|right; discriminate]). destruct Hd0 as [Et|Et].
  { exists (S (nth d data 0)). split; [lia|]. rewrite Et. cbn. lra. }
  assert (Hld : nth d data 0 < k) by (apply Hlab; assumption).
  destruct (Ha d Hd) as [_ [[_ Hz]|[Hz Hm]]].
  - exists (S (nth d data 0)). split; [lia|]. rewrite <- (Tname d _ Hd Hld). apply Rle_trans with 0%R; [apply Hz|apply Hpos].
  - unfold t in Hz, Hm at 2. specialize (Hm (nth (nth d data 0) names ""%string)). rewrite (Tname d _ Hd Hld) in Hm. unfold t in Hm.
    destruct (find _ (seq 0 k)) as [c|] eqn:Ef.
    + apply find_some in Ef as [Hc En]. apply String.eqb_eq in En. exists c. split; [|exact Hm]. intros ->. congruence.
    + exists k. split; [lia|exact Hm].
Qed.

(** Trees that beat chance by [g] or more: the share wrong falls off exponentially
    with the number of trees, down to no wrong case at all. *)
Theorem C141_exponential_partial : forall data k maj rounds alphas errs g answer, 0 < k -> data <> [] -> Forall (trained data k maj) rounds ->
  history data maj k rounds alphas errs -> (0 <= g)%R -> Forall (fun e => (e <= / 2 - g)%R) errs ->
  (forall d c, d < length data -> (backing maj d c (combine rounds alphas) <= backing maj d (answer d) (combine rounds alphas))%R) ->
  (INR (length (wrong data answer)) <= INR (length data) * exp (- (2 * g * g * INR (length rounds))))%R /\
  ((INR (length data) * exp (- (2 * g * g * INR (length rounds))) < 1)%R -> forall d, d < length data -> answer d = nth d data 0).
Proof.
  intros data k maj rounds alphas errs g answer Hk Hne Hr Hh Hg He Ha.
  destruct (C141_training_error_partial data k maj rounds Hk Hne Hr) as (ws & alphas' & errs' & E & Hh' & H).
  destruct (history_one _ _ _ _ _ _ _ _ Hh Hh') as [<- <-]. specialize (H answer Ha). destruct (ada_history data k maj rounds Hk Hne Hr) as (_ & al & er & _ & _ & _ & _ & Hh2 & Pe & _).
  destruct (history_one _ _ _ _ _ _ _ _ Hh Hh2) as [<- <-].
  assert (Hp : (0 < INR (length data))%R) by (apply lt_0_INR; destruct data; cbn; [congruence|lia]).
  assert (Hf : forall e, (0 < e)%R -> (e <= / 2 - g)%R -> (factor e <= exp (- (2 * g * g)))%R).
  { intros e He0 He1. unfold factor. destruct (Rlt_dec e (/ 2)) as [Hh1|Hh1].
    - assert (Hs : (sqrt (e * (1 - e)) <= exp (- (2 * g * g)) / 2)%R).
      { rewrite <- (sqrt_square (exp (- (2 * g * g)) / 2)) by (pose proof (exp_pos (- (2 * g * g))); lra). apply sqrt_le_1_alt.
        replace (exp (- (2 * g * g)) / 2 * (exp (- (2 * g * g)) / 2))%R with (exp (- (2 * g * g)) * exp (- (2 * g * g)) / 4)%R by field.
        rewrite <- exp_plus. replace (- (2 * g * g) + - (2 * g * g))%R with (- (4 * g * g))%R by ring.
        pose proof (exp_ineq1_le (- (4 * g * g))) as Hx.
        assert (g * g <= (/ 2 - e) * (/ 2 - e))%R by (apply Rmult_le_compat; lra). nra. }
      lra.
    - replace g with 0%R by lra. replace (- (2 * 0 * 0))%R with 0%R by ring. rewrite exp_0. lra. }
  assert (HP : (Rprod (map factor errs) <= exp (- (2 * g * g * INR (length errs))))%R).
  { clear - He Pe Hf. induction errs as [|e errs IH]; cbn [map Rprod]; [cbn [length INR]; rewrite Rmult_0_r, Ropp_0, exp_0; lra|].
    apply Forall_cons_iff in He as [H1 H2], Pe as [P1 P2]. cbn [length]. rewrite S_INR.
    replace (- (2 * g * g * (INR (length errs) + 1)))%R with (- (2 * g * g) + - (2 * g * g * INR (length errs)))%R by ring. rewrite exp_plus.
    apply Rmult_le_compat; auto; [left; apply factor_pos, P1|]. left. apply Rprod_pos. apply Forall_forall. intros x Hx. apply in_map_iff in Hx as (y & <- & Hy).
    apply factor_pos. rewrite Forall_forall in P2. auto. }
  assert (Hlen : length errs = length rounds) by (destruct Hh as (_ & H1 & _); exact H1). rewrite Hlen in HP.
  assert (Hb : (INR (length (wrong data answer)) <= INR (length data) * exp (- (2 * g * g * INR (length rounds))))%R).
  { apply Rle_trans with (INR (length data) * (INR (length (wrong data answer)) / INR (length data)))%R; [right; field; lra|]. apply Rmult_le_compat_l; lra. }
  split; [exact Hb|]. intros Hsmall d Hd.
  assert (Hz : length (wrong data answer) = 0).
  { destruct (length (wrong data answer)) as [|m] eqn:El; [reflexivity|]. rewrite S_INR in Hb. pose proof (pos_INR m). lra. }
  destruct (Nat.eq_dec (answer d) (nth d data 0)) as [H0|H0]; [exact H0|]. exfalso. apply length_zero_iff_nil in Hz.
  assert (Hin : In d (wrong data answer)) by (unfold wrong; apply filter_In; split; [apply in_seq; lia|apply negb_true_iff, Nat.eqb_neq, H0]). rewrite Hz in Hin. destruct Hin.
Qed.

(** The bound is about the majorities Boost counts.  A tree says what its sample
    says: with a sample that drew one odd case over and over, the tree is weighted
    as almost perfect and is wrong about all cases but one. *)
Definition odd_one (n : nat) : list nat := repeat 0 n ++ [1].
Theorem C141_sampled_tree_refuted : forall n, 5 <= n ->
  let data := odd_one n in let leaves := [seq 0 (S n)] in let sample := repeat n (S n) in
  exists ws e, AdaBoost XR xlog xexp data (repeat false (S n)) 2 leaves (NewAdaWeights XR (S n)) = Ok (exact ws, Some (gain e)) /\
    trained data 2 (fun _ => 0) leaves /\ history data (fun _ => 0) 2 [leaves] [gain e] [e] /\ (0 < gain e)%R /\
    Forall (fun c => c < S n) sample /\ is_mode 1 (labels data sample) /\
    (Rprod (map factor [e]) < INR (length (wrong data (fun _ => 1%nat))) / INR (S n))%R.
Proof.
  intros n Hn data leaves sample.
  assert (Ld : length data = S n) by (unfold data, odd_one; rewrite app_length, repeat_length; cbn; lia).
  assert (Nd : forall d, d < n -> nth d data 0 = 0).
  { intros d Hd. unfold data, odd_one. rewrite app_nth1 by (rewrite repeat_length; exact Hd). apply nth_repeat. }
  assert (Nn : nth n data 0 = 1).
  { unfold data, odd_one. rewrite app_nth2 by (rewrite repeat_length; lia). rewrite repeat_length, Nat.sub_diag. reflexivity. }
  assert (Fz : forall m, m <= n -> filter (fun c => negb (nth c data 0 =? 0)) (seq 0 m) = []).
  { induction m as [|m IH]; intros Hm; [reflexivity|]. rewrite seq_S, filter_app, IH by lia. cbn [plus filter app]. rewrite Nd by lia. reflexivity. }
  assert (Hm : misses data (fun _ => 0) leaves = [n]).
  { unfold misses, leaves. cbn [flat_map]. rewrite app_nil_r, seq_S, filter_app, Fz by lia. cbn [plus filter app]. rewrite Nn. reflexivity. }
  assert (Hlab : labels data (seq 0 (S n)) = data).
  { unfold labels. apply nth_ext with (d := 0) (d' := 0); [rewrite map_length, seq_length; lia|]. intros d Hd. rewrite map_length, seq_length in Hd.
    rewrite (nth_indep _ 0 (nth 0 data 0)) by (rewrite map_length, seq_length; lia). rewrite (map_nth (fun i => nth i data 0)), seq_nth by lia. reflexivity. }
  assert (C0 : count_occ Nat.eq_dec data 0 = n).
  { unfold data, odd_one. rewrite count_occ_app. rewrite count_occ_repeat_eq by reflexivity. cbn. lia. }
  assert (Htr : trained data 2 (fun _ => 0) leaves).
  { split; [split|split].
    - unfold leaves. cbn [concat]. rewrite app_nil_r, Ld. reflexivity.
    - constructor; [|constructor]. apply Forall_forall. intros i Hi. apply in_seq in Hi. split; [lia|]. destruct (Nat.eq_dec i n) as [->|H]; [rewrite Nn; lia|rewrite Nd by lia; lia].
    - constructor; [|constructor]. rewrite Hlab. intros j. split; [|lia]. rewrite C0.
      destruct (Nat.eq_dec j 0) as [->|Hj]; [rewrite C0; lia|]. unfold data, odd_one. rewrite count_occ_app. rewrite count_occ_repeat_neq by auto.
      cbn [count_occ]. destruct (Nat.eq_dec 1 j); lia.
    - rewrite Hm. discriminate. }
  assert (Hne : data <> []) by (intros H; rewrite H in Ld; discriminate).
  assert (Hp : (0 < INR (S n))%R) by (apply lt_0_INR; lia).
  assert (E0 : NewAdaWeights XR (S n) = exact (repeat (/ INR (S n))%R (S n))).
  { unfold NewAdaWeights, exact. cbn [ndiv nofZ XR]. rewrite <- INR_IZR_INZ. rewrite xdiv_some by lra.
    replace (1 / INR (S n))%R with (/ INR (S n))%R by lra. generalize (/ INR (S n))%R. generalize (S n). clear. induction n; intros; cbn; f_equal; auto. }
  destruct (ada_history data 2 (fun _ => 0) [leaves] ltac:(lia) Hne ltac:(constructor; [exact Htr|constructor])) as (ws & alphas & errs & E & L & P & Sm & Hh & Pe & _).
  pose proof Hh as (La & Le & Hj). destruct (Hj 0 ltac:(cbn; lia)) as (w0 & Ew & Lw & _ & _ & He & Hal). cbn [firstn] in Ew.
  rewrite Ld in *. unfold ada_rounds in Ew. cbn [foreach] in Ew.
  assert (Ew0 : w0 = repeat (/ INR (S n))%R (S n)).
  { apply exact_inj. rewrite <- E0. apply (f_equal (fun r => match r with Ok p => fst p | _ => [] end)) in Ew. cbn in Ew. symmetry. exact Ew. }
  destruct errs as [|e [|? ?]]; try discriminate. destruct alphas as [|a [|? ?]]; try discriminate. cbn [nth] in He, Hal. subst a.
  rewrite Hm, Ew0 in He. unfold carried in He. cbn [map Rsum] in He.
  rewrite (nth_indep _ 0%R (/ INR (S n))%R) in He by (rewrite repeat_length; lia). rewrite nth_repeat, Rplus_0_r in He.
  assert (Hs6 : (6 <= INR (S n))%R) by (replace 6%R with (INR 6) by (cbn; lra); apply le_INR; lia).
  assert (He2 : (e < / 2)%R) by (rewrite He; apply Rinv_lt_contravar; [apply Rmult_lt_0_compat; lra|lra]).
  assert (He0 : (0 < e)%R) by (rewrite He; apply Rinv_0_lt_compat, Hp).
  exists ws, e. split.
  { unfold ada_rounds in E. cbn [foreach] in E. destruct (AdaBoost XR xlog xexp data (repeat false (S n)) 2 leaves (NewAdaWeights XR (S n))) as [[w x]| |]; try discriminate.
    cbn [bind app] in E. injection E as -> ->. reflexivity. }
  split; [exact Htr|]. split; [exact Hh|]. split.
  { unfold gain. destruct (Rlt_dec e (/ 2)); [|contradiction]. unfold tree_weight. apply Rmult_lt_0_compat; [lra|]. rewrite <- ln_1. apply ln_increasing; [lra|].
    apply Rmult_lt_reg_r with e; [lra|]. unfold Rdiv. rewrite Rmult_assoc, Rinv_l by lra. lra. }
  split; [apply Forall_forall; intros c Hc; apply repeat_spec in Hc; lia|]. split.
  { assert (El : labels data sample = repeat 1 (S n)).
    { unfold labels, sample. generalize (S n). intros m. induction m; cbn; [reflexivity|]. rewrite Nn, IHm. reflexivity. }
    assert (C1 : count_occ Nat.eq_dec (repeat 1 (S n)) 1 = S n) by (apply count_occ_repeat_eq; reflexivity).
    rewrite El. intros j. rewrite C1. destruct (Nat.eq_dec 1 j) as [<-|Hj']; [rewrite C1; lia|].
    assert (C2 : count_occ Nat.eq_dec (repeat 1 (S n)) j = 0) by (apply count_occ_repeat_neq; auto). rewrite C2. lia. }
  assert (Ew1 : length (wrong data (fun _ => 1)) = n).
  { unfold wrong. rewrite Ld, seq_S, filter_app. cbn [plus filter]. rewrite Nn. cbn [Nat.eqb negb]. rewrite app_nil_r.
    assert (G : forall m, m <= n -> filter (fun d => negb (1 =? nth d data 0)) (seq 0 m) = seq 0 m).
    { induction m as [|m IH]; intros Hm'; [reflexivity|]. rewrite seq_S, filter_app, IH by lia. cbn [plus filter]. rewrite Nd by lia. reflexivity. }
    rewrite G by lia. apply seq_length. }
  rewrite Ew1. cbn [map Rprod]. rewrite Rmult_1_r. unfold factor. destruct (Rlt_dec e (/ 2)); [|contradiction].
  assert (En : (INR n = INR (S n) - 1)%R) by (rewrite S_INR; lra).
  replace (INR n / INR (S n))%R with (1 - e)%R by (rewrite En, He; field; lra).
  assert (He6 : (e <= / 6)%R) by (rewrite He; apply Rinv_le_contravar; lra).
  assert (Hs : (sqrt (e * (1 - e)) < (1 - e) / 2)%R).
  { rewrite <- (sqrt_square ((1 - e) / 2)) by lra. apply sqrt_lt_1; nra. }
  lra.
Qed.

(** ** Examples *)
(** Six cases, two categories, two stumps that are wrong about different cases. *)
Definition ab_data : list nat := [0; 0; 0; 1; 1; 1].
Definition ab_maj (cs : list nat) : nat := match cs with [0; 1] => 0 | [0; 1; 2; 3] => 0 | _ => 1 end.
Example C141_trained : Forall (trained ab_data 2 ab_maj) [[[0; 1]; [2; 3; 4; 5]]; [[0; 1; 2; 3]; [4; 5]]].
Proof.
  assert (M : forall a l, a <= 1 -> Forall (fun x => x <= 1) l -> count_occ Nat.eq_dec l (1 - a) < count_occ Nat.eq_dec l a -> is_mode a l).
  { intros a l Ha Hl H j. destruct (le_lt_dec j 1) as [Hj|Hj].
    - assert (j = a \/ j = 1 - a) as [-> | ->] by lia; lia.
    - replace (count_occ Nat.eq_dec l j) with 0; [lia|]. symmetry. apply count_occ_not_In. intros Hi. rewrite Forall_forall in Hl. apply Hl in Hi. lia. }
  repeat match goal with |- Forall _ _ => constructor end;
    (split; [split; [cbn; reflexivity|repeat constructor; cbn; lia]|split; [|cbn; discriminate]]);
    repeat match goal with |- majorities _ _ _ => unfold majorities | |- Forall _ (_ :: _) => constructor | |- Forall _ [] => constructor end;
    (apply M; [cbn; lia|cbn; repeat constructor|cbn; lia]).
Qed.
Example C141_bound_example : exists ws alphas errs,
  ada_rounds ab_data (repeat false 6) 2 [[[0; 1]; [2; 3; 4; 5]]; [[0; 1; 2; 3]; [4; 5]]] (NewAdaWeights XR 6) = Ok (exact ws, exact alphas) /\
  nth 0 errs 0%R = (/ 6)%R /\ (factor (/ 6) < 1)%R /\ nth 0 alphas 0%R = tree_weight (/ 6).
Proof.
  destruct (ada_history ab_data 2 ab_maj _ ltac:(lia) ltac:(discriminate) C141_trained) as (ws & alphas & errs & E & _ & _ & _ & Hh & _ & _).
  exists ws, alphas, errs. split; [exact E|]. destruct Hh as (_ & _ & Hh). destruct (Hh 0 ltac:(cbn; lia)) as (w0 & Ew & _ & _ & _ & He & Ha).
  unfold ada_rounds in Ew. cbn [firstn foreach] in Ew. apply (f_equal (fun r => match r with Ok p => fst p | _ => [] end)) in Ew. cbn [fst] in Ew.
  assert (E0 : NewAdaWeights XR 6 = exact (repeat (/ 6)%R 6)).
  { unfold NewAdaWeights, exact. cbn [ndiv nofZ XR]. rewrite xdiv_some by (cbn; lra). cbn. repeat f_equal; lra. }
  cbn [length ab_data] in Ew. rewrite E0 in Ew. apply exact_inj in Ew. subst w0. cbn in He. rewrite Rplus_0_r in He.
  rewrite He in Ha. split; [exact He|]. split.
  - unfold factor. destruct (Rlt_dec (/ 6) (/ 2)); [|lra]. assert (sqrt (/ 6 * (1 - / 6)) < / 2)%R; [|lra].
    rewrite <- (sqrt_square (/ 2)) by lra. apply sqrt_lt_1; lra.
  - rewrite Ha. unfold gain. destruct (Rlt_dec (/ 6) (/ 2)); [reflexivity|lra].
Qed.

Print Assumptions C141_training_error_partial.
Print Assumptions C141_ballot_box_partial.
Print Assumptions C141_exponential_partial.
Print Assumptions C141_sampled_tree_refuted.
