(** Properties C65 and C87: the tested forest and the numbers of the trees. *)
From Verif Require Import Go GoLemmas ModelWorkers WorkersProofs PropWorkers.
Local Open Scope nat_scope.
Local Open Scope list_scope.

(** ** C87: the numbers given to WriteTree *)
Definition uncounted (w : wpc * nat) : bool := match fst w with PRecord | PFresh | PCount => true | _ => false end.
Definition numbered_inv (c : wconf) (s : wstate) : Prop :=
  if cProgress c then wFinished s + cnt uncounted (wThreads s) = length (wFile s) /\ map snd (wFile s) = seq 0 (length (wFile s))
  else wFinished s = 0 /\ Forall (fun p => snd p = 0) (wFile s).

Lemma cnt_le {A} (p q : A -> bool) l : (forall x, p x = true -> q x = true) -> cnt p l <= cnt q l.
Proof.
  intros H. unfold cnt. induction l as [|x l IH]; cbn; auto. destruct (p x) eqn:E; [rewrite (H x E); cbn; lia|destruct (q x); cbn; lia].
Qed.

Lemma numbered_step c s t s' : winv c s -> numbered_inv c s -> wstep c t s = Some s' -> numbered_inv c s'.
Proof.
  intros I N Hs. unfold wstep in Hs. destruct (wCrashed s || wMain s)%bool; [discriminate|].
  destruct (nth_error (wThreads s) t) as [[pc a]|] eqn:Ht.
  2: { destruct (main_ready c s); [|discriminate]. inversion Hs; subst s'. exact N. }
  assert (Hmv : forall pc' b, cnt uncounted (upd (wThreads s) t (pc', b)) + Nat.b2n (uncounted (pc, a)) = cnt uncounted (wThreads s) + Nat.b2n (uncounted (pc', b))).
  { intros pc' b. apply cnt_upd; auto. }
  unfold numbered_inv in *. destruct (cProgress c) eqn:Ep.
  - destruct N as [N1 N2].
    destruct pc; cbn [worker_step] in Hs; rewrite ?Ep in Hs;
    repeat match type of Hs with context [if ?b then _ else _] => destruct b eqn:? end; inversion Hs; subst s'; clear Hs; cbn [set_pc wFinished wThreads wFile];
    try (match goal with |- context [upd (wThreads s) t (?p, ?b)] => pose proof (Hmv p b) as X; cbn in X end; split; [lia|auto]; fail);
    try (split; [lia|auto]; fail).
    + (* PWrite *)
      assert (Hz : cnt uncounted (wThreads s) = 0).
      { pose proof (v_one _ _ I) as H1. pose proof (cnt_upd crit _ _ _ (PGrow, a) Ht) as H2. cbn in H2.
        pose proof (cnt_upd uncounted _ _ _ (PGrow, a) Ht) as H3. cbn in H3.
        assert (cnt uncounted (upd (wThreads s) t (PGrow, a)) <= cnt crit (upd (wThreads s) t (PGrow, a))); [|lia].
        apply cnt_le. intros [p b]. unfold uncounted, crit. cbn. destruct p; auto; discriminate. }
      rewrite app_length, map_app. cbn [length map snd].
      match goal with |- context [upd (wThreads s) t (?p, ?b)] => pose proof (Hmv p b) as X; cbn in X end.
      split; [lia|]. rewrite Nat.add_1_r, seq_S, N2. cbn. f_equal. f_equal. lia.
    + assert (Hz : cnt uncounted (wThreads s) = 0).
      { pose proof (v_one _ _ I) as H1. pose proof (cnt_upd crit _ _ _ (PGrow, a) Ht) as H2. cbn in H2.
        pose proof (cnt_upd uncounted _ _ _ (PGrow, a) Ht) as H3. cbn in H3.
        assert (cnt uncounted (upd (wThreads s) t (PGrow, a)) <= cnt crit (upd (wThreads s) t (PGrow, a))); [|lia].
        apply cnt_le. intros [p b]. unfold uncounted, crit. cbn. destruct p; auto; discriminate. }
      rewrite app_length, map_app. cbn [length map snd].
      match goal with |- context [upd (wThreads s) t (?p, ?b)] => pose proof (Hmv p b) as X; cbn in X end.
      split; [lia|]. rewrite Nat.add_1_r, seq_S, N2. cbn. f_equal. f_equal. lia.
  - destruct N as [N1 N2].
    destruct pc; cbn [worker_step] in Hs; rewrite ?Ep in Hs;
    repeat match type of Hs with context [if ?b then _ else _] => destruct b eqn:? end; inversion Hs; subst s'; clear Hs; cbn [set_pc wFinished wThreads wFile]; auto.
    + split; auto. apply Forall_app. split; auto.
    + split; auto. apply Forall_app. split; auto.
Qed.
Lemma numbered_run c sched : forall s s', winv c s -> numbered_inv c s -> wrun c sched s = Some s' -> numbered_inv c s'.
Proof.
  induction sched as [|t sched IH]; cbn [wrun]; intros s s' I N H; [inversion H; subst; auto|].
  destruct (wstep c t s) as [s1|] eqn:E; [|discriminate].
  exact (IH _ _ (wstep_inv _ _ _ _ I E) (numbered_step _ _ _ _ I N E) H).
Qed.
Lemma numbered_init c : numbered_inv c (winit c).
Proof.
  unfold numbered_inv. destruct (cProgress c); [|split; auto; constructor]. split; auto. cbn [winit wFinished wThreads wFile length plus].
  apply cnt_none. intros w Hw. apply in_map_iff in Hw as (x & <- & _). auto.
Qed.

(** With -progress the trees are numbered from 0 in the order of the file, in every schedule. *)
Theorem C87_numbered_with_progress_partial : forall c sched s,
  cProgress c = true -> wrun c sched (winit c) = Some s ->
  map snd (wFile s) = seq 0 (length (wFile s)).
Proof.
  intros c sched s Hp Hr. pose proof (numbered_run _ _ _ _ (winit_inv c) (numbered_init c) Hr) as N.
  unfold numbered_inv in N. rewrite Hp in N. tauto.
Qed.
(** Without it every tree is written as tree 0. *)
Theorem C87_all_trees_zero_refuted : forall c sched s,
  cProgress c = false -> wrun c sched (winit c) = Some s ->
  forall p, In p (wFile s) -> snd p = 0.
Proof.
  intros c sched s Hp Hr. pose proof (numbered_run _ _ _ _ (winit_inv c) (numbered_init c) Hr) as N.
  unfold numbered_inv in N. rewrite Hp in N. destruct N as [_ N]. rewrite Forall_forall in N. auto.
Qed.
Print Assumptions C87_numbered_with_progress_partial.
Print Assumptions C87_all_trees_zero_refuted.
Example C87_example :
  let run b := match wrun (mkWC 3 2 false true b (fun _ => false)) plain_sched (winit plain_conf) with Some s => wFile s | None => [] end in
  run true = [(2, 0); (1, 1); (3, 2)] /\ run false = [(2, 0); (1, 0); (3, 0)].
Proof. split; vm_compute; reflexivity. Qed.

(** ** C65: the tested forest *)
Definition memb (a : nat) (T : list nat) : bool := if in_dec Nat.eq_dec a T then true else false.
Arguments memb : simpl never.
Lemma memb_spec a T : memb a T = true <-> In a T.
Proof. unfold memb. destruct (in_dec Nat.eq_dec a T); split; auto; discriminate. Qed.
Lemma memb_snoc a b T : memb a (T ++ [b]) = (memb a T || (a =? b))%bool.
Proof.
  destruct (memb a (T ++ [b])) eqn:E.
  - apply memb_spec, in_app_iff in E as [E|[->|[]]]; [apply memb_spec in E; rewrite E; auto|]. rewrite Nat.eqb_refl, orb_true_r. auto.
  - symmetry. apply orb_false_iff. split.
    + destruct (memb a T) eqn:E2; auto. apply memb_spec in E2. rewrite <- E. symmetry. apply memb_spec. apply in_or_app; auto.
    + destruct (Nat.eqb_spec a b) as [->|]; auto. rewrite <- E. symmetry. apply memb_spec. apply in_or_app; cbn; auto.
Qed.

(** The worker will record a tree object that is in the slice already. *)
Definition reuse (T : list nat) (w : wpc * nat) : bool :=
  match fst w with PUnlock | PGrow | PBoost | PClose | PLock | PWrite | PRecord => memb (snd w) T | _ => false end.
Definition recording (w : wpc * nat) : bool := match fst w with PRecord => true | _ => false end.
(** Number of different elements. *)
Definition distinct (T : list nat) : nat := length (nodup Nat.eq_dec (rev T)).
Lemma distinct_snoc T a : distinct (T ++ [a]) = distinct T + Nat.b2n (negb (memb a T)).
Proof.
  unfold distinct. rewrite rev_app_distr. cbn [rev app nodup].
  destruct (in_dec Nat.eq_dec a (rev T)) as [H|H].
  - apply in_rev in H. apply memb_spec in H. rewrite H. cbn. lia.
  - assert (E : memb a T = false). { destruct (memb a T) eqn:E; auto. exfalso. apply H. rewrite <- in_rev. apply memb_spec; auto. }
    rewrite E. cbn. lia.
Qed.
Lemma distinct_le T : distinct T <= length T.
Proof.
  unfold distinct. rewrite <- (rev_length T). apply NoDup_incl_length; [apply NoDup_nodup|]. intros x Hx. apply nodup_In in Hx; auto.
Qed.

Lemma cnt_upd2 {A} (p p' : A -> bool) : forall l t w w', nth_error l t = Some w ->
  (forall u v, u <> t -> nth_error l u = Some v -> p' v = p v) ->
  cnt p' (upd l t w') + Nat.b2n (p w) = cnt p l + Nat.b2n (p' w').
Proof.
  unfold cnt. induction l as [|x l IH]; destruct t; cbn; intros w w' H Ho; try discriminate.
  - inversion H; subst x.
    assert (E : filter p' l = filter p l).
    { apply filter_ext_in. intros v Hv. apply In_nth_error in Hv as [u Hu]. apply (Ho (S u)); auto. }
    rewrite E. destruct (p w), (p' w'); cbn; lia.
  - assert (E : p' x = p x) by (apply (Ho 0); auto). rewrite E.
    assert (IH' := IH _ _ w' H ltac:(intros u v Hu Hn; apply (Ho (S u)); auto)). destruct (p x); cbn in *; lia.
Qed.

Definition tpc (c : wconf) (s : wstate) (w : wpc * nat) : Prop :=
  match fst w with
  | PBoost | PClose | PLock | PWrite | PRecord => 1 <= nth (snd w) (wHeap s) 0
  | PFresh => In (snd w) (wTrees s)
  | PCount | PCheck | PInc | PIncW _ => In (snd w) (wTrees s) <-> cTrees c - 1 <= wStarted s
  | _ => True
  end.
Record tinv (c : wconf) (s : wstate) : Prop := {
  t_in : forall a, In a (wTrees s) -> a < length (wHeap s) /\ 1 <= nth a (wHeap s) 0;
  t_uniq : forall a b, a < length (wHeap s) -> b < length (wHeap s) -> nth a (wHeap s) 0 = nth b (wHeap s) 0 -> nth a (wHeap s) 0 <> 0 -> a = b;
  t_le : forall a, nth a (wHeap s) 0 <= wGrown s;
  t_pcs : Forall (tpc c s) (wThreads s);
  t_dup : distinct (wTrees s) + Nat.b2n ((cTrees c <=? wStarted s) && (cCores c <? cTrees c)) = length (wTrees s) + cnt (reuse (wTrees s)) (wThreads s);
  t_len : length (wTrees s) + cnt recording (wThreads s) = length (wFile s)
}.

Lemma tinit_inv c : tinv c (winit c).
Proof.
  assert (Hz : forall a, nth a (wHeap (winit c)) 0 = 0).
  { intros a. cbn. generalize (cCores c). induction a; destruct n; cbn; auto. }
  assert (Hin : forall w, In w (wThreads (winit c)) -> fst w = PGrow).
  { intros w Hw. apply in_map_iff in Hw as (t & <- & Ht). auto. }
  split.
  - intros a [].
  - intros a b _ _ _ X. rewrite Hz in X. congruence.
  - intros a. rewrite Hz. lia.
  - apply Forall_forall. intros w Hw. unfold tpc. rewrite (Hin w Hw). auto.
  - rewrite (cnt_none (reuse _)).
    + cbn [winit wTrees wStarted]. destruct (Nat.leb_spec (cTrees c) (cCores c)), (Nat.ltb_spec (cCores c) (cTrees c)); auto; lia.
    + intros w Hw. unfold reuse. rewrite (Hin w Hw). auto.
  - rewrite cnt_none; auto. intros w Hw. unfold recording. rewrite (Hin w Hw). auto.
Qed.

(** A move that does not touch the heap, the slice, the file or the count of started trees. *)
Lemma tmove c s s' t pc a pc' : tinv c s -> nth_error (wThreads s) t = Some (pc, a) ->
  wThreads s' = upd (wThreads s) t (pc', a) -> wHeap s' = wHeap s -> wGrown s' = wGrown s -> wTrees s' = wTrees s ->
  wFile s' = wFile s -> wStarted s' = wStarted s ->
  tpc c s (pc', a) -> reuse (wTrees s) (pc', a) = reuse (wTrees s) (pc, a) -> recording (pc', a) = recording (pc, a) -> tinv c s'.
Proof.
  intros I Ht Ew Eh Eg ET Ef Es Hp Hr Hrec. destruct I. split; rewrite ?Ew, ?Eh, ?Eg, ?ET, ?Ef, ?Es; auto.
  - apply Forall_upd.
    + intros u w Hu Hn. rewrite Forall_forall in t_pcs0. pose proof (t_pcs0 w (nth_error_In _ _ Hn)) as X.
      unfold tpc in *. rewrite Eh, ET, Es. auto.
    + unfold tpc in *. rewrite Eh, ET, Es. auto.
  - pose proof (cnt_upd (reuse (wTrees s)) _ _ _ (pc', a) Ht) as X. rewrite Hr in X. lia.
  - pose proof (cnt_upd recording _ _ _ (pc', a) Ht) as X. rewrite Hrec in X. lia.
Qed.

Lemma tstep_inv c s t s' : cTest c = true -> calm c -> winv c s -> tinv c s -> wstep c t s = Some s' -> tinv c s'.
Proof.
  intros Htest Hcalm W I Hs. unfold wstep in Hs.
  destruct (wCrashed s) eqn:Ecr; [discriminate|]. destruct (wMain s) eqn:Em; [discriminate|]. cbn [orb] in Hs.
  destruct (nth_error (wThreads s) t) as [[pc a]|] eqn:Ht.
  2: { destruct (main_ready c s) eqn:Er; [|discriminate]. inversion Hs; subst s'; clear Hs. destruct I. split; auto. }
  assert (Hok : okpc c s (pc, a)) by (pose proof (v_pcs _ _ W) as X; rewrite Forall_forall in X; apply X; eapply nth_error_In; eauto).
  destruct Hok as [Ha Hpc]. cbn [fst snd] in Ha, Hpc.
  assert (Hcur : tpc c s (pc, a)) by (pose proof (t_pcs _ _ I) as X; rewrite Forall_forall in X; apply X; eapply nth_error_In; eauto).
  assert (Hoth : crit (pc, a) = true -> forall u w, u <> t -> nth_error (wThreads s) u = Some w -> crit w = false).
  { intros Hc u w Hu Hn. destruct (crit w) eqn:E; auto. exfalso. apply Hu. exact (cnt_unique crit _ _ _ _ _ (v_one _ _ W) Hn E Ht Hc). }
  assert (Hadr : forall u w, u <> t -> nth_error (wThreads s) u = Some w -> snd w <> a).
  { intros u w Hu Hn E. apply Hu. apply (nodup_snd _ _ _ _ _ (v_addr _ _ W) Hn Ht). auto. }
  destruct pc; cbn [worker_step] in Hs.
  - (* PGrow *)
    assert (Hp' : exists pc', (if cBoost c then PBoost else PLock) = pc' /\ (forall T, reuse T (pc', a) = reuse T (PGrow, a))
       /\ recording (pc', a) = false /\ (forall s', 1 <= nth a (wHeap s') 0 -> tpc c s' (pc', a))).
    { destruct (cBoost c); eexists; (split; [reflexivity|]); repeat (split; [reflexivity|]); intros s0 Hs0; exact Hs0. }
    destruct Hp' as (pc' & E & Hr & Hrec & Htp). rewrite E in Hs. inversion Hs; subst s'; clear Hs. destruct I.
    split; cbn [set_pc wThreads wHeap wGrown wTrees wFile wStarted].
    + intros b Hb. destruct (t_in0 b Hb). rewrite upd_length. split; auto.
      destruct (Nat.eq_dec a b) as [<-|Hne]; [rewrite nth_upd_same by auto; lia|rewrite nth_upd_other; auto].
    + rewrite upd_length. intros x y Hx Hy Exy Hz.
      destruct (Nat.eq_dec a x) as [<-|Hnx], (Nat.eq_dec a y) as [<-|Hny]; auto.
      * rewrite nth_upd_same, nth_upd_other in Exy by auto. pose proof (t_le0 y). lia.
      * rewrite nth_upd_same, nth_upd_other in Exy by auto. pose proof (t_le0 x). lia.
      * rewrite !nth_upd_other in Exy by auto. rewrite nth_upd_other in Hz by auto. auto.
    + intros x. destruct (Nat.eq_dec a x) as [<-|Hnx]; [rewrite nth_upd_same by auto; lia|].
      rewrite nth_upd_other by auto. pose proof (t_le0 x). lia.
    + apply Forall_upd.
      * intros u w Hu Hn. rewrite Forall_forall in t_pcs0. pose proof (t_pcs0 w (nth_error_In _ _ Hn)) as X.
        pose proof (Hadr u w Hu Hn) as Hne. unfold tpc in *. cbn [set_pc wHeap wTrees wStarted]. rewrite nth_upd_other by auto. auto.
      * apply Htp. cbn [set_pc wHeap]. rewrite nth_upd_same by auto. lia.
    + pose proof (cnt_upd (reuse (wTrees s)) _ _ _ (pc', a) Ht) as X. rewrite Hr in X. lia.
    + pose proof (cnt_upd recording _ _ _ (pc', a) Ht) as X. rewrite Hrec in X. cbn in X. lia.
  - (* PBoost *)
    inversion Hs; subst s'; clear Hs.
    eapply tmove with (pc' := if cInf c (nth a (wHeap s) 0) then PClose else PLock); eauto; destruct (cInf c (nth a (wHeap s) 0)); auto.
  - (* PClose *) contradiction.
  - (* PLock *)
    destruct (1 <? cCores c); [destruct (wLocked s); [discriminate|]|]; inversion Hs; subst s'; clear Hs;
    eapply tmove with (pc' := PWrite); eauto.
  - (* PWrite *)
    rewrite Htest in Hs. inversion Hs; subst s'; clear Hs. destruct I.
    split; cbn [set_pc wThreads wHeap wGrown wTrees wFile wStarted]; auto.
    + apply Forall_upd; [|exact Hcur]. intros u w Hu Hn. rewrite Forall_forall in t_pcs0. apply (t_pcs0 w (nth_error_In _ _ Hn)).
    + pose proof (cnt_upd (reuse (wTrees s)) _ _ _ (PRecord, a) Ht) as X. cbn in X. lia.
    + pose proof (cnt_upd recording _ _ _ (PRecord, a) Ht) as X. cbn in X. rewrite app_length. cbn. lia.
  - (* PRecord *)
    inversion Hs; subst s'; clear Hs. destruct I.
    split; cbn [set_pc wThreads wHeap wGrown wTrees wFile wStarted]; auto.
    + intros b Hb. apply in_app_iff in Hb as [Hb|[<-|[]]]; auto.
    + apply Forall_upd.
      * intros u w Hu Hn. rewrite Forall_forall in t_pcs0. pose proof (t_pcs0 w (nth_error_In _ _ Hn)) as X.
        pose proof (Hoth eq_refl u w Hu Hn) as Hc. destruct w as [p b]. unfold crit in Hc. cbn in Hc.
        destruct p; try discriminate; exact X.
      * cbn. apply in_or_app. cbn; auto.
    + pose proof (cnt_upd2 (reuse (wTrees s)) (reuse (wTrees s ++ [a])) _ _ _ (PFresh, a) Ht) as X.
      rewrite distinct_snoc, app_length. cbn [length].
      assert (Hx : forall u v, u <> t -> nth_error (wThreads s) u = Some v -> reuse (wTrees s ++ [a]) v = reuse (wTrees s) v).
      { intros u v Hu Hn. pose proof (Hadr u v Hu Hn) as Hne. unfold reuse. rewrite memb_snoc.
        destruct (Nat.eqb_spec (snd v) a); [contradiction|]. rewrite orb_false_r. auto. }
      specialize (X Hx). change (reuse (wTrees s) (PRecord, a)) with (memb a (wTrees s)) in X.
      change (reuse (wTrees s ++ [a]) (PFresh, a)) with false in X. destruct (memb a (wTrees s)); cbn [Nat.b2n negb] in *; lia.
    + pose proof (cnt_upd recording _ _ _ (PFresh, a) Ht) as X. cbn in X. rewrite app_length. cbn. lia.
  - (* PFresh *)
    destruct (Nat.ltb_spec (wStarted s) (cTrees c - 1)) as [Hlt|Hge]; inversion Hs; subst s'; clear Hs.
    2: { eapply tmove with (pc' := PCount); eauto. cbn. cbn in Hcur. tauto. }
    destruct I. set (b := length (wHeap s)).
    assert (Hnb : ~ In b (wTrees s)) by (intros X; apply t_in0 in X as [X _]; unfold b in X; lia).
    assert (Hnth : forall x, nth x (wHeap s ++ [0]) 0 = nth x (wHeap s) 0).
    { intros x. destruct (Nat.lt_ge_cases x (length (wHeap s))) as [H|H]; [rewrite app_nth1; auto|].
      rewrite app_nth2, (nth_overflow (wHeap s)) by auto. destruct (x - length (wHeap s)) as [|[|?]]; auto. }
    split; cbn [set_pc wThreads wHeap wGrown wTrees wFile wStarted].
    + intros x Hx. rewrite Hnth, app_length. destruct (t_in0 x Hx). split; auto. lia.
    + rewrite app_length. cbn. intros x y Hx Hy. rewrite !Hnth. intros E Hz.
      assert (Hb : forall z, z < length (wHeap s) + 1 -> nth z (wHeap s) 0 <> 0 -> z < length (wHeap s)).
      { intros z Hz1 Hz2. destruct (Nat.lt_ge_cases z (length (wHeap s))) as [|H]; auto. rewrite nth_overflow in Hz2 by auto. congruence. }
      apply t_uniq0; auto. apply Hb; auto. congruence.
    + intros x. rewrite Hnth. auto.
    + apply Forall_upd.
      * intros u w Hu Hn. rewrite Forall_forall in t_pcs0. pose proof (t_pcs0 w (nth_error_In _ _ Hn)) as X.
        unfold tpc in *. cbn [set_pc wHeap wTrees wStarted]. rewrite Hnth. auto.
      * cbn. fold b. split; [contradiction|lia].
    + pose proof (cnt_upd (reuse (wTrees s)) _ _ _ (PCount, b) Ht) as X. cbn in X. lia.
    + pose proof (cnt_upd recording _ _ _ (PCount, b) Ht) as X. cbn in X. lia.
  - (* PCount *)
    inversion Hs; subst s'; clear Hs. eapply tmove with (pc' := PCheck); eauto.
  - (* PCheck *)
    inversion Hs; subst s'; clear Hs.
    eapply tmove with (pc' := if wStarted s <? cTrees c then PInc else PStop); eauto; destruct (wStarted s <? cTrees c); auto.
  - (* PInc *)
    inversion Hs; subst s'; clear Hs. eapply tmove with (pc' := PIncW (wStarted s)); eauto.
  - (* PIncW *)
    destruct Hpc as [-> Hlt]. inversion Hs; subst s'; clear Hs. destruct I. cbn in Hcur.
    split; cbn [set_pc wThreads wHeap wGrown wTrees wFile wStarted]; auto.
    + apply Forall_upd; [|exact Logic.I].
      intros u w Hu Hn. rewrite Forall_forall in t_pcs0. pose proof (t_pcs0 w (nth_error_In _ _ Hn)) as X.
      pose proof (Hoth eq_refl u w Hu Hn) as Hc. destruct w as [p b]. unfold crit in Hc. cbn in Hc.
      destruct p; try discriminate; exact X.
    + pose proof (cnt_upd (reuse (wTrees s)) _ _ _ (PUnlock, a) Ht) as X. cbn in X.
      pose proof (v_lo _ _ W) as Hlo.
      destruct (Nat.leb_spec (cTrees c) (wStarted s)) as [Y|_]; [lia|]. cbn in t_dup0.
      destruct (Nat.ltb_spec (cCores c) (cTrees c)) as [_|Y]; [|lia]. rewrite andb_true_r.
      destruct (memb a (wTrees s)) eqn:Emb.
      * apply memb_spec in Emb. apply Hcur in Emb. destruct (Nat.leb_spec (cTrees c) (S (wStarted s))); [cbn in *; lia|lia].
      * destruct (Nat.leb_spec (cTrees c) (S (wStarted s))) as [Y|_]; [|cbn in *; lia].
        assert (In a (wTrees s)) by (apply Hcur; lia). apply memb_spec in H. congruence.
    + pose proof (cnt_upd recording _ _ _ (PUnlock, a) Ht) as X. cbn in X. lia.
  - (* PUnlock *)
    inversion Hs; subst s'; clear Hs. eapply tmove with (pc' := PGrow); eauto.
  - (* PStop *)
    destruct (1 <? cCores c); inversion Hs; subst s'; clear Hs; [eapply tmove with (pc' := PDone)|eapply tmove with (pc' := PGone)]; eauto.
  - (* PDone *)
    inversion Hs; subst s'; clear Hs. eapply tmove with (pc' := PGone); eauto.
  - discriminate.
Qed.
Lemma trun_inv c sched : cTest c = true -> calm c -> forall s s', winv c s -> tinv c s -> wrun c sched s = Some s' -> tinv c s'.
Proof.
  intros H1 H2. induction sched as [|t sched IH]; cbn [wrun]; intros s s' W I H; [inversion H; subst; auto|].
  destruct (wstep c t s) as [s1|] eqn:E; [|discriminate].
  exact (IH _ _ (wstep_inv _ _ _ _ W E) (tstep_inv _ _ _ _ H1 H2 W I E) H).
Qed.

Lemma distinct_map (f : nat -> nat) T : (forall a b, In a T -> In b T -> f a = f b -> a = b) ->
  length (nodup Nat.eq_dec (map f T)) = distinct T.
Proof.
  intros H. unfold distinct.
  assert (Hnd : NoDup (map f (nodup Nat.eq_dec (rev T)))).
  { assert (G : forall l, NoDup l -> incl l T -> NoDup (map f l)).
    { induction l as [|x l IH]; intros Hl Hi; cbn; constructor.
      - intros X. apply in_map_iff in X as (y & Ey & Hy). apply NoDup_cons_iff in Hl as [Hl _].
        apply Hl. rewrite (H x y); auto; apply Hi; cbn; auto.
      - apply NoDup_cons_iff in Hl as [_ Hl]. apply IH; auto. intros z Hz. apply Hi; cbn; auto. }
    apply G; [apply NoDup_nodup|]. intros x Hx. apply nodup_In in Hx. rewrite <- in_rev in Hx. auto. }
  rewrite <- (map_length f (nodup Nat.eq_dec (rev T))). apply Nat.le_antisymm; apply NoDup_incl_length; auto using NoDup_nodup.
  - intros x Hx. apply nodup_In, in_map_iff in Hx as (y & <- & Hy). apply in_map. apply nodup_In. rewrite <- in_rev. auto.
  - intros x Hx. apply in_map_iff in Hx as (y & <- & Hy). apply nodup_In in Hy. rewrite <- in_rev in Hy. apply nodup_In. apply in_map. auto.
Qed.

(** The forest that is tested when the workers are done, in every schedule: it has
    [max nTrees nCores] entries, all of them trees that were grown; if there are
    more trees than cores, one of the trees is there twice, otherwise none is. *)
Lemma tested_forest c sched s :
  cTest c = true -> calm c -> 1 <= cCores c -> wrun c sched (winit c) = Some s -> wMain s = true ->
  let n := Nat.max (cTrees c) (cCores c) in
  length (tested s) = n /\ incl (tested s) (seq 1 n)
  /\ length (nodup Nat.eq_dec (tested s)) + (if cCores c <? cTrees c then 1 else 0) = n.
Proof.
  intros Htest Hcalm Hc Hr Hm n.
  pose proof (wrun_inv _ _ _ _ (winit_inv c) Hr) as W.
  pose proof (trun_inv c sched Htest Hcalm _ _ (winit_inv c) (tinit_inv c) Hr) as I.
  destruct (C64_every_schedule_grows_all c sched s Hcalm Hc Hr) as (_ & _ & H). destruct (H Hm) as (_ & Hg & Hf & Hgone & _). clear H. fold n in Hg, Hf.
  destruct I.
  assert (Hz1 : cnt recording (wThreads s) = 0) by (apply cnt_none; intros w Hw; unfold recording; rewrite (Hgone w Hw); auto).
  assert (Hz2 : cnt (reuse (wTrees s)) (wThreads s) = 0) by (apply cnt_none; intros w Hw; unfold reuse; rewrite (Hgone w Hw); auto).
  assert (Hst : cTrees c <= wStarted s).
  { pose proof (v_grow _ _ W). unfold n in *. lia. }
  apply Permutation_length in Hf. rewrite map_length, seq_length in Hf.
  split; [|split].
  - unfold tested. rewrite map_length. lia.
  - intros x Hx. apply in_map_iff in Hx as (a & <- & Ha). destruct (t_in0 a Ha). pose proof (t_le0 a). apply in_seq. lia.
  - unfold tested. rewrite distinct_map.
    + destruct (Nat.leb_spec (cTrees c) (wStarted s)) as [_|X]; [|lia]. destruct (cCores c <? cTrees c); cbn in t_dup0; lia.
    + intros a b Ha Hb E. destruct (t_in0 a Ha), (t_in0 b Hb). apply t_uniq0; auto. lia.
Qed.

Theorem C65_tree_lost_refuted : forall c sched s,
  cTest c = true -> calm c -> 1 <= cCores c -> cCores c < cTrees c ->
  wrun c sched (winit c) = Some s -> wMain s = true ->
  length (tested s) = cTrees c
  /\ length (nodup Nat.eq_dec (tested s)) = cTrees c - 1
  /\ exists k, In k (seq 1 (cTrees c)) /\ ~ In k (tested s).
Proof.
  intros c sched s Htest Hcalm Hc Hlt Hr Hm.
  destruct (tested_forest c sched s Htest Hcalm Hc Hr Hm) as (H1 & H2 & H3).
  rewrite Nat.max_l in * by lia. destruct (Nat.ltb_spec (cCores c) (cTrees c)) as [_|X]; [|lia].
  split; auto. split; [lia|].
  destruct (Forall_Exists_dec (fun k => In k (tested s)) (fun k => in_dec Nat.eq_dec k (tested s)) (seq 1 (cTrees c))) as [F|E].
  - exfalso. rewrite Forall_forall in F.
    assert (cTrees c <= length (nodup Nat.eq_dec (tested s))); [|lia].
    rewrite <- (seq_length (cTrees c) 1) at 1. apply NoDup_incl_length; [apply seq_NoDup|]. intros x Hx. apply nodup_In. auto.
  - apply Exists_exists in E as (k & Hk & Hn). eauto.
Qed.

Theorem C65_few_trees_partial : forall c sched s,
  cTest c = true -> calm c -> 1 <= cCores c -> cTrees c <= cCores c ->
  wrun c sched (winit c) = Some s -> wMain s = true ->
  Permutation (tested s) (seq 1 (cCores c)).
Proof.
  intros c sched s Htest Hcalm Hc Hlt Hr Hm.
  destruct (tested_forest c sched s Htest Hcalm Hc Hr Hm) as (H1 & H2 & H3).
  rewrite Nat.max_r in * by lia. destruct (Nat.ltb_spec (cCores c) (cTrees c)) as [X|_]; [lia|]. rewrite Nat.add_0_r in H3.
  apply NoDup_Permutation_bis; [|rewrite seq_length; lia|auto].
  assert (G : forall l, length (nodup Nat.eq_dec l) = length l -> NoDup l).
  { induction l as [|x l IH]; cbn; [constructor|]. destruct (in_dec Nat.eq_dec x l) as [Hin|Hin]; cbn; intros E.
    - assert (length (nodup Nat.eq_dec l) <= length l); [|lia].
      apply NoDup_incl_length; [apply NoDup_nodup|]. intros z Hz. apply nodup_In in Hz; auto.
    - constructor; auto. }
  apply G. lia.
Qed.
Print Assumptions C65_tree_lost_refuted.
Print Assumptions C65_few_trees_partial.
(** See also C64_example: three trees were grown, but [tested] is [[3; 1; 3]]. *)
Example C65_example :
  let c := mkWC 2 3 false true false (fun _ => false) in
  match wrun c ([2; 2; 2; 2; 2; 2; 2; 2; 2; 0; 1; 1; 1; 1; 1; 1; 1; 1; 1; 0; 0; 0; 0; 0; 0; 0; 0; 3]) (winit c) with
  | Some s => (wMain s, tested s)
  | None => (false, [])
  end = (true, [1; 3; 2]).
Proof. vm_compute. reflexivity. Qed.
