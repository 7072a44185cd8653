(** Invariants of the goroutine models. *)
From Verif Require Import Go GoLemmas ModelWorkers.
Local Open Scope nat_scope.
Local Open Scope list_scope.

(** Counting the threads with a property. *)
Definition cnt {A} (p : A -> bool) (l : list A) : nat := length (filter p l).
Lemma cnt_upd {A} (p : A -> bool) : forall l t w w', nth_error l t = Some w ->
  cnt p (upd l t w') + Nat.b2n (p w) = cnt p l + Nat.b2n (p w').
Proof.
  unfold cnt. induction l as [|x l IH]; destruct t; cbn; intros w w' H; try discriminate.
  - inversion H; subst x. destruct (p w), (p w'); cbn; lia.
  - specialize (IH _ _ w' H). destruct (p x); cbn in *; lia.
Qed.
Lemma cnt_zero {A} (p : A -> bool) l : cnt p l = 0 -> forall x, In x l -> p x = false.
Proof.
  unfold cnt. induction l as [|a l IH]; cbn; [contradiction|]. destruct (p a) eqn:E; cbn; [lia|].
  intros H x [<-|Hx]; auto.
Qed.
Lemma cnt_none {A} (p : A -> bool) l : (forall x, In x l -> p x = false) -> cnt p l = 0.
Proof. unfold cnt. induction l as [|a l IH]; cbn; auto. intros H. rewrite (H a); auto. Qed.
Lemma cnt_all {A} (p : A -> bool) l : (forall x, In x l -> p x = true) -> cnt p l = length l.
Proof. unfold cnt. induction l as [|a l IH]; cbn; auto. intros H. rewrite (H a); cbn; auto. Qed.
Lemma cnt_unique {A} (p : A -> bool) : forall l t u w v, cnt p l <= 1 ->
  nth_error l t = Some w -> p w = true -> nth_error l u = Some v -> p v = true -> t = u.
Proof.
  unfold cnt. induction l as [|x l IH]; intros t u w v Hc Ht Hw Hu Hv; destruct t, u; cbn in *; try discriminate; auto.
  - inversion Ht; subst x. rewrite Hw in Hc. cbn in Hc. exfalso.
    assert (In v (filter p l)) by (apply filter_In; split; auto; eapply nth_error_In; eauto).
    destruct (filter p l); [contradiction|cbn in Hc; lia].
  - inversion Hu; subst x. rewrite Hv in Hc. cbn in Hc. exfalso.
    assert (In w (filter p l)) by (apply filter_In; split; auto; eapply nth_error_In; eauto).
    destruct (filter p l); [contradiction|cbn in Hc; lia].
  - f_equal. eapply IH; eauto. destruct (p x); cbn in Hc; lia.
Qed.
Lemma cnt_pos {A} (p : A -> bool) l t w : nth_error l t = Some w -> p w = true -> 1 <= cnt p l.
Proof.
  intros H E. unfold cnt. assert (Hi : In w (filter p l)) by (apply filter_In; split; auto; eapply nth_error_In; eauto).
  destruct (filter p l); [contradiction|cbn; lia].
Qed.
Lemma cnt_ex {A} (p : A -> bool) l : 1 <= cnt p l -> exists t w, nth_error l t = Some w /\ p w = true.
Proof.
  unfold cnt. intros H. destruct (filter p l) as [|w r] eqn:E; [cbn in H; lia|].
  assert (Hi : In w (filter p l)) by (rewrite E; left; auto). apply filter_In in Hi as [Hi Hp].
  apply In_nth_error in Hi as [t Ht]. eauto.
Qed.
Lemma Forall_upd {A} (P : A -> Prop) l t w' :
  (forall u w, u <> t -> nth_error l u = Some w -> P w) -> P w' -> Forall P (upd l t w').
Proof.
  intros H Hw. apply Forall_forall. intros x Hx. apply In_nth_error in Hx as [u Hu].
  destruct (Nat.eq_dec t u) as [<-|Hne].
  - destruct (Nat.lt_ge_cases t (length l)).
    + rewrite nth_error_upd_eq in Hu by auto. inversion Hu; subst; auto.
    + apply nth_error_some_lt in Hu. rewrite upd_length in Hu. lia.
  - rewrite nth_error_upd_neq in Hu by auto. eauto.
Qed.

(** ** growforest *)
Definition crit (w : wpc * nat) : bool :=
  match fst w with PWrite | PRecord | PFresh | PCount | PCheck | PInc | PIncW _ | PUnlock | PStop => true | _ => false end.
Definition togrow (w : wpc * nat) : bool := match fst w with PGrow | PUnlock => true | _ => false end.
Definition alive (w : wpc * nat) : bool := match fst w with PGone => false | _ => true end.
(** Has grown a tree that is not in the file yet. *)
Definition unwritten (pc : wpc) : bool := match pc with PBoost | PClose | PLock | PWrite => true | _ => false end.
Definition pending (h : list nat) (ws : list (wpc * nat)) : list nat :=
  flat_map (fun w => if unwritten (fst w) then [nth (snd w) h 0] else []) ws.

(** No tree ever gets an infinite weight. *)
Definition calm (c : wconf) : Prop := cBoost c = false \/ forall n, cInf c n = false.

Definition okpc (c : wconf) (s : wstate) (w : wpc * nat) : Prop :=
  snd w < length (wHeap s) /\
  match fst w with
  | PBoost => cBoost c = true
  | PInc => wStarted s < cTrees c
  | PIncW v => v = wStarted s /\ wStarted s < cTrees c
  | PStop | PDone => cTrees c <= wStarted s
  | PGone => cTrees c <= wStarted s \/ wClosed s = true
  | PClose => ~ calm c
  | _ => True
  end.

Record winv (c : wconf) (s : wstate) : Prop := {
  v_len : length (wThreads s) = cCores c;
  v_one : cnt crit (wThreads s) <= 1;
  v_lock : 1 < cCores c -> cnt crit (wThreads s) = Nat.b2n (wLocked s);
  v_grow : wGrown s + cnt togrow (wThreads s) = wStarted s;
  v_lo : cCores c <= wStarted s;
  v_hi : wStarted s <= Nat.max (cTrees c) (cCores c);
  v_wait : 1 < cCores c -> wWait s = cnt alive (wThreads s) + Nat.b2n (wClosed s);
  v_pcs : Forall (okpc c s) (wThreads s);
  v_addr : NoDup (map snd (wThreads s));
  v_file : exists lost, length lost = Nat.b2n (wClosed s) /\
    Permutation (map fst (wFile s) ++ pending (wHeap s) (wThreads s) ++ lost) (seq 1 (wGrown s));
  v_main : wMain s = true -> main_ready c s = true;
  v_crash : wCrashed s = true -> wClosed s = true;
  v_calm : calm c -> wClosed s = false
}.

Lemma winit_inv c : winv c (winit c).
Proof.
  assert (Hin : forall w, In w (wThreads (winit c)) -> fst w = PGrow /\ snd w < cCores c).
  { intros w Hw. apply in_map_iff in Hw as (t & <- & Ht). apply in_seq in Ht. cbn. split; auto; lia. }
  assert (Hcr : cnt crit (wThreads (winit c)) = 0).
  { apply cnt_none. intros w Hw. destruct (Hin w Hw) as [E _]. unfold crit. rewrite E. auto. }
  split; auto.
  - cbn. rewrite map_length, seq_length. auto.
  - lia.
  - cbn [wGrown wStarted winit]. rewrite cnt_all.
    + cbn. rewrite map_length, seq_length; auto.
    + intros w Hw. destruct (Hin w Hw) as [E _]. unfold togrow. rewrite E. auto.
  - cbn. lia.
  - intros _. rewrite cnt_all.
    + cbn. rewrite map_length, seq_length, Nat.add_0_r; auto.
    + intros w Hw. destruct (Hin w Hw) as [E _]. unfold alive. rewrite E. auto.
  - apply Forall_forall. intros w Hw. destruct (Hin w Hw) as [E H]. split.
    + cbn. rewrite repeat_length. auto.
    + rewrite E. auto.
  - cbn. rewrite map_map. cbn. rewrite map_id. apply seq_NoDup.
  - exists []. split; auto. rewrite app_nil_r.
    assert (E : pending (wHeap (winit c)) (wThreads (winit c)) = []).
    { generalize (wHeap (winit c)). intros h. unfold pending. revert Hin. generalize (wThreads (winit c)). induction l as [|w l IH]; intros H; auto. cbn.
      rewrite IH by (intros; apply H; cbn; auto). destruct (H w) as [-> _]; cbn; auto. }
    rewrite E. reflexivity.
  - discriminate.
Qed.

(** How [pending] changes. *)
Definition pend1 (h : list nat) (w : wpc * nat) : list nat := if unwritten (fst w) then [nth (snd w) h 0] else [].
Lemma pending_upd h : forall ws t w w', nth_error ws t = Some w ->
  Permutation (pending h (upd ws t w') ++ pend1 h w) (pending h ws ++ pend1 h w').
Proof.
  induction ws as [|x ws IH]; destruct t; cbn; intros w w' H; try discriminate.
  - inversion H; subst x. fold (pend1 h w) (pend1 h w'). rewrite <- !app_assoc.
    rewrite (Permutation_app_comm (pend1 h w') (pending h ws ++ pend1 h w)).
    rewrite (Permutation_app_comm (pend1 h w) (pending h ws ++ pend1 h w')). rewrite <- !app_assoc.
    apply Permutation_app_head. apply Permutation_app_comm.
  - fold (pend1 h x). rewrite <- !app_assoc. apply Permutation_app_head. apply IH; auto.
Qed.
Lemma pending_heap h h' ws : (forall w, In w ws -> unwritten (fst w) = true -> nth (snd w) h 0 = nth (snd w) h' 0) ->
  pending h ws = pending h' ws.
Proof.
  unfold pending. induction ws as [|w ws IH]; intros H; auto. cbn. rewrite IH by (intros; apply H; cbn; auto).
  destruct (unwritten (fst w)) eqn:E; auto. rewrite (H w); cbn; auto.
Qed.
Lemma nth_upd_other (l : list nat) a b x d : a <> b -> nth b (upd l a x) d = nth b l d.
Proof.
  revert a b. induction l as [|y l IH]; destruct a, b; cbn; intros H; auto; try congruence.
Qed.
Lemma nth_upd_same (l : list nat) a x d : a < length l -> nth a (upd l a x) d = x.
Proof. revert a. induction l as [|y l IH]; destruct a; cbn; intros H; auto; try lia. apply IH; lia. Qed.
Lemma map_snd_upd (ws : list (wpc * nat)) t pc' w : nth_error ws t = Some w ->
  map snd (upd ws t (pc', snd w)) = map snd ws.
Proof.
  revert t. induction ws as [|x ws IH]; destruct t; cbn; intros H; try discriminate.
  - inversion H; subst; auto.
  - f_equal. auto.
Qed.
Lemma nodup_snd (ws : list (wpc * nat)) t u w v : NoDup (map snd ws) -> nth_error ws t = Some w -> nth_error ws u = Some v -> snd w = snd v -> t = u.
Proof.
  intros Hnd Ht Hu E. rewrite NoDup_nth_error in Hnd. apply Hnd.
  - rewrite map_length. eapply nth_error_some_lt; eauto.
  - rewrite !nth_error_map, Ht, Hu. cbn. congruence.
Qed.

(** A move of one thread that keeps its tree object and does not touch the heap. *)
Lemma simple_move c s s' t pc a pc' :
  winv c s -> nth_error (wThreads s) t = Some (pc, a) ->
  wThreads s' = upd (wThreads s) t (pc', a) -> wHeap s' = wHeap s -> wGrown s' = wGrown s ->
  wMain s = false -> wMain s' = false -> wCrashed s' = wCrashed s ->
  (wClosed s' = wClosed s \/ (wClosed s' = true /\ ~ calm c)) ->
  (* critical sections *)
  cnt crit (upd (wThreads s) t (pc', a)) <= 1 ->
  (1 < cCores c -> cnt crit (upd (wThreads s) t (pc', a)) = Nat.b2n (wLocked s')) ->
  wGrown s + cnt togrow (upd (wThreads s) t (pc', a)) = wStarted s' ->
  wStarted s <= wStarted s' <= Nat.max (cTrees c) (cCores c) ->
  (1 < cCores c -> wWait s' = cnt alive (upd (wThreads s) t (pc', a)) + Nat.b2n (wClosed s')) ->
  okpc c s' (pc', a) ->
  (wStarted s' = wStarted s \/ crit (pc, a) = true) ->
  (exists lost, length lost = Nat.b2n (wClosed s') /\
    Permutation (map fst (wFile s') ++ pending (wHeap s) (upd (wThreads s) t (pc', a)) ++ lost) (seq 1 (wGrown s))) ->
  winv c s'.
Proof.
  intros I Ht Ew Eh Eg Hm Hm' Ecr Hcl H1 H2 H3 H4 H5 H6 H7 H8. destruct I. split; rewrite ?Ew, ?Eh, ?Eg; auto.
  - rewrite upd_length; auto.
  - lia.
  - lia.
  - apply Forall_upd; auto. intros u w Hu Hn. rewrite Forall_forall in v_pcs0.
    pose proof (v_pcs0 w (nth_error_In _ _ Hn)) as [Ha Hp]. split; [rewrite Eh; auto|].
    assert (Hnc : crit (pc, a) = true -> crit w = false).
    { intros Hc. destruct (crit w) eqn:Ew'; auto. exfalso. apply Hu. exact (cnt_unique crit _ _ _ _ _ v_one0 Hn Ew' Ht Hc). }
    destruct w as [p b]. cbn [fst snd] in *.
    destruct p; auto; destruct H7 as [E|E]; try (rewrite E; auto; fail); try (specialize (Hnc E); discriminate Hnc).
    + lia.
    + destruct Hp as [Hp|Hp]; [left; lia|right]. destruct Hcl as [->|[-> _]]; auto.
    + destruct Hp as [Hp|Hp]; [left; lia|right]. destruct Hcl as [->|[-> _]]; auto.
  - change a with (snd (pc, a)). rewrite map_snd_upd with (w := (pc, a)); auto.
  - rewrite Hm'. discriminate.
  - rewrite Ecr. intros X. destruct Hcl as [->|[-> _]]; auto.
  - intros X. destruct Hcl as [->|[_ Hn]]; [auto|contradiction].
Qed.

Lemma perm_pending c s t pc a pc' lost : winv c s -> nth_error (wThreads s) t = Some (pc, a) ->
  unwritten pc' = unwritten pc ->
  Permutation (map fst (wFile s) ++ pending (wHeap s) (wThreads s) ++ lost) (seq 1 (wGrown s)) ->
  Permutation (map fst (wFile s) ++ pending (wHeap s) (upd (wThreads s) t (pc', a)) ++ lost) (seq 1 (wGrown s)).
Proof.
  intros I Ht E H. rewrite <- H. apply Permutation_app_head, Permutation_app_tail.
  pose proof (pending_upd (wHeap s) _ _ _ (pc', a) Ht) as P. unfold pend1 in P. cbn [fst snd] in P. rewrite E in P.
  apply Permutation_app_inv_r in P. auto.
Qed.

Ltac cnt_facts Ht :=
  match type of Ht with nth_error ?ws ?t = Some (?pc, ?a) =>
    repeat match goal with
    | |- context [cnt ?p (upd ws t (?pc', ?a'))] =>
        let F := fresh "F" in
        pose proof (cnt_upd p _ _ _ (pc', a') Ht) as F;
        generalize dependent (cnt p (upd ws t (pc', a'))); intros
    end
  end.

Lemma unlocked_count c s t pc a : winv c s -> nth_error (wThreads s) t = Some (pc, a) -> crit (pc, a) = false ->
  (1 <? cCores c) = false -> cnt crit (wThreads s) = 0.
Proof.
  intros I Ht Hc Hm. apply Nat.ltb_ge in Hm. destruct I.
  assert (E : wThreads s = [(pc, a)]).
  { destruct (wThreads s) as [|x [|y l]]; destruct t as [|[|t]]; cbn in *; try discriminate; try lia; congruence. }
  rewrite E. unfold cnt. cbn. rewrite Hc. auto.
Qed.

Lemma NoDup_upd {A} (l : list A) t x : NoDup l -> ~ In x l -> NoDup (upd l t x).
Proof.
  revert t. induction l as [|y l IH]; destruct t; cbn; intros Hnd Hx; auto.
  - apply NoDup_cons_iff in Hnd as [H1 H2]. constructor; auto.
  - apply NoDup_cons_iff in Hnd as [H1 H2]. constructor; [|apply IH; tauto].
    intros Hi. apply In_nth_error in Hi as [u Hu]. destruct (Nat.eq_dec t u) as [<-|Hne].
    + destruct (Nat.lt_ge_cases t (length l)).
      * rewrite nth_error_upd_eq in Hu by auto. inversion Hu; subst. apply Hx; auto.
      * apply nth_error_some_lt in Hu. rewrite upd_length in Hu. lia.
    + rewrite nth_error_upd_neq in Hu by auto. apply H1. eapply nth_error_In; eauto.
Qed.
Lemma map_upd' {A B} (f : A -> B) l t x : map f (upd l t x) = upd (map f l) t (f x).
Proof. revert t; induction l; destruct t; cbn; auto; f_equal; auto. Qed.

Lemma move_winv c s t pc a pc' s' :
  winv c s -> nth_error (wThreads s) t = Some (pc, a) -> wMain s = false ->
  s' = set_pc s t pc' a -> 
  crit (pc', a) = crit (pc, a) -> togrow (pc', a) = togrow (pc, a) -> alive (pc', a) = alive (pc, a) ->
  unwritten pc' = unwritten pc -> okpc c s (pc', a) -> winv c s'.
Proof.
  intros I Ht Hm -> Hc Hg Ha Hu Ho. pose proof I as I0. destruct I0.
  eapply (simple_move c s _ t pc a pc'); eauto; cbn [set_pc wStarted wWait wLocked wClosed wFile wMain wCrashed].
  - pose proof (cnt_upd crit _ _ _ (pc', a) Ht). rewrite Hc in *. lia.
  - pose proof (cnt_upd crit _ _ _ (pc', a) Ht). rewrite Hc in *. intros X. specialize (v_lock0 X). lia.
  - pose proof (cnt_upd togrow _ _ _ (pc', a) Ht). rewrite Hg in *. lia.
  - pose proof (cnt_upd alive _ _ _ (pc', a) Ht). rewrite Ha in *. intros X. specialize (v_wait0 X). lia.
  - destruct v_file0 as (lost & Hl & Hp). exists lost. split; auto. eapply perm_pending; eauto.
Qed.

Lemma wstep_inv c s t s' : winv c s -> wstep c t s = Some s' -> winv c s'.
Proof.
  intros I Hs. pose proof I as I0. unfold wstep in Hs.
  destruct (wCrashed s) eqn:Ecr; [discriminate|]. destruct (wMain s) eqn:Em; [discriminate|]. cbn [orb] in Hs.
  destruct (nth_error (wThreads s) t) as [[pc a]|] eqn:Ht.
  2: { (* main *)
    destruct (main_ready c s) eqn:Er; [|discriminate]. inversion Hs; subst s'; clear Hs. destruct I0.
    split; auto; cbn [wCrashed wMain wClosed]; try congruence; intros _; exact Er. }
  assert (Hok : okpc c s (pc, a)) by (destruct I0; rewrite Forall_forall in v_pcs0; apply v_pcs0; eapply nth_error_In; eauto).
  destruct Hok as [Ha Hpc]. cbn [fst snd] in Ha, Hpc.
  destruct pc; cbn [worker_step] in Hs.
  - (* PGrow *)
    inversion Hs; subst s'; clear Hs. destruct I0.
    assert (Hp' : exists pc', (if cBoost c then PBoost else PLock) = pc' /\ unwritten pc' = true /\ crit (pc', a) = false /\ togrow (pc', a) = false
       /\ alive (pc', a) = true /\ (forall s', a < length (wHeap s') -> okpc c s' (pc', a))).
    { destruct (cBoost c) eqn:Eb; eexists; (split; [reflexivity|]); repeat (split; [reflexivity|]); intros s' Hs'; split; cbn; auto. }
    destruct Hp' as (pc' & -> & Hu & Hc & Hg & Hal & Hokp).
    split; cbn [set_pc wThreads wLocked wGrown wStarted wWait wClosed wHeap wFile wMain wCrashed]; auto.
    + rewrite upd_length; auto.
    + pose proof (cnt_upd crit _ _ _ (pc', a) Ht) as F. rewrite Hc in F. cbn in F. lia.
    + intros X. pose proof (cnt_upd crit _ _ _ (pc', a) Ht) as F. rewrite Hc in F. cbn in F. specialize (v_lock0 X). lia.
    + pose proof (cnt_upd togrow _ _ _ (pc', a) Ht) as F. rewrite Hg in F. cbn in F. lia.
    + intros X. pose proof (cnt_upd alive _ _ _ (pc', a) Ht) as F. rewrite Hal in F. cbn in F. specialize (v_wait0 X). lia.
    + apply Forall_upd; [|apply Hokp; cbn; rewrite upd_length; auto].
      intros u w Hne Hn. rewrite Forall_forall in v_pcs0. destruct (v_pcs0 w (nth_error_In _ _ Hn)) as [H1 H2].
      split; [cbn; rewrite upd_length; auto|]. exact H2.
    + change a with (snd (PGrow, a)). rewrite map_snd_upd; auto.
    + destruct v_file0 as (lost & Hl & Hp). exists lost. split; auto.
      rewrite seq_S. cbn [plus].
      pose proof (pending_upd (upd (wHeap s) a (S (wGrown s))) _ _ _ (pc', a) Ht) as P.
      unfold pend1 in P. cbn [fst snd unwritten] in P. rewrite Hu, app_nil_r, nth_upd_same in P by auto.
      rewrite (pending_heap (upd (wHeap s) a (S (wGrown s))) (wHeap s) (wThreads s)) in P.
      2: { intros w Hw Huw. apply nth_upd_other. intros E. apply In_nth_error in Hw as [u Hn].
           assert (u = t) by (eapply (nodup_snd _ _ _ _ _ v_addr0 Hn Ht); cbn; auto).
           subst u. rewrite Ht in Hn. inversion Hn; subst w. discriminate. }
      rewrite P. rewrite <- Hp. rewrite <- !app_assoc. do 2 apply Permutation_app_head. apply Permutation_app_comm.
    + rewrite Em. discriminate.
  - (* PBoost *)
    inversion Hs; subst s'; clear Hs.
    eapply move_winv; eauto; try (destruct (cInf c (nth a (wHeap s) 0)); reflexivity).
    split; auto. cbn [fst snd]. destruct (cInf c (nth a (wHeap s) 0)) eqn:Ei; auto.
    intros [X|X]; [congruence|rewrite X in Ei; discriminate].
  - (* PClose *)
    destruct (wClosed s) eqn:Ecl; inversion Hs; subst s'; clear Hs.
    + destruct I0. split; cbn [wThreads wLocked wGrown wStarted wWait wClosed wHeap wFile wMain wCrashed]; auto; try congruence.
      * intros X. rewrite (v_wait0 X), Ecl. auto.
      * eapply Forall_impl; [|exact v_pcs0]. intros [p b] [H1 H2]. split; auto. cbn in *. destruct p; auto.
      * destruct v_file0 as (lost & Hl & Hp). exists lost. rewrite Ecl in Hl. auto.
    + destruct I0. eapply (simple_move c s _ t PClose a PGone); eauto; cbn [set_pc wThreads wLocked wGrown wStarted wWait wClosed wHeap wFile wMain wCrashed].
      * pose proof (cnt_upd crit _ _ _ (PGone, a) Ht) as F. cbn in F. lia.
      * intros X. pose proof (cnt_upd crit _ _ _ (PGone, a) Ht) as F. cbn in F. specialize (v_lock0 X). lia.
      * pose proof (cnt_upd togrow _ _ _ (PGone, a) Ht) as F. cbn in F. lia.
      * intros X. pose proof (cnt_upd alive _ _ _ (PGone, a) Ht) as F. cbn in F. specialize (v_wait0 X). rewrite Ecl in *. cbn in *. lia.
      * split; auto. cbn. auto.
      * destruct v_file0 as (lost & Hl & Hp). rewrite Ecl in Hl. destruct lost; [|discriminate].
        exists [nth a (wHeap s) 0]. split; auto. rewrite <- Hp, app_nil_r.
        pose proof (pending_upd (wHeap s) _ _ _ (PGone, a) Ht) as P. unfold pend1 in P. cbn [fst snd unwritten] in P. rewrite app_nil_r in P.
        rewrite P. auto.
  - (* PLock *)
    destruct (1 <? cCores c) eqn:Emany.
    + destruct (wLocked s) eqn:El; [discriminate|]. inversion Hs; subst s'; clear Hs. apply Nat.ltb_lt in Emany. destruct I0.
      specialize (v_lock0 Emany). rewrite El in v_lock0. cbn in v_lock0.
      eapply (simple_move c s _ t PLock a PWrite); eauto; cbn [set_pc wThreads wLocked wGrown wStarted wWait wClosed wHeap wFile wMain wCrashed].
      * pose proof (cnt_upd crit _ _ _ (PWrite, a) Ht) as F. cbn in F. lia.
      * intros X. pose proof (cnt_upd crit _ _ _ (PWrite, a) Ht) as F. cbn in F. cbn. lia.
      * pose proof (cnt_upd togrow _ _ _ (PWrite, a) Ht) as F. cbn in F. lia.
      * intros X. pose proof (cnt_upd alive _ _ _ (PWrite, a) Ht) as F. cbn in F. specialize (v_wait0 X). lia.
      * split; cbn; auto.
      * destruct v_file0 as (lost & Hl & Hp). exists lost. split; auto. eapply perm_pending; eauto.
    + inversion Hs; subst s'; clear Hs. pose proof (unlocked_count c s t PLock a I Ht eq_refl Emany) as Hz. destruct I0.
      apply Nat.ltb_ge in Emany.
      eapply (simple_move c s _ t PLock a PWrite); eauto; cbn [set_pc wThreads wLocked wGrown wStarted wWait wClosed wHeap wFile wMain wCrashed].
      * pose proof (cnt_upd crit _ _ _ (PWrite, a) Ht) as F. cbn in F. lia.
      * intros X. lia.
      * pose proof (cnt_upd togrow _ _ _ (PWrite, a) Ht) as F. cbn in F. lia.
      * intros X. lia.
      * split; cbn; auto.
      * destruct v_file0 as (lost & Hl & Hp). exists lost. split; auto. eapply perm_pending; eauto.
  - (* PWrite *)
    inversion Hs; subst s'; clear Hs. destruct I0.
    assert (Hp' : exists pc', (if cTest c then PRecord else PCount) = pc' /\ unwritten pc' = false /\ crit (pc', a) = true /\ togrow (pc', a) = false
       /\ alive (pc', a) = true /\ (forall s', a < length (wHeap s') -> okpc c s' (pc', a))).
    { destruct (cTest c); eexists; (split; [reflexivity|]); repeat (split; [reflexivity|]); intros s' Hs'; split; cbn; auto. }
    destruct Hp' as (pc' & -> & Hu & Hc & Hg & Hal & Hokp).
    eapply (simple_move c s _ t PWrite a pc'); eauto; cbn [set_pc wThreads wLocked wGrown wStarted wWait wClosed wHeap wFile wMain wCrashed].
    + pose proof (cnt_upd crit _ _ _ (pc', a) Ht) as F. rewrite Hc in F. cbn in F. lia.
    + intros X. pose proof (cnt_upd crit _ _ _ (pc', a) Ht) as F. rewrite Hc in F. cbn in F. specialize (v_lock0 X). lia.
    + pose proof (cnt_upd togrow _ _ _ (pc', a) Ht) as F. rewrite Hg in F. cbn in F. lia.
    + intros X. pose proof (cnt_upd alive _ _ _ (pc', a) Ht) as F. rewrite Hal in F. cbn in F. specialize (v_wait0 X). lia.
    + destruct v_file0 as (lost & Hl & Hp). exists lost. split; auto. rewrite <- Hp.
      pose proof (pending_upd (wHeap s) _ _ _ (pc', a) Ht) as P. unfold pend1 in P. cbn [fst snd unwritten] in P. rewrite Hu, app_nil_r in P.
      rewrite map_app. cbn [map fst]. rewrite <- !app_assoc. apply Permutation_app_head. rewrite !app_assoc. apply Permutation_app_tail.
      rewrite <- P. apply Permutation_app_comm.
  - (* PRecord *)
    inversion Hs; subst s'; clear Hs. destruct I0.
    eapply (simple_move c s _ t PRecord a PFresh); eauto; cbn [set_pc wThreads wLocked wGrown wStarted wWait wClosed wHeap wFile wMain wCrashed].
    + pose proof (cnt_upd crit _ _ _ (PFresh, a) Ht) as F. cbn in F. lia.
    + intros X. pose proof (cnt_upd crit _ _ _ (PFresh, a) Ht) as F. cbn in F. specialize (v_lock0 X). lia.
    + pose proof (cnt_upd togrow _ _ _ (PFresh, a) Ht) as F. cbn in F. lia.
    + intros X. pose proof (cnt_upd alive _ _ _ (PFresh, a) Ht) as F. cbn in F. specialize (v_wait0 X). lia.
    + split; cbn; auto.
    + destruct v_file0 as (lost & Hl & Hp). exists lost. split; auto. eapply perm_pending; eauto.
  - (* PFresh *)
    destruct (wStarted s <? cTrees c - 1) eqn:El; inversion Hs; subst s'; clear Hs.
    2: { eapply move_winv; eauto. split; cbn; auto. }
    destruct I0. set (b := length (wHeap s)).
    split; cbn [set_pc wThreads wLocked wGrown wStarted wWait wClosed wHeap wFile wMain wCrashed]; auto.
    + rewrite upd_length; auto.
    + pose proof (cnt_upd crit _ _ _ (PCount, b) Ht) as F. cbn in F. lia.
    + intros X. pose proof (cnt_upd crit _ _ _ (PCount, b) Ht) as F. cbn in F. specialize (v_lock0 X). lia.
    + pose proof (cnt_upd togrow _ _ _ (PCount, b) Ht) as F. cbn in F. lia.
    + intros X. pose proof (cnt_upd alive _ _ _ (PCount, b) Ht) as F. cbn in F. specialize (v_wait0 X). lia.
    + apply Forall_upd.
      * intros u w Hne Hn. rewrite Forall_forall in v_pcs0. destruct (v_pcs0 w (nth_error_In _ _ Hn)) as [H1 H2].
        split; [cbn; rewrite app_length; cbn; lia|]. exact H2.
      * split; cbn; auto. rewrite app_length. cbn. unfold b. lia.
    + rewrite map_upd'. apply NoDup_upd; auto. intros X. apply in_map_iff in X as (w & Ew & Hw).
      rewrite Forall_forall in v_pcs0. destruct (v_pcs0 w Hw) as [H1 _]. cbn in Ew. unfold b in Ew. lia.
    + destruct v_file0 as (lost & Hl & Hp). exists lost. split; auto. rewrite <- Hp. apply Permutation_app_head, Permutation_app_tail.
      pose proof (pending_upd (wHeap s ++ [0]) _ _ _ (PCount, b) Ht) as P. unfold pend1 in P. cbn [fst snd unwritten] in P. rewrite !app_nil_r in P.
      rewrite P. rewrite (pending_heap (wHeap s ++ [0]) (wHeap s)); auto.
      intros w Hw _. rewrite Forall_forall in v_pcs0. destruct (v_pcs0 w Hw) as [H1 _]. rewrite app_nth1; auto.
    + rewrite Em. discriminate.
  - (* PCount *)
    inversion Hs; subst s'; clear Hs. destruct I0.
    eapply (simple_move c s _ t PCount a PCheck); eauto; cbn [set_pc wThreads wLocked wGrown wStarted wWait wClosed wHeap wFile wMain wCrashed].
    + pose proof (cnt_upd crit _ _ _ (PCheck, a) Ht) as F. cbn in F. lia.
    + intros X. pose proof (cnt_upd crit _ _ _ (PCheck, a) Ht) as F. cbn in F. specialize (v_lock0 X). lia.
    + pose proof (cnt_upd togrow _ _ _ (PCheck, a) Ht) as F. cbn in F. lia.
    + intros X. pose proof (cnt_upd alive _ _ _ (PCheck, a) Ht) as F. cbn in F. specialize (v_wait0 X). lia.
    + split; cbn; auto.
    + destruct v_file0 as (lost & Hl & Hp). exists lost. split; auto. eapply perm_pending; eauto.
  - (* PCheck *)
    inversion Hs; subst s'; clear Hs.
    eapply move_winv; eauto; try (destruct (wStarted s <? cTrees c); reflexivity).
    split; auto. cbn [fst snd]. destruct (Nat.ltb_spec (wStarted s) (cTrees c)); auto.
  - (* PInc *)
    inversion Hs; subst s'; clear Hs. eapply move_winv; eauto. split; cbn; auto.
  - (* PIncW *)
    destruct Hpc as [-> Hlt]. inversion Hs; subst s'; clear Hs. destruct I0.
    eapply (simple_move c s _ t (PIncW (wStarted s)) a PUnlock); eauto; cbn [set_pc wThreads wLocked wGrown wStarted wWait wClosed wHeap wFile wMain wCrashed].
    + pose proof (cnt_upd crit _ _ _ (PUnlock, a) Ht) as F. cbn in F. lia.
    + intros X. pose proof (cnt_upd crit _ _ _ (PUnlock, a) Ht) as F. cbn in F. specialize (v_lock0 X). lia.
    + pose proof (cnt_upd togrow _ _ _ (PUnlock, a) Ht) as F. cbn in F. lia.
    + lia.
    + intros X. pose proof (cnt_upd alive _ _ _ (PUnlock, a) Ht) as F. cbn in F. specialize (v_wait0 X). lia.
    + split; cbn; auto.
    + destruct v_file0 as (lost & Hl & Hp). exists lost. split; auto. eapply perm_pending; eauto.
  - (* PUnlock *)
    inversion Hs; subst s'; clear Hs. destruct I0. pose proof (cnt_pos crit _ _ _ Ht eq_refl) as Hpos.
    eapply (simple_move c s _ t PUnlock a PGrow); eauto; cbn [set_pc wThreads wLocked wGrown wStarted wWait wClosed wHeap wFile wMain wCrashed].
    + pose proof (cnt_upd crit _ _ _ (PGrow, a) Ht) as F. cbn in F. lia.
    + intros X. pose proof (cnt_upd crit _ _ _ (PGrow, a) Ht) as F. cbn in F. specialize (v_lock0 X).
      destruct (Nat.ltb_spec 1 (cCores c)); [|lia]. cbn. lia.
    + pose proof (cnt_upd togrow _ _ _ (PGrow, a) Ht) as F. cbn in F. lia.
    + intros X. pose proof (cnt_upd alive _ _ _ (PGrow, a) Ht) as F. cbn in F. specialize (v_wait0 X). lia.
    + split; cbn; auto.
    + destruct v_file0 as (lost & Hl & Hp). exists lost. split; auto. eapply perm_pending; eauto.
  - (* PStop *)
    pose proof (cnt_pos crit _ _ _ Ht eq_refl) as Hpos. destruct I0.
    destruct (1 <? cCores c) eqn:Emany; inversion Hs; subst s'; clear Hs.
    + eapply (simple_move c s _ t PStop a PDone); eauto; cbn [set_pc wThreads wLocked wGrown wStarted wWait wClosed wHeap wFile wMain wCrashed].
      * pose proof (cnt_upd crit _ _ _ (PDone, a) Ht) as F. cbn in F. lia.
      * intros X. pose proof (cnt_upd crit _ _ _ (PDone, a) Ht) as F. cbn in F. cbn. lia.
      * pose proof (cnt_upd togrow _ _ _ (PDone, a) Ht) as F. cbn in F. lia.
      * intros X. pose proof (cnt_upd alive _ _ _ (PDone, a) Ht) as F. cbn in F. specialize (v_wait0 X). lia.
      * split; cbn; auto.
      * destruct v_file0 as (lost & Hl & Hp). exists lost. split; auto. eapply perm_pending; eauto.
    + apply Nat.ltb_ge in Emany.
      eapply (simple_move c s _ t PStop a PGone); eauto; cbn [set_pc wThreads wLocked wGrown wStarted wWait wClosed wHeap wFile wMain wCrashed].
      * pose proof (cnt_upd crit _ _ _ (PGone, a) Ht) as F. cbn in F. lia.
      * lia.
      * pose proof (cnt_upd togrow _ _ _ (PGone, a) Ht) as F. cbn in F. lia.
      * lia.
      * split; cbn; auto.
      * destruct v_file0 as (lost & Hl & Hp). exists lost. split; auto. eapply perm_pending; eauto.
  - (* PDone *)
    inversion Hs; subst s'; clear Hs. pose proof (cnt_pos alive _ _ _ Ht eq_refl) as Hpos. destruct I0.
    eapply (simple_move c s _ t PDone a PGone); eauto; cbn [set_pc wThreads wLocked wGrown wStarted wWait wClosed wHeap wFile wMain wCrashed].
    + pose proof (cnt_upd crit _ _ _ (PGone, a) Ht) as F. cbn in F. lia.
    + intros X. pose proof (cnt_upd crit _ _ _ (PGone, a) Ht) as F. cbn in F. specialize (v_lock0 X). lia.
    + pose proof (cnt_upd togrow _ _ _ (PGone, a) Ht) as F. cbn in F. lia.
    + intros X. pose proof (cnt_upd alive _ _ _ (PGone, a) Ht) as F. cbn in F. specialize (v_wait0 X). lia.
    + split; cbn; auto.
    + destruct v_file0 as (lost & Hl & Hp). exists lost. split; auto. eapply perm_pending; eauto.
  - discriminate.
Qed.

Lemma wrun_inv c sched : forall s s', winv c s -> wrun c sched s = Some s' -> winv c s'.
Proof.
  induction sched as [|t sched IH]; cbn; intros s s' I H; [inversion H; subst; auto|].
  destruct (wstep c t s) as [s1|] eqn:E; [|discriminate]. exact (IH _ _ (wstep_inv _ _ _ _ I E) H).
Qed.

(** ** Every run is finite *)
Definition rank (w : wpc * nat) : nat :=
  match fst w with
  | PGrow => 0 | PBoost => 10 | PClose => 1 | PLock => 9 | PWrite => 8 | PRecord => 7 | PFresh => 6 | PCount => 5
  | PCheck => 4 | PInc => 3 | PIncW _ => 2 | PUnlock => 1 | PStop => 2 | PDone => 1 | PGone => 0
  end.
Definition measure (c : wconf) (s : wstate) : nat :=
  11 * (Nat.max (cTrees c) (cCores c) - wGrown s) + list_sum (map rank (wThreads s))
  + Nat.b2n (negb (wMain s)) + Nat.b2n (negb (wCrashed s)).

Lemma sum_upd (f : wpc * nat -> nat) : forall ws t w w', nth_error ws t = Some w ->
  list_sum (map f (upd ws t w')) + f w = list_sum (map f ws) + f w'.
Proof.
  unfold list_sum. induction ws as [|x ws IH]; destruct t; cbn; intros w w' H; try discriminate.
  - inversion H; subst; lia.
  - specialize (IH _ _ w' H). lia.
Qed.

Lemma wstep_measure c s t s' : winv c s -> wstep c t s = Some s' -> measure c s' < measure c s.
Proof.
  intros I Hs. unfold wstep in Hs.
  destruct (wCrashed s) eqn:Ecr; [discriminate|]. destruct (wMain s) eqn:Em; [discriminate|]. cbn [orb] in Hs.
  destruct (nth_error (wThreads s) t) as [[pc a]|] eqn:Ht.
  2: { destruct (main_ready c s) eqn:Er; [|discriminate]. inversion Hs; subst s'. unfold measure; cbn [wGrown wThreads wMain wCrashed].
       rewrite Em, Ecr. cbn. lia. }
  assert (Hmove : forall pc' b, rank (pc', b) < rank (pc, a) ->
     list_sum (map rank (upd (wThreads s) t (pc', b))) < list_sum (map rank (wThreads s))).
  { intros pc' b H. pose proof (sum_upd rank _ _ _ (pc', b) Ht). lia. }
  destruct pc; cbn [worker_step] in Hs;
    repeat match type of Hs with
    | context [if ?b then _ else _] => destruct b eqn:?
    end; inversion Hs; subst s'; unfold measure; cbn [set_pc wGrown wThreads wMain wCrashed wFile wTrees wHeap]; rewrite ?Ecr, ?Em; cbn [negb Nat.b2n];
    try (match goal with |- context [upd (wThreads s) t (?p, ?b)] => pose proof (Hmove p b ltac:(cbn; lia)); lia end);
    try (destruct I; pose proof (cnt_pos togrow _ _ _ Ht eq_refl);
         match goal with |- context [upd (wThreads s) t (?p, ?b)] => pose proof (sum_upd rank _ _ _ (p, b) Ht) as X; cbn [rank fst] in X end; lia).
  lia.
Qed.

Lemma wrun_bound c sched : forall s s', winv c s -> wrun c sched s = Some s' -> length sched + measure c s' <= measure c s.
Proof.
  induction sched as [|t sched IH]; cbn [wrun length]; intros s s' I H; [inversion H; subst; auto|].
  destruct (wstep c t s) as [s1|] eqn:E; [|discriminate].
  pose proof (wstep_measure _ _ _ _ I E). specialize (IH _ _ (wstep_inv _ _ _ _ I E) H). lia.
Qed.

Lemma measure_init c : measure c (winit c) = 11 * Nat.max (cTrees c) (cCores c) + 2.
Proof.
  unfold measure. cbn [wGrown wThreads wMain wCrashed winit negb Nat.b2n].
  assert (E : forall l, list_sum (map rank (map (fun t : nat => (PGrow, t)) l)) = 0) by (induction l; cbn; auto).
  rewrite E. lia.
Qed.

(** ** Nobody waits for ever, except when a worker was lost *)
Lemma wprogress c s : winv c s -> wCrashed s = false -> wMain s = false ->
  (exists t s', wstep c t s = Some s')
  \/ (1 < cCores c /\ wClosed s = true /\ forall w, In w (wThreads s) -> fst w = PGone).
Proof.
  intros I Ec Em. pose proof I as I0. destruct I0.
  assert (Hst : forall t w s', nth_error (wThreads s) t = Some w -> worker_step c t (fst w) (snd w) s = Some s' -> wstep c t s = Some s').
  { intros t [p b] s' Ht H. unfold wstep. rewrite Ec, Em, Ht. exact H. }
  destruct (Nat.eq_dec (cnt crit (wThreads s)) 0) as [Hz|Hz].
  - destruct (Nat.eq_dec (cnt alive (wThreads s)) 0) as [Ha|Ha].
    + assert (Hg : forall w, In w (wThreads s) -> fst w = PGone).
      { intros w Hw. pose proof (cnt_zero _ _ Ha w Hw) as X. unfold alive in X. destruct (fst w); auto; discriminate. }
      assert (Hr : main_ready c s = true -> exists t s', wstep c t s = Some s').
      { intros Hr. exists (length (wThreads s)). eexists. unfold wstep. rewrite Ec, Em. cbn [orb].
        assert (nth_error (wThreads s) (length (wThreads s)) = None) as -> by (apply nth_error_None; auto).
        rewrite Hr. reflexivity. }
      unfold main_ready in Hr. destruct (Nat.ltb_spec 1 (cCores c)) as [Hm|Hm].
      * specialize (v_wait0 Hm). rewrite Ha in v_wait0. destruct (wClosed s) eqn:Ecl; [right; auto|left].
        apply Hr. rewrite v_wait0. reflexivity.
      * left. apply Hr. apply forallb_forall. intros w Hw. rewrite (Hg w Hw). auto.
    + left. destruct (cnt_ex alive (wThreads s)) as (t & w & Ht & Hw); [lia|].
      assert (Hcw : crit w = false) by (apply (cnt_zero _ _ Hz); eapply nth_error_In; eauto).
      assert (Hl : 1 < cCores c -> wLocked s = false).
      { intros X. specialize (v_lock0 X). destruct (wLocked s); auto. cbn in v_lock0. lia. }
      assert (exists s', worker_step c t (fst w) (snd w) s = Some s') as [s' E].
      { destruct w as [p b]. cbn [fst snd] in *. destruct p; cbn in Hcw, Hw; try discriminate; cbn [worker_step]; try (eexists; reflexivity).
        - destruct (wClosed s); eexists; reflexivity.
        - destruct (Nat.ltb_spec 1 (cCores c)) as [X|X]; [rewrite (Hl X)|]; eexists; reflexivity. }
      exists t, s'. eauto.
  - left. destruct (cnt_ex crit (wThreads s)) as (t & w & Ht & Hw); [lia|].
    assert (exists s', worker_step c t (fst w) (snd w) s = Some s') as [s' E].
    { destruct w as [p b]. cbn [fst snd] in *. destruct p; cbn in Hw; try discriminate; cbn [worker_step]; try (eexists; reflexivity).
      - destruct (wStarted s <? cTrees c - 1); eexists; reflexivity.
      - destruct (1 <? cCores c); eexists; reflexivity. }
    exists t, s'. eauto.
Qed.

(** ** The end of a run *)
Lemma main_done c s : winv c s -> wMain s = true ->
  (forall w, In w (wThreads s) -> fst w = PGone) /\ (1 < cCores c -> wClosed s = false).
Proof.
  intros I Hm. destruct I. specialize (v_main0 Hm). unfold main_ready in v_main0.
  destruct (Nat.ltb_spec 1 (cCores c)) as [X|X].
  - apply Nat.eqb_eq in v_main0. specialize (v_wait0 X). split.
    + intros w Hw. pose proof (cnt_zero alive (wThreads s) ltac:(lia) w Hw) as Y. unfold alive in Y. destruct (fst w); auto; discriminate.
    + intros _. destruct (wClosed s); auto. cbn in v_wait0. lia.
  - split; [|lia]. intros w Hw. rewrite forallb_forall in v_main0. specialize (v_main0 w Hw). destruct (fst w); auto; discriminate.
Qed.
