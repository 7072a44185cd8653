(** Goroutines with mutexes: an interleaving machine and the theorem that code
    made of critical sections behaves as if the sections ran one at a time.

    Nothing here models a particular line of /repo.  A machine has shared
    cells, one mutex per cell, and threads.  A thread is a list of
    instructions; a schedule is the list of the threads that move.  One
    instruction reads or writes a cell at most once, so unprotected code is
    interleaved at the granularity of single accesses. *)
From Verif Require Import Go GoLemmas.
Local Open Scope nat_scope.
Local Open Scope list_scope.

(** All ways to merge the lists of several threads into one, keeping the order
    inside each thread. *)
Inductive interleave {A : Type} : list (list A) -> list A -> Prop :=
| il_nil ts : Forall (fun l => l = []) ts -> interleave ts []
| il_cons ts t a l xs :
    nth_error ts t = Some (a :: l) -> interleave (upd ts t l) xs -> interleave ts (a :: xs).

Section Machine.
  Context {Cell Reg : Type}.

  Inductive instr :=
  | ILock (c : nat)
  | IUnlock (c : nat)
  | IAct (c : nat) (a : Cell -> Reg -> Cell * Reg).

  Record mach := mkM {
    mCells : list Cell;
    mLocks : list bool;
    mThreads : list (list instr * Reg)
  }.

  (** One step of thread [t]; [None] if it cannot move (finished, blocked on a
      locked mutex, or running into a fatal error). *)
  Definition step (t : nat) (m : mach) : option mach :=
    match nth_error (mThreads m) t with
    | Some (ILock c :: p, r) =>
        match nth_error (mLocks m) c with
        | Some false => Some (mkM (mCells m) (upd (mLocks m) c true) (upd (mThreads m) t (p, r)))
        | _ => None
        end
    | Some (IUnlock c :: p, r) =>
        match nth_error (mLocks m) c with
        | Some true => Some (mkM (mCells m) (upd (mLocks m) c false) (upd (mThreads m) t (p, r)))
        | _ => None
        end
    | Some (IAct c a :: p, r) =>
        match nth_error (mCells m) c with
        | Some x => let (x', r') := a x r in
                    Some (mkM (upd (mCells m) c x') (mLocks m) (upd (mThreads m) t (p, r')))
        | None => None
        end
    | _ => None
    end.

  Fixpoint exec (sched : list nat) (m : mach) : option mach :=
    match sched with
    | [] => Some m
    | t :: s => match step t m with Some m' => exec s m' | None => None end
    end.

  Definition finished (m : mach) : Prop := Forall (fun th => fst th = []) (mThreads m).

  (** ** Code made of critical sections *)
  Context {Op : Type}.
  Variable cellof : Op -> nat.
  Variable acts : Op -> list (Cell -> Reg -> Cell * Reg).
  Variable app : Op -> Cell -> Cell.

  Definition runacts (l : list (Cell -> Reg -> Cell * Reg)) (xr : Cell * Reg) : Cell * Reg :=
    fold_left (fun xr a => a (fst xr) (snd xr)) l xr.

  Definition critical (o : Op) : list instr :=
    ILock (cellof o) :: map (IAct (cellof o)) (acts o) ++ [IUnlock (cellof o)].
  Definition compile (l : list Op) : list instr := flat_map critical l.

  (** Sequential meaning. *)
  Definition apply1 (cs : list Cell) (o : Op) : list Cell :=
    match nth_error cs (cellof o) with
    | Some x => upd cs (cellof o) (app o x)
    | None => cs
    end.
  Definition seqrun (l : list Op) (cs : list Cell) : list Cell := fold_left apply1 l cs.

  Hypothesis acts_app : forall o x r, fst (runacts (acts o) (x, r)) = app o x.

  Definition start (cs : list Cell) (r0 : Reg) (ops : list (list Op)) : mach :=
    mkM cs (repeat false (length cs)) (map (fun l => (compile l, r0)) ops).

  Lemma apply1_length cs o : length (apply1 cs o) = length cs.
  Proof. unfold apply1. destruct (nth_error _ _); auto. apply upd_length. Qed.
  Lemma seqrun_length l : forall cs, length (seqrun l cs) = length cs.
  Proof.
    induction l; cbn; intros; auto. rewrite IHl, apply1_length; auto.
  Qed.

  (** Ghost state of a thread: outside of a section with the operations still to
      run, or inside the section of [o] after the actions [a1]. *)
  Inductive ghost :=
  | GOut (rem : list Op)
  | GIn (o : Op) (rest : list Op) (a1 a2 : list (Cell -> Reg -> Cell * Reg)) (r0 : Reg).
  Definition remof (g : ghost) : list Op :=
    match g with GOut rem => rem | GIn o rest _ _ _ => o :: rest end.

  Definition matches (V : list Cell) (m : mach) (th : list instr * Reg) (g : ghost) : Prop :=
    match g with
    | GOut rem => fst th = compile rem
    | GIn o rest a1 a2 r0 =>
        acts o = a1 ++ a2
        /\ fst th = map (IAct (cellof o)) a2 ++ IUnlock (cellof o) :: compile rest
        /\ nth_error (mLocks m) (cellof o) = Some true
        /\ exists x, nth_error V (cellof o) = Some x
             /\ nth_error (mCells m) (cellof o) = Some (fst (runacts a1 (x, r0)))
             /\ snd th = snd (runacts a1 (x, r0))
    end.

  Record inv (cs0 : list Cell) (ops : list (list Op)) (m : mach) (done : list Op)
             (gs : list ghost) : Prop := {
    i_merge : forall l, interleave (map remof gs) l -> interleave ops (done ++ l);
    i_len : length gs = length (mThreads m);
    i_cells : length (mCells m) = length cs0;
    i_locks : length (mLocks m) = length cs0;
    i_thr : forall t th g, nth_error (mThreads m) t = Some th -> nth_error gs t = Some g ->
        matches (seqrun done cs0) m th g;
    i_free : forall c, nth_error (mLocks m) c = Some false ->
        nth_error (mCells m) c = nth_error (seqrun done cs0) c;
    i_held : forall c, nth_error (mLocks m) c = Some true ->
        exists t o rest a1 a2 r0, nth_error gs t = Some (GIn o rest a1 a2 r0) /\ cellof o = c;
    i_uniq : forall t1 t2 o1 o2 e1 e2 a1 a2 b1 b2 r1 r2,
        nth_error gs t1 = Some (GIn o1 e1 a1 b1 r1) ->
        nth_error gs t2 = Some (GIn o2 e2 a2 b2 r2) ->
        cellof o1 = cellof o2 -> t1 = t2;
    i_rng : forall t g, nth_error gs t = Some g ->
        Forall (fun o => cellof o < length cs0) (remof g)
  }.

  Lemma inv_start cs0 r0 ops :
    Forall (Forall (fun o => cellof o < length cs0)) ops ->
    inv cs0 ops (start cs0 r0 ops) [] (map GOut ops).
  Proof.
    intros Hr. split; cbn.
    - intros l. rewrite map_map; cbn. rewrite map_id. auto.
    - rewrite !map_length; auto.
    - auto.
    - apply repeat_length.
    - intros t th g H1 H2. rewrite nth_error_map in H1, H2.
      destruct (nth_error ops t); inversion H1; inversion H2; subst. reflexivity.
    - auto.
    - intros c Hc. exfalso. apply nth_error_In, repeat_spec in Hc. discriminate.
    - intros t1 t2 o1 o2 ? ? ? ? ? ? ? ? H1 _ _. rewrite nth_error_map in H1.
      destruct (nth_error ops t1); discriminate.
    - intros t g H. rewrite nth_error_map in H.
      destruct (nth_error ops t) eqn:E; inversion H; subst; cbn.
      rewrite Forall_forall in Hr. apply Hr. eapply nth_error_In; eauto.
  Qed.

  Lemma map_upd {A B} (f : A -> B) l i x : map f (upd l i x) = upd (map f l) i (f x).
  Proof. revert i; induction l; destruct i; cbn; auto; f_equal; auto. Qed.

  Lemma upd_cases {A} (l : list A) i x k y : nth_error (upd l i x) k = Some y ->
    (k = i /\ y = x) \/ (k <> i /\ nth_error l k = Some y).
  Proof.
    rewrite nth_error_upd. destruct (Nat.eqb_spec k i) as [->|Hn]; cbn [andb].
    - destruct (Nat.ltb_spec i (length l)) as [E|E]; intros H.
      + left; split; congruence.
      + apply nth_error_some_lt in H. lia.
    - auto.
  Qed.

  Lemma upd_nth_same {A} (l : list A) i x k : nth_error l i = Some x ->
    nth_error (upd l i x) k = nth_error l k.
  Proof. intros H. rewrite upd_same; auto. Qed.

  Lemma runacts_snoc l a xr : runacts (l ++ [a]) xr = a (fst (runacts l xr)) (snd (runacts l xr)).
  Proof. unfold runacts. rewrite fold_left_app. reflexivity. Qed.

  Lemma step_inv cs0 ops m done gs t m' :
    inv cs0 ops m done gs -> step t m = Some m' ->
    exists done' gs', inv cs0 ops m' done' gs'.
  Proof.
    intros I Hs. destruct I as [Imerge Ilen Icells Ilocks Ithr Ifree Iheld Iuniq Irng].
    unfold step in Hs. destruct (nth_error (mThreads m) t) as [[p r]|] eqn:Et; [|discriminate].
    destruct (nth_error gs t) as [g|] eqn:Eg.
    2: { apply nth_error_None in Eg. apply nth_error_some_lt in Et. lia. }
    pose proof (Ithr _ _ _ Et Eg) as Hm.
    assert (Htl : t < length gs) by (eapply nth_error_some_lt; eauto).
    assert (Htl' : t < length (mThreads m)) by lia.
    destruct g as [rem|o rest a1 a2 r0]; cbn in Hm.
    - (* outside: the next instruction is a Lock *)
      destruct rem as [|o rest]; cbn in Hm; subst p; [discriminate|].
      destruct (nth_error (mLocks m) (cellof o)) as [[|]|] eqn:El; try discriminate.
      inversion Hs; subst m'; clear Hs.
      exists done, (upd gs t (GIn o rest [] (acts o) r)).
      assert (Hco : cellof o < length cs0).
      { specialize (Irng _ _ Eg); cbn in Irng. inversion Irng; auto. }
      split; cbn [mThreads mLocks mCells].
      + intros l. rewrite map_upd; cbn.
        rewrite upd_same by (rewrite nth_error_map, Eg; reflexivity). apply Imerge.
      + rewrite !upd_length; auto.
      + auto.
      + rewrite upd_length; auto.
      + intros t' th g H1 H2. destruct (Nat.eq_dec t t') as [->|Hne].
        * rewrite nth_error_upd_eq in H1 by lia; rewrite nth_error_upd_eq in H2 by lia. inversion H1; inversion H2; subst; cbn.
          split; [reflexivity|]. rewrite <- app_assoc. split; [reflexivity|].
          split; [apply nth_error_upd_eq; lia|].
          rewrite (Ifree _ El).
          destruct (nth_error (seqrun done cs0) (cellof o)) as [x|] eqn:Ex.
          -- exists x; auto.
          -- apply nth_error_None in Ex. rewrite seqrun_length in Ex. lia.
        * rewrite nth_error_upd_neq in H1 by auto; rewrite nth_error_upd_neq in H2 by auto.
          pose proof (Ithr _ _ _ H1 H2) as Hmm. destruct g as [rem'|o' rest' b1 b2 r']; cbn in *; auto.
          destruct Hmm as (? & ? & Hl & ?). split; [auto|]. split; [auto|]. split; [|auto].
          destruct (Nat.eq_dec (cellof o') (cellof o)) as [Hcc|Hcc]; [rewrite Hcc in Hl; congruence|].
          rewrite nth_error_upd_neq; auto.
      + intros c Hc. destruct (Nat.eq_dec (cellof o) c) as [<-|Hne].
        * rewrite nth_error_upd_eq in Hc by lia. discriminate.
        * rewrite nth_error_upd_neq in Hc by auto. auto.
      + intros c Hc. destruct (Nat.eq_dec (cellof o) c) as [<-|Hne].
        * exists t, o, rest, [], (acts o), r. split; auto. apply nth_error_upd_eq; auto.
        * rewrite nth_error_upd_neq in Hc by auto.
          destruct (Iheld _ Hc) as (t' & o' & rest' & b1 & b2 & r' & H1 & H2).
          exists t', o', rest', b1, b2, r'. split; auto.
          rewrite nth_error_upd_neq; auto. intros ->. congruence.
      + assert (Hno : forall t' o' e a b r', nth_error gs t' = Some (GIn o' e a b r') -> cellof o' <> cellof o).
        { intros t' o' e a b r' H Hc. destruct (nth_error (mThreads m) t') as [th|] eqn:Eth.
          - pose proof (Ithr _ _ _ Eth H) as (_ & _ & Hl & _). rewrite Hc in Hl. congruence.
          - apply nth_error_None in Eth. apply nth_error_some_lt in H. lia. }
        intros t1 t2 o1 o2 e1 e2 b1 b2 c1 c2 r1 r2 H1 H2 Hc.
        apply upd_cases in H1 as [[-> H1]|[Hn1 H1]], H2 as [[-> H2]|[Hn2 H2]]; auto.
        * inversion H1; subst. exfalso; eapply Hno; eauto.
        * inversion H2; subst. exfalso; eapply Hno; eauto.
        * eapply Iuniq; eauto.
      + intros t' g' H. apply upd_cases in H as [[-> H]|[Hn H]].
        * subst g'. specialize (Irng _ _ Eg); auto.
        * eapply Irng; eauto.
    - destruct Hm as (Ea & Ep & El & x & Ex & Ec & Er). cbn in Ep, Er; subst p r.
      assert (Hco : cellof o < length cs0).
      { specialize (Irng _ _ Eg); cbn in Irng. inversion Irng; auto. }
      destruct a2 as [|a a2]; cbn in Hs.
      + (* Unlock: the section is counted *)
        rewrite El in Hs. inversion Hs; subst m'; clear Hs.
        rewrite app_nil_r in Ea. subst a1.
        assert (Hseq : seqrun (done ++ [o]) cs0 = upd (seqrun done cs0) (cellof o) (app o x)).
        { unfold seqrun. rewrite fold_left_app; cbn. fold (seqrun done cs0).
          unfold apply1. rewrite Ex. reflexivity. }
        rewrite acts_app in Ec.
        assert (Hlen : length (seqrun done cs0) = length cs0) by apply seqrun_length.
        exists (done ++ [o]), (upd gs t (GOut rest)).
        assert (Hother : forall t' o' e a b r', t' <> t -> nth_error gs t' = Some (GIn o' e a b r') -> cellof o' <> cellof o).
        { intros t' o' e a b r' Hne H Hc. apply Hne. eapply Iuniq; eauto. }
        split; cbn [mThreads mLocks mCells].
        * intros l Hl. rewrite <- app_assoc; cbn. apply Imerge.
          rewrite map_upd in Hl; cbn in Hl.
          apply il_cons with (t := t) (l := rest); auto.
          rewrite nth_error_map, Eg; reflexivity.
        * rewrite !upd_length; auto.
        * auto.
        * rewrite upd_length; auto.
        * intros t' th g H1 H2. rewrite Hseq. destruct (Nat.eq_dec t t') as [->|Hne].
          -- rewrite nth_error_upd_eq in H1 by lia; rewrite nth_error_upd_eq in H2 by lia. inversion H1; inversion H2; subst; reflexivity.
          -- rewrite nth_error_upd_neq in H1 by auto; rewrite nth_error_upd_neq in H2 by auto.
             pose proof (Ithr _ _ _ H1 H2) as Hmm. destruct g as [rem'|o' rest' b1 b2 r']; cbn in *; auto.
             assert (Hcc : cellof o' <> cellof o) by (eapply Hother; eauto).
             destruct Hmm as (? & ? & Hl & x' & ? & ? & ?). split; [auto|]. split; [auto|].
             rewrite !nth_error_upd_neq by auto. eauto 6.
        * intros c Hc. rewrite Hseq. destruct (Nat.eq_dec (cellof o) c) as [<-|Hne].
          -- rewrite nth_error_upd_eq by lia. auto.
          -- rewrite nth_error_upd_neq by auto. rewrite nth_error_upd_neq in Hc by auto. auto.
        * intros c Hc. destruct (Nat.eq_dec (cellof o) c) as [<-|Hne].
          -- rewrite nth_error_upd_eq in Hc by lia. discriminate.
          -- rewrite nth_error_upd_neq in Hc by auto.
             destruct (Iheld _ Hc) as (t' & o' & rest' & b1 & b2 & r' & H1 & H2).
             exists t', o', rest', b1, b2, r'. split; auto.
             rewrite nth_error_upd_neq; auto. intros ->. congruence.
        * intros t1 t2 o1 o2 e1 e2 b1 b2 c1 c2 r1 r2 H1 H2 Hc.
          apply upd_cases in H1 as [[-> H1]|[Hn1 H1]], H2 as [[-> H2]|[Hn2 H2]]; auto;
            try discriminate.
          eapply Iuniq; eauto.
        * intros t' g' H. apply upd_cases in H as [[-> H]|[Hn H]].
          -- subst g'. specialize (Irng _ _ Eg); cbn in Irng.
             inversion Irng; auto.
          -- eapply Irng; eauto.
      + (* an action inside the section *)
        rewrite Ec in Hs.
        destruct (a (fst (runacts a1 (x, r0))) (snd (runacts a1 (x, r0)))) as [x' r'] eqn:Eact.
        inversion Hs; subst m'; clear Hs.
        exists done, (upd gs t (GIn o rest (a1 ++ [a]) a2 r0)).
        assert (Hother : forall t' o' e b c r1, t' <> t -> nth_error gs t' = Some (GIn o' e b c r1) -> cellof o' <> cellof o).
        { intros t' o' e b c r1 Hne H Hc. apply Hne. eapply Iuniq; eauto. }
        split; cbn [mThreads mLocks mCells].
        * intros l. rewrite map_upd; cbn.
          rewrite upd_same by (rewrite nth_error_map, Eg; reflexivity). apply Imerge.
        * rewrite !upd_length; auto.
        * rewrite upd_length; auto.
        * auto.
        * intros t' th g H1 H2. destruct (Nat.eq_dec t t') as [->|Hne].
          -- rewrite nth_error_upd_eq in H1 by lia; rewrite nth_error_upd_eq in H2 by lia. inversion H1; inversion H2; subst; cbn.
             split; [rewrite <- app_assoc; auto|]. split; [reflexivity|]. split; [auto|].
             exists x. split; [auto|]. rewrite runacts_snoc, Eact. cbn.
             split; auto. apply nth_error_upd_eq. lia.
          -- rewrite nth_error_upd_neq in H1 by auto; rewrite nth_error_upd_neq in H2 by auto.
             pose proof (Ithr _ _ _ H1 H2) as Hmm. destruct g as [rem'|o' rest' b1 b2 r1]; cbn in *; auto.
             assert (Hcc : cellof o' <> cellof o) by (eapply Hother; eauto).
             destruct Hmm as (? & ? & Hl & y & ? & ? & ?). split; [auto|]. split; [auto|].
             rewrite !nth_error_upd_neq by auto. eauto 6.
        * intros c Hc. assert (cellof o <> c) by congruence.
          rewrite nth_error_upd_neq by auto. auto.
        * intros c Hc. destruct (Iheld _ Hc) as (t' & o' & rest' & b1 & b2 & r1 & H1 & H2).
          destruct (Nat.eq_dec t t') as [->|Hne].
          -- rewrite Eg in H1. inversion H1; subst.
             exists t', o', rest', (b1 ++ [a]), a2, r1. split; auto. apply nth_error_upd_eq; auto.
          -- exists t', o', rest', b1, b2, r1. split; auto. rewrite nth_error_upd_neq; auto.
        * intros t1 t2 o1 o2 e1 e2 b1 b2 c1 c2 r1 r2 H1 H2 Hc.
          apply upd_cases in H1 as [[-> H1]|[Hn1 H1]], H2 as [[-> H2]|[Hn2 H2]]; auto.
          -- inversion H1; subst. eapply Iuniq; eauto.
          -- inversion H2; subst. eapply Iuniq; eauto.
          -- eapply Iuniq; eauto.
        * intros t' g' H. apply upd_cases in H as [[-> H]|[Hn H]].
          -- subst g'. specialize (Irng _ _ Eg); auto.
          -- eapply Irng; eauto.
  Qed.

  Lemma exec_inv cs0 ops sched : forall m done gs m',
    inv cs0 ops m done gs -> exec sched m = Some m' ->
    exists done' gs', inv cs0 ops m' done' gs'.
  Proof.
    induction sched as [|t s IH]; cbn; intros m done gs m' I E.
    - inversion E; subst; eauto.
    - destruct (step t m) as [m1|] eqn:Es; [|discriminate].
      destruct (step_inv _ _ _ _ _ _ _ I Es) as (d1 & g1 & I1). eapply IH; eauto.
  Qed.

  (** Every schedule that runs all threads to their end leaves the cells as some
      sequential order of the operations does. *)
  Theorem linearize cs0 r0 ops sched m' :
    Forall (Forall (fun o => cellof o < length cs0)) ops ->
    exec sched (start cs0 r0 ops) = Some m' -> finished m' ->
    exists l, interleave ops l /\ mCells m' = seqrun l cs0
              /\ mLocks m' = repeat false (length cs0).
  Proof.
    intros Hr E Hf.
    destruct (exec_inv _ _ _ _ _ _ _ (inv_start cs0 r0 ops Hr) E) as (done & gs & I).
    assert (Hg : forall t g, nth_error gs t = Some g -> g = GOut []).
    { intros t g Hg. destruct (nth_error (mThreads m') t) as [th|] eqn:Et.
      - pose proof (i_thr _ _ _ _ _ I _ _ _ Et Hg) as Hm.
        unfold finished in Hf. rewrite Forall_forall in Hf.
        pose proof (Hf _ (nth_error_In _ _ Et)) as Hp.
        destruct g as [rem|o rest a1 a2 r]; cbn in Hm.
        + rewrite Hp in Hm. destruct rem; [auto|discriminate].
        + destruct Hm as (_ & Hx & _). rewrite Hp in Hx. destruct a2; discriminate.
      - apply nth_error_None in Et. apply nth_error_some_lt in Hg.
        rewrite (i_len _ _ _ _ _ I) in Hg. lia. }
    assert (Hlk : forall c b, nth_error (mLocks m') c = Some b -> b = false).
    { intros c [|] Hc; auto. destruct (i_held _ _ _ _ _ I _ Hc) as (t & o & rest & a1 & a2 & r & H & _).
      apply Hg in H. discriminate. }
    exists done. split; [|split].
    - rewrite <- (app_nil_r done). apply (i_merge _ _ _ _ _ I). apply il_nil.
      rewrite Forall_map, Forall_forall. intros g Hin. apply In_nth_error in Hin as [t Ht].
      apply Hg in Ht. subst; reflexivity.
    - apply nth_error_ext'. intros c.
      destruct (nth_error (mLocks m') c) as [b|] eqn:Ec.
      + rewrite (Hlk _ _ Ec) in Ec. apply (i_free _ _ _ _ _ I _ Ec).
      + apply nth_error_None in Ec. rewrite (i_locks _ _ _ _ _ I) in Ec.
        assert (nth_error (mCells m') c = None) as ->
          by (apply nth_error_None; rewrite (i_cells _ _ _ _ _ I); lia).
        symmetry. apply nth_error_None. rewrite seqrun_length. lia.
    - apply nth_error_ext'. intros c.
      destruct (nth_error (mLocks m') c) as [b|] eqn:Ec.
      + rewrite (Hlk _ _ Ec) in *. symmetry. apply nth_error_some_lt in Ec.
        rewrite (i_locks _ _ _ _ _ I) in Ec. apply nth_error_repeat; auto.
      + symmetry. apply nth_error_None. rewrite repeat_length.
        apply nth_error_None in Ec. rewrite (i_locks _ _ _ _ _ I) in Ec. auto.
  Qed.

  (** No schedule gets stuck: while a thread is unfinished, some thread can move. *)
  Theorem no_deadlock cs0 r0 ops sched m' :
    Forall (Forall (fun o => cellof o < length cs0)) ops ->
    exec sched (start cs0 r0 ops) = Some m' -> ~ finished m' ->
    exists t m'', step t m' = Some m''.
  Proof.
    intros Hr E Hf.
    destruct (exec_inv _ _ _ _ _ _ _ (inv_start cs0 r0 ops Hr) E) as (done & gs & I).
    destruct (Forall_Exists_dec (fun g => match g with GOut _ => True | GIn _ _ _ _ _ => False end))
      with (l := gs) as [Hall|Hex].
    { intros []; auto. }
    - (* nobody holds a lock: any unfinished thread can take its own *)
      assert (Hex : Exists (fun th => ~ fst th = []) (mThreads m')).
      { apply neg_Forall_Exists_neg; auto. intros [p r]; destruct p; cbn; [left; auto|right; discriminate]. }
      apply Exists_exists in Hex as (th & Hin & Hne). apply In_nth_error in Hin as [t Et].
      destruct (nth_error gs t) as [g|] eqn:Eg.
      2: { apply nth_error_None in Eg. apply nth_error_some_lt in Et. rewrite (i_len _ _ _ _ _ I) in Eg. lia. }
      rewrite Forall_forall in Hall. pose proof (Hall _ (nth_error_In _ _ Eg)) as Ho.
      destruct g as [rem|]; [|contradiction]. pose proof (i_thr _ _ _ _ _ I _ _ _ Et Eg) as Hm; cbn in Hm.
      destruct rem as [|o rest]; cbn in Hm; [contradiction|].
      pose proof (i_rng _ _ _ _ _ I _ _ Eg) as Hg; cbn in Hg. inversion Hg as [|? ? Hc _]; subst.
      destruct th as [p r]; cbn in Hm; subst p. exists t. unfold step. rewrite Et.
      destruct (nth_error (mLocks m') (cellof o)) as [[|]|] eqn:El.
      + exfalso. destruct (i_held _ _ _ _ _ I _ El) as (t' & o' & rest' & a1 & a2 & r1 & H & _).
        apply (Hall _ (nth_error_In _ _ H)).
      + eauto.
      + apply nth_error_None in El. rewrite (i_locks _ _ _ _ _ I) in El. lia.
    - apply Exists_exists in Hex as (g & Hin & Hg). apply In_nth_error in Hin as [t Eg].
      destruct g as [|o rest a1 a2 r1]; [exfalso; auto|].
      destruct (nth_error (mThreads m') t) as [[p r]|] eqn:Et.
      2: { apply nth_error_None in Et. apply nth_error_some_lt in Eg. rewrite (i_len _ _ _ _ _ I) in Eg. lia. }
      pose proof (i_thr _ _ _ _ _ I _ _ _ Et Eg) as (Ea & Ep & El & x & Ex & Ec & Er).
      cbn in Ep, Er; subst p r. exists t. unfold step. rewrite Et.
      destruct a2 as [|a a2]; cbn.
      + rewrite El. eauto.
      + rewrite Ec. destruct (a _ _). eauto.
  Qed.
End Machine.

(** Facts about interleavings. *)
Lemma interleave_perm {A} (ts : list (list A)) xs : interleave ts xs -> Permutation (concat ts) xs.
Proof.
  induction 1 as [ts H|ts t a l xs H _ IH].
  - replace (concat ts) with (@nil A); auto. induction H; cbn; subst; auto.
  - rewrite <- IH. clear IH. revert t H. induction ts as [|u ts IHts]; intros [|t] H; cbn in *; try discriminate.
    + inversion H; subst; reflexivity.
    + rewrite (IHts _ H). rewrite Permutation_app_comm. cbn. apply perm_skip.
      apply Permutation_app_comm.
Qed.
