(** C45: incremental updates of the split impurity equal recomputation. *)
From Verif Require Import Go GoLemmas F64 F64Order Exact ModelFeature ModelImpurity ImpuritySpec ImpurityProofs PropImpurity.
Local Open Scope nat_scope.
Local Open Scope list_scope.

(** A caller that walks through a chain of splits: first the full computation,
    then one update per step; the values seen on the way. *)
Fixpoint updates {K V} (upd : list nat -> list nat -> K -> list nat -> res (V * K))
    (steps : list move) (k : K) : res (list V) :=
  match steps with
  | [] => Ok []
  | s :: steps' =>
      let* (v, k') := upd (mvL s) (mvR s) k (mvMoved s) in
      let* vs := updates upd steps' k' in Ok (v :: vs)
  end.
Definition incremental {K V} (split : list nat -> list nat -> K -> res (V * K))
    (upd : list nat -> list nat -> K -> list nat -> res (V * K))
    (l r : list nat) (steps : list move) (k : K) : res (list V) :=
  let* (v, k') := split l r k in
  let* vs := updates upd steps k' in Ok (v :: vs).

(** The same values by full computation of every split, each with its own scratch
    space [k']. *)
Fixpoint recomputed {K V} (split : list nat -> list nat -> K -> res (V * K))
    (splits : list (list nat * list nat)) (k' : K) : res (list V) :=
  match splits with
  | [] => Ok []
  | (l, r) :: splits' =>
      let* (v, _) := split l r k' in
      let* vs := recomputed split splits' k' in Ok (v :: vs)
  end.

Definition chain (l r : list nat) (steps : list move) : list (list nat * list nat) :=
  (l, r) :: map (fun s => (mvL s, mvR s)) steps.

Definition room (n : nat) (k : counters) : Prop :=
  length (kL k) = n /\ length (kR k) = n /\ length (kM k) = n.

Section Chain.
  Variable A : arith.
  Variables (data : list nat) (imp : impurity A) (from : recount A).
  Hypothesis Hco : coherent A data imp from.
  Variable n : nat.
  Variable m : option (list nat).
  Hypothesis Hm : forall mm, m = Some mm -> labelled data n mm.
  Variable upd : list nat -> list nat -> counters -> list nat -> res (A * counters).
  (** an update step gives value and state of the full computation *)
  Hypothesis Hupd : forall l r l' r' moved k,
    labelled data n moved -> labelled data n l' -> labelled data n r' ->
    Permutation l' (l ++ moved) -> Permutation r (moved ++ r') ->
    kL k = counts data n l -> kR k = counts data n r -> holds_m data n m k -> length (kM k) = n ->
    upd l' r' k moved =
      SplitImpurity A imp l' r' m (mkK (repeat 0%Z n) (repeat 0%Z n) (kM k)).

  Lemma split_scratch l r k k' : labelled data n l -> labelled data n r -> room n k -> room n k' ->
    (let* (v, _) := SplitImpurity A imp l r m k in Ok v)
    = (let* (v, _) := SplitImpurity A imp l r m k' in Ok v).
  Proof.
    intros Hl Hr (K1 & K2 & K3) (K1' & K2' & K3').
    rewrite !(split_from A data imp from l r m _ n Hco) by auto.
    destruct (from l (counts data n l)) as [il| |]; cbn [bind]; auto.
    destruct (from r (counts data n r)) as [ir| |]; cbn [bind]; auto.
    destruct (has_m m) as [mm|]; [|reflexivity].
    destruct (from mm (counts data n mm)); reflexivity.
  Qed.

  Lemma split_state l r k v k1 : labelled data n l -> labelled data n r -> room n k ->
    SplitImpurity A imp l r m k = Ok (v, k1) ->
    kL k1 = counts data n l /\ kR k1 = counts data n r /\ holds_m data n m k1 /\ length (kM k1) = n.
  Proof.
    intros Hl Hr (K1 & K2 & K3). rewrite (split_from A data imp from l r m _ n Hco) by auto.
    unfold holds_m.
    destruct (from l (counts data n l)) as [il| |]; cbn [bind]; try discriminate.
    destruct (from r (counts data n r)) as [ir| |]; cbn [bind]; try discriminate.
    destruct (has_m m) as [mm|].
    - destruct (from mm (counts data n mm)); cbn [bind]; try discriminate.
      intros E; inversion E; subst; cbn. repeat split; auto. apply counts_length.
    - intros E; inversion E; subst; cbn. repeat split; auto.
  Qed.

  Lemma updates_ok : forall steps l r k kf,
    labelled data n l -> labelled data n r -> moves_ok l r steps -> room n kf ->
    kL k = counts data n l -> kR k = counts data n r -> holds_m data n m k -> length (kM k) = n ->
    updates upd steps k
    = recomputed (fun l r => SplitImpurity A imp l r m) (map (fun s => (mvL s, mvR s)) steps) kf.
  Proof.
    induction steps as [|s steps IH]; intros l r k kf Hl Hr Hok Hkf E1 E2 E3 E4; [reflexivity|].
    cbn [updates map recomputed]. destruct Hok as (P1 & P2 & Hok).
    assert (L1 : labelled data n (mvMoved s ++ mvR s)) by (eapply labelled_perm; eassumption).
    apply labelled_app in L1. destruct L1 as [L1 L2].
    assert (L3 : labelled data n (mvL s)).
    { eapply labelled_perm; [apply Permutation_sym; eassumption|]. apply labelled_app; auto. }
    rewrite (Hupd l r) by auto.
    set (k2 := mkK (repeat 0%Z n) (repeat 0%Z n) (kM k)).
    assert (R2 : room n k2) by (unfold room, k2; cbn; rewrite repeat_length; auto).
    pose proof (split_scratch (mvL s) (mvR s) k2 kf L3 L2 R2 Hkf) as Es.
    destruct (SplitImpurity A imp (mvL s) (mvR s) m k2) as [[v k1]| |] eqn:E.
    - destruct (SplitImpurity A imp (mvL s) (mvR s) m kf) as [[v' k1']| |] eqn:E'; cbn in Es; try discriminate.
      inversion Es; subst v'. cbn [bind].
      destruct (split_state _ _ _ _ _ L3 L2 R2 E) as (S1 & S2 & S3 & S4).
      rewrite (IH (mvL s) (mvR s) k1 kf) by auto. reflexivity.
    - destruct (SplitImpurity A imp (mvL s) (mvR s) m kf) as [[v' k1']| |]; cbn in Es; try discriminate. reflexivity.
    - destruct (SplitImpurity A imp (mvL s) (mvR s) m kf) as [[v' k1']| |]; cbn in Es; try discriminate. reflexivity.
  Qed.

  Lemma incremental_ok l r steps k kf :
    labelled data n l -> labelled data n r -> moves_ok l r steps -> room n k -> room n kf ->
    incremental (fun l r => SplitImpurity A imp l r m) upd l r steps k
    = recomputed (fun l r => SplitImpurity A imp l r m) (chain l r steps) kf.
  Proof.
    intros Hl Hr Hok Hk Hkf. unfold incremental, chain. cbn [recomputed].
    pose proof (split_scratch l r k kf Hl Hr Hk Hkf) as Es.
    destruct (SplitImpurity A imp l r m k) as [[v k1]| |] eqn:E.
    - destruct (SplitImpurity A imp l r m kf) as [[v' k1']| |] eqn:E'; cbn in Es; try discriminate.
      inversion Es; subst v'. cbn [bind].
      destruct (split_state _ _ _ _ _ Hl Hr Hk E) as (S1 & S2 & S3 & S4).
      rewrite (updates_ok steps l r k1 kf) by auto. reflexivity.
    - destruct (SplitImpurity A imp l r m kf) as [[v' k1']| |]; cbn in Es; try discriminate. reflexivity.
    - destruct (SplitImpurity A imp l r m kf) as [[v' k1']| |]; cbn in Es; try discriminate. reflexivity.
  Qed.
End Chain.

(** The targets that count classes, as (Impurity, ImpFromCounts) pairs. *)
Definition counting_targets (A : arith) (nlog : A -> A) (data : list nat)
    (costs weights cweights : list A) (posi : nat) (alpha kappa : A)
  : list (impurity A * recount A) :=
  [ (EntropyImpurity A nlog data, EntropyFromCounts A nlog);
    (RegretImpurity A costs data, RegretFromCounts A costs);
    (NPImpurity A posi alpha kappa data, NPFromCounts A posi alpha kappa);
    (WRFImpurity A cweights data, WRFFromCounts A cweights);
    (AdaImpurity A weights data, AdaFromCounts A weights data);
    (AdaCostImpurity A weights costs data, AdaCostFromCounts A weights costs data) ].

Lemma targets_coherent A nlog data costs weights cweights posi alpha kappa imp from :
  In (imp, from) (counting_targets A nlog data costs weights cweights posi alpha kappa) ->
  coherent A data imp from.
Proof.
  intros H cases counter. cbn in H.
  destruct H as [H|[H|[H|[H|[H|[H|[]]]]]]]; inversion H; subst; reflexivity.
Qed.

Lemma updsimp_is_split A data imp from n m :
  coherent A data imp from -> (forall mm, m = Some mm -> labelled data n mm) ->
  forall l r l' r' moved k,
    labelled data n moved -> labelled data n l' -> labelled data n r' ->
    Permutation l' (l ++ moved) -> Permutation r (moved ++ r') ->
    kL k = counts data n l -> kR k = counts data n r -> holds_m data n m k -> length (kM k) = n ->
    UpdateSImp A data from l' r' m k moved =
      SplitImpurity A imp l' r' m (mkK (repeat 0%Z n) (repeat 0%Z n) (kM k)).
Proof.
  intros Hco Hm l r l' r' moved k Lm Ll Lr P1 P2 E1 E2 E3 E4.
  rewrite (update_from A data from l r l' r' moved m k n) by assumption.
  rewrite (split_from A data imp from l' r' m _ n Hco)
    by (cbn [kL kR kM]; first [assumption | apply repeat_length]).
  cbn [kM].
  destruct (from l' (counts data n l')) as [il| |]; cbn [bind]; auto.
  destruct (from r' (counts data n r')) as [ir| |]; cbn [bind]; auto.
  unfold holds_m in E3. destruct (has_m m) as [mm|] eqn:Em; auto.
  destruct (from mm (counts data n mm)); cbn [bind]; auto. rewrite E3. reflexivity.
Qed.

(** For every arithmetic, float64 included: bit for bit the same values (or the
    same panic). *)
Theorem C45_counting_targets : forall (A : arith) nlog data costs weights cweights posi alpha kappa imp from,
  In (imp, from) (counting_targets A nlog data costs weights cweights posi alpha kappa) ->
  forall n m l r steps k kf,
    labelled data n l -> labelled data n r -> (forall mm, m = Some mm -> labelled data n mm) ->
    moves_ok l r steps -> room n k -> room n kf ->
    incremental (fun l r => SplitImpurity A imp l r m)
                (fun l r k moved => UpdateSImp A data from l r m k moved) l r steps k
    = recomputed (fun l r => SplitImpurity A imp l r m) (chain l r steps) kf.
Proof.
  intros A nlog data costs weights cweights posi alpha kappa imp from Hin n m l r steps k kf Hl Hr Hm Hok Hk Hkf.
  pose proof (targets_coherent _ _ _ _ _ _ _ _ _ _ _ Hin) as Hco.
  apply (incremental_ok A data imp from Hco n m Hm); auto.
  intros. eapply updsimp_is_split; eauto.
Qed.

(** Gini has its own update with a differently grouped divisor.  The callers in the
    code never pass missing cases to the update (densenumfeature.go:344). *)
Theorem C45_gini_float64 : forall data n l r steps k kf,
  labelled data n l -> labelled data n r -> moves_ok l r steps -> room n k -> room n kf ->
  incremental (fun l r => SplitImpurity F64 (GiniWithoutAlocate F64 data) l r None)
              (fun l r k moved => UpdateSImp_gini F64 data (GiniFromCounts F64) l r None k moved) l r steps k
  = recomputed (fun l r => SplitImpurity F64 (GiniWithoutAlocate F64 data) l r None) (chain l r steps) kf.
Proof.
  intros data n l r steps k kf Hl Hr Hok Hk Hkf.
  assert (Hco : coherent F64 data (GiniWithoutAlocate F64 data) (GiniFromCounts F64)).
  { intros cases counter. reflexivity. }
  apply (incremental_ok F64 data _ _ Hco n None); auto; [discriminate|].
  clear l r Hl Hr Hok k Hk. intros l r l' r' moved k Lm Ll Lr P1 P2 E1 E2 E3 E4.
  rewrite (update_gini_from F64 data _ l r l' r' moved None k n) by assumption.
  rewrite (split_from F64 data _ _ l' r' None _ n Hco)
    by (cbn [kL kR kM]; first [assumption | discriminate | apply repeat_length]).
  cbn [kM has_m bind].
  assert (Ez : nadd F64 (nadd F64 (len F64 l') (len F64 r')) (nofZ F64 0) = nadd F64 (len F64 l') (len F64 r')).
  { apply unsigned_add0. apply unsigned_add; apply unsigned_of_nat. }
  rewrite Ez. reflexivity.
Qed.

(** In exact arithmetic also with missing cases. *)
Theorem C45_gini_exact : forall data n m l r steps k kf,
  labelled data n l -> labelled data n r -> (forall mm, m = Some mm -> labelled data n mm) ->
  moves_ok l r steps -> room n k -> room n kf ->
  incremental (fun l r => SplitImpurity XR (GiniWithoutAlocate XR data) l r m)
              (fun l r k moved => UpdateSImp_gini XR data (GiniFromCounts XR) l r m k moved) l r steps k
  = recomputed (fun l r => SplitImpurity XR (GiniWithoutAlocate XR data) l r m) (chain l r steps) kf.
Proof.
  intros data n m l r steps k kf Hl Hr Hm Hok Hk Hkf.
  assert (Hco : coherent XR data (GiniWithoutAlocate XR data) (GiniFromCounts XR)).
  { intros cases counter. reflexivity. }
  apply (incremental_ok XR data _ _ Hco n m Hm); auto.
  clear l r Hl Hr Hok k Hk. intros l r l' r' moved k Lm Ll Lr P1 P2 E1 E2 E3 E4.
  rewrite (update_gini_from XR data _ l r l' r' moved m k n) by assumption.
  rewrite (split_from XR data _ _ l' r' m _ n Hco)
    by (cbn [kL kR kM]; first [assumption | apply repeat_length]).
  cbn [kM].
  destruct (GiniFromCounts XR l' (counts data n l')) as [il| |]; cbn [bind]; auto.
  destruct (GiniFromCounts XR r' (counts data n r')) as [ir| |]; cbn [bind]; auto.
  unfold holds_m in E3. destruct (has_m m) as [mm|] eqn:Em.
  - destruct (GiniFromCounts XR mm (counts data n mm)) as [im| |]; cbn [bind]; auto.
    rewrite E3. do 3 f_equal. unfold len. cbn [nadd nofZ XR lift2]. f_equal. lra.
  - do 3 f_equal. unfold len. cbn [nadd nofZ XR lift2]. f_equal. lra.
Qed.

(** Hellinger distance, any arithmetic. *)
Theorem C45_hellinger : forall (A : arith) data n l r steps k kf,
  labelled data n l -> labelled data n r -> moves_ok l r steps -> room n k -> room n kf ->
  incremental (HDistSplit A data) (fun _ _ k moved => HDistUpdate A data k moved) l r steps k
  = recomputed (HDistSplit A data) (chain l r steps) kf.
Proof.
  intros A data n l r steps k kf Hl Hr Hok Hk Hkf.
  assert (Hs : forall l r k, labelled data n l -> labelled data n r -> room n k ->
    HDistSplit A data l r k = (let* d := HDist A (counts data n l) (counts data n r) in
                               Ok (d, mkK (counts data n l) (counts data n r) (kM k)))).
  { clear. intros l r k Hl Hr (K1 & K2 & K3). unfold HDistSplit.
    rewrite !CountPerCat_ok by (rewrite ?K1, ?K2; assumption). rewrite K1, K2. reflexivity. }
  assert (Hu : forall steps l r k, labelled data n l -> labelled data n r -> moves_ok l r steps ->
    kL k = counts data n l -> kR k = counts data n r ->
    updates (fun _ _ k moved => HDistUpdate A data k moved) steps k
    = recomputed (HDistSplit A data) (map (fun s => (mvL s, mvR s)) steps) kf).
  { clear l r steps k Hl Hr Hok Hk.
    induction steps as [|s steps IH]; intros l r k Hl Hr Hok E1 E2; [reflexivity|].
    cbn [updates map recomputed]. destruct Hok as (P1 & P2 & Hok).
    assert (L1 : labelled data n (mvMoved s ++ mvR s)) by (eapply labelled_perm; eassumption).
    apply labelled_app in L1. destruct L1 as [L1 L2].
    assert (L3 : labelled data n (mvL s)).
    { eapply labelled_perm; [apply Permutation_sym; eassumption|]. apply labelled_app; auto. }
    rewrite Hs by assumption. unfold HDistUpdate at 1. rewrite E1, E2.
    rewrite (MoveCounts_perm data n (mvMoved s) l r (mvL s) (mvR s) L1 P1 P2). cbn [bind].
    destruct (HDist A (counts data n (mvL s)) (counts data n (mvR s))); cbn [bind]; auto.
    rewrite (IH (mvL s) (mvR s)) by auto. reflexivity. }
  unfold incremental, chain. cbn [recomputed]. rewrite !Hs by assumption.
  destruct (HDist A (counts data n l) (counts data n r)); cbn [bind]; auto.
  rewrite (Hu steps l r) by auto. reflexivity.
Qed.

(** ** The numerical target, exact arithmetic *)

Definition square (v : R) : R := (v * v)%R.
Definition rsums (xs : list R) (cases : list nat) : R * R :=
  (Rsum (values xs cases), Rsum (map (fun v => v * v)%R (values xs cases))).

Lemma rsums_perm xs a b : Permutation a b -> rsums xs a = rsums xs b.
Proof.
  intros P. unfold rsums. f_equal; apply Rsum_perm; [|apply Permutation_map]; apply Permutation_map, P.
Qed.
Lemma rsums_app xs a b :
  rsums xs (a ++ b) = (fst (rsums xs a) + fst (rsums xs b), snd (rsums xs a) + snd (rsums xs b))%R.
Proof. unfold rsums. rewrite values_app, map_app, !Rsum_app. reflexivity. Qed.

Definition holds_sums (xs : list R) (l r : list nat) (m : option (list nat)) (a : sums XR) : Prop :=
  sLs XR a = Some (fst (rsums xs l)) /\ sLq XR a = Some (snd (rsums xs l))
  /\ sRs XR a = Some (fst (rsums xs r)) /\ sRq XR a = Some (snd (rsums xs r))
  /\ match has_m m with
     | Some mm => sMs XR a = Some (fst (rsums xs mm)) /\ sMq XR a = Some (snd (rsums xs mm))
     | None => True
     end.

Lemma num_split_form xs l r m a : inside xs l -> inside xs r -> (forall mm, m = Some mm -> inside xs mm) ->
  exists v a', NumSplitImpurity XR (numeric xs) l r m a = Ok (v, a') /\ holds_sums xs l r m a'
  /\ (forall b moved, inside xs moved ->
        forall l0 r0, Permutation l (l0 ++ moved) -> Permutation r0 (moved ++ r) ->
        holds_sums xs l0 r0 m b ->
        exists b', NumUpdate XR (numeric xs) l r m b moved = Ok (v, b') /\ holds_sums xs l r m b').
Proof.
  intros Hl Hr Hm.
  unfold NumSplitImpurity. rewrite (sums_value xs l Hl), (sums_value xs r Hr). cbn [bind].
  destruct (has_m m) as [mm|] eqn:Em.
  - rewrite (sums_value xs mm) by (apply Hm, has_m_some, Em). cbn [bind].
    eexists _, _. split; [reflexivity|]. split; [unfold holds_sums; rewrite Em; cbn; repeat split; auto|].
    intros b moved Hmv l0 r0 P1 P2 (B1 & B2 & B3 & B4 & B5). rewrite Em in B5. destruct B5 as [B5 B6].
    unfold NumUpdate. rewrite (sums_value xs moved Hmv). cbn [bind].
    rewrite B1, B2, B3, B4, B5, B6, Em. cbn [sLs sLq sRs sRq sMs sMq nadd nsub XR lift2].
    pose proof (rsums_perm xs _ _ P1) as Q1. pose proof (rsums_perm xs _ _ P2) as Q2.
    rewrite rsums_app in Q1, Q2. unfold rsums in *. cbn [fst snd] in *.
    inversion Q1 as [[Q11 Q12]]. inversion Q2 as [[Q21 Q22]].
    replace (Rsum (values xs r0) - Rsum (values xs moved))%R with (Rsum (values xs r)) by lra.
    replace (Rsum (map (fun v => v * v) (values xs r0)) - Rsum (map (fun v => v * v) (values xs moved)))%R
      with (Rsum (map (fun v => v * v)%R (values xs r))) by lra.
    eexists. split.
    + reflexivity.
    + unfold holds_sums. rewrite Em. cbn. unfold rsums. cbn. repeat split; auto.
  - eexists _, _. split; [reflexivity|]. split; [unfold holds_sums; rewrite Em; cbn; repeat split; auto|].
    intros b moved Hmv l0 r0 P1 P2 (B1 & B2 & B3 & B4 & B5).
    unfold NumUpdate. rewrite (sums_value xs moved Hmv). cbn [bind].
    rewrite B1, B2, B3, B4, Em. cbn [sLs sLq sRs sRq sMs sMq nadd nsub XR lift2].
    pose proof (rsums_perm xs _ _ P1) as Q1. pose proof (rsums_perm xs _ _ P2) as Q2.
    rewrite rsums_app in Q1, Q2. unfold rsums in *. cbn [fst snd] in *.
    inversion Q1 as [[Q11 Q12]]. inversion Q2 as [[Q21 Q22]].
    replace (Rsum (values xs r0) - Rsum (values xs moved))%R with (Rsum (values xs r)) by lra.
    replace (Rsum (map (fun v => v * v) (values xs r0)) - Rsum (map (fun v => v * v) (values xs moved)))%R
      with (Rsum (map (fun v => v * v)%R (values xs r))) by lra.
    eexists. split.
    + reflexivity.
    + unfold holds_sums. rewrite Em. cbn. unfold rsums. cbn. repeat split; auto.
Qed.

Lemma inside_perm xs a b : Permutation a b -> inside xs a -> inside xs b.
Proof. intros P H. eapply Permutation_Forall; eauto. Qed.
Lemma inside_app xs a b : inside xs (a ++ b) <-> inside xs a /\ inside xs b.
Proof. apply Forall_app. Qed.

Lemma num_scratch xs l r m a b :
  (let* (v, _) := NumSplitImpurity XR (numeric xs) l r m a in Ok v)
  = (let* (v, _) := NumSplitImpurity XR (numeric xs) l r m b in Ok v).
Proof.
  unfold NumSplitImpurity.
  destruct (SumAndSumSquares XR (numeric xs) l) as [[? ?]| |]; cbn [bind]; auto.
  destruct (SumAndSumSquares XR (numeric xs) r) as [[? ?]| |]; cbn [bind]; auto.
  destruct (has_m m) as [mm|]; [|reflexivity].
  destruct (SumAndSumSquares XR (numeric xs) mm) as [[? ?]| |]; cbn [bind]; auto.
Qed.

Theorem C45_numerical_exact : forall xs m l r steps a af,
  inside xs l -> inside xs r -> (forall mm, m = Some mm -> inside xs mm) -> moves_ok l r steps ->
  incremental (fun l r => NumSplitImpurity XR (numeric xs) l r m)
              (fun l r a moved => NumUpdate XR (numeric xs) l r m a moved) l r steps a
  = recomputed (fun l r => NumSplitImpurity XR (numeric xs) l r m) (chain l r steps) af.
Proof.
  intros xs m l r steps a af Hl Hr Hm Hok.
  assert (Hu : forall steps l r a, inside xs l -> inside xs r -> moves_ok l r steps -> holds_sums xs l r m a ->
    updates (fun l r a moved => NumUpdate XR (numeric xs) l r m a moved) steps a
    = recomputed (fun l r => NumSplitImpurity XR (numeric xs) l r m) (map (fun s => (mvL s, mvR s)) steps) af).
  { clear l r steps a Hl Hr Hok.
    induction steps as [|s steps IH]; intros l r a Hl Hr Hok Ha; [reflexivity|].
    cbn [updates map recomputed]. destruct Hok as (P1 & P2 & Hok).
    assert (L1 : inside xs (mvMoved s ++ mvR s)) by (eapply inside_perm; eassumption).
    apply inside_app in L1. destruct L1 as [L1 L2].
    assert (L3 : inside xs (mvL s)).
    { eapply inside_perm; [apply Permutation_sym; eassumption|]. apply inside_app; auto. }
    destruct (num_split_form xs (mvL s) (mvR s) m af L3 L2 Hm) as (v & a' & -> & _ & H).
    destruct (H a (mvMoved s) L1 l r P1 P2 Ha) as (b' & -> & Hb). cbn [bind].
    rewrite (IH (mvL s) (mvR s)) by auto. reflexivity. }
  unfold incremental, chain. cbn [recomputed].
  pose proof (num_scratch xs l r m a af) as Es.
  destruct (num_split_form xs l r m a Hl Hr Hm) as (v & a' & E & Ha & _). rewrite E in *. cbn [bind] in *.
  destruct (NumSplitImpurity XR (numeric xs) l r m af) as [[v' ?]| |]; try discriminate.
  cbn in Es. inversion Es; subst v'. cbn [bind]. rewrite (Hu steps l r) by auto. reflexivity.
Qed.

(** ** Gradient boosting: Friedman's score *)

Lemma gbsum_value xs cases : inside xs cases -> GBSum XR (numeric xs) cases = Ok (Some (Rsum (values xs cases))).
Proof.
  intros H. unfold GBSum.
  assert (G : forall cs a, inside xs cs ->
    foreach cs (fun i s => let* x := get (numeric xs) i in Ok (nadd XR s x)) (Some a : xr)
    = Ok (Some (a + Rsum (values xs cs))%R)).
  { induction cs as [|i cs IH]; intros a Hi; cbn [foreach values map Rsum].
    - f_equal; f_equal; lra.
    - inversion Hi as [|? ? Hi1 Hi2]; subst. rewrite numeric_get by assumption. cbn [bind nadd XR lift2].
      rewrite IH by assumption. unfold values. f_equal; f_equal; lra. }
  change (nofZ XR 0) with (Some 0%R). rewrite G by assumption. f_equal; f_equal; lra.
Qed.

Theorem C45_friedman_exact : forall xs l r steps a af,
  inside xs l -> inside xs r -> moves_ok l r steps ->
  incremental (fun l r (_ : xr * xr) => GBSplit XR (numeric xs) l r)
              (fun l r a moved => GBUpdate XR (numeric xs) l r a moved) l r steps a
  = recomputed (fun l r (_ : xr * xr) => GBSplit XR (numeric xs) l r) (chain l r steps) af.
Proof.
  intros xs l r steps a af Hl Hr Hok.
  assert (Hs : forall l r, inside xs l -> inside xs r ->
    GBSplit XR (numeric xs) l r = Ok (FriedmanScore XR (Some (Rsum (values xs l))) (Some (Rsum (values xs r))) l r,
                                      (Some (Rsum (values xs l)), Some (Rsum (values xs r))))).
  { intros l0 r0 H1 H2. unfold GBSplit. rewrite !gbsum_value by assumption. reflexivity. }
  assert (Hu : forall steps l r, inside xs l -> inside xs r -> moves_ok l r steps ->
    updates (fun l r a moved => GBUpdate XR (numeric xs) l r a moved) steps
       (Some (Rsum (values xs l)), Some (Rsum (values xs r)))
    = recomputed (fun l r (_ : xr * xr) => GBSplit XR (numeric xs) l r) (map (fun s => (mvL s, mvR s)) steps) af).
  { clear l r steps a Hl Hr Hok.
    induction steps as [|s steps IH]; intros l r Hl Hr Hok; [reflexivity|].
    cbn [updates map recomputed]. destruct Hok as (P1 & P2 & Hok).
    assert (L1 : inside xs (mvMoved s ++ mvR s)) by (eapply inside_perm; eassumption).
    apply inside_app in L1. destruct L1 as [L1 L2].
    assert (L3 : inside xs (mvL s)).
    { eapply inside_perm; [apply Permutation_sym; eassumption|]. apply inside_app; auto. }
    rewrite Hs by assumption. unfold GBUpdate at 1. rewrite gbsum_value by assumption. cbn [bind fst snd].
    cbn [nadd nsub XR lift2].
    pose proof (rsums_perm xs _ _ P1) as Q1. pose proof (rsums_perm xs _ _ P2) as Q2.
    rewrite rsums_app in Q1, Q2. unfold rsums in *. cbn [fst snd] in *.
    inversion Q1 as [[Q11 Q12]]. inversion Q2 as [[Q21 Q22]].
    replace (Rsum (values xs r) - Rsum (values xs (mvMoved s)))%R with (Rsum (values xs (mvR s))) by lra.
    cbn [bind]. rewrite IH by auto. reflexivity. }
  unfold incremental, chain. cbn [recomputed]. rewrite !Hs by assumption. cbn [bind].
  rewrite Hu by auto. reflexivity.
Qed.

(** ** C76: Friedman's score of a split is the decrease of the squared error. *)
Theorem C76_friedman_score_is_error_reduction : forall xs l r, l <> [] -> r <> [] ->
  inside xs l -> inside xs r ->
  exists st, GBSplit XR (numeric xs) l r
    = Ok (Some (sse (values xs (l ++ r)) - (sse (values xs l) + sse (values xs r)))%R, st).
Proof.
  intros xs l r Hl Hr Il Ir. pose proof (len_pos l Hl) as Pl. pose proof (len_pos r Hr) as Pr.
  unfold GBSplit. rewrite !gbsum_value by assumption. cbn [bind]. eexists. do 2 f_equal.
  unfold FriedmanScore, len. cbn [nadd nsub nmul ndiv nofZ XR]. rewrite !IZR_of_nat.
  rewrite !xdiv_some by lra. cbn [lift2]. rewrite xdiv_some by lra. f_equal.
  rewrite !sse_alt by (apply values_nonnil; first [assumption | destruct l; [congruence|discriminate]]).
  rewrite values_app, map_app, !Rsum_app, app_length, plus_INR, !values_length.
  field. lra.
Qed.

(** ** Concrete cases *)

Definition ex_lab : list nat := [0; 1; 1; 2; 0].
Definition ex_steps : list move := [Move [0; 1; 2] [4; 3] [2]; Move [0; 1; 2; 3] [4] [3]].
Definition ex_k : counters := mkK [7; 7; 7]%Z [7; 7; 7]%Z [7; 7; 7]%Z.

Example ex_moves : moves_ok [1; 0] [2; 4; 3] ex_steps /\ room 3 ex_k
  /\ labelled ex_lab 3 [1; 0] /\ labelled ex_lab 3 [2; 4; 3].
Proof.
  repeat split; cbn; try (repeat constructor; cbn; lia).
  all: try (apply Permutation_refl).
Qed.

Example ex_gini_chain :
  incremental (fun l r => SplitImpurity F64 (GiniWithoutAlocate F64 ex_lab) l r None)
     (fun l r k mv => UpdateSImp_gini F64 ex_lab (GiniFromCounts F64) l r None k mv) [1; 0] [2; 4; 3] ex_steps ex_k
  = recomputed (fun l r => SplitImpurity F64 (GiniWithoutAlocate F64 ex_lab) l r None)
     (chain [1; 0] [2; 4; 3] ex_steps) (mkK [0; 0; 0]%Z [0; 0; 0]%Z [0; 0; 0]%Z)
  /\ match incremental (fun l r => SplitImpurity F64 (GiniWithoutAlocate F64 ex_lab) l r None)
     (fun l r k mv => UpdateSImp_gini F64 ex_lab (GiniFromCounts F64) l r None k mv) [1; 0] [2; 4; 3] ex_steps ex_k
     with Ok vs => length vs = 3 | _ => False end.
Proof. vm_compute. split; reflexivity. Qed.

Print Assumptions C45_counting_targets.
Print Assumptions C45_gini_float64.
Print Assumptions C45_gini_exact.
Print Assumptions C45_hellinger.
Print Assumptions C45_numerical_exact.
Print Assumptions C45_friedman_exact.
Print Assumptions C76_friedman_score_is_error_reduction.
