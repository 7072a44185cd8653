(** The targets of the code compute what SearchSpec.v asks of a target. *)
From Verif Require Import Go GoLemmas F64 F64Order Exact ModelFeature ModelImpurity ImpuritySpec ImpurityProofs
  PropImpurity PropImpurity2 ModelSearch SearchSpec ModelTargets.
Local Open Scope nat_scope.
Local Open Scope list_scope.

Section Counting.
  Variable A : arith.
  Variables (data : list nat) (n : nat).
  Variables (imp : impurity A) (from : recount A).
  Variable upd : list nat -> list nat -> option (list nat) -> counters -> list nat -> res (A * counters).
  Variable val : list nat -> A.
  Hypothesis Hco : coherent A data imp from.
  Hypothesis Hval : forall l, labelled data n l -> from l (counts data n l) = Ok (val l).
  Hypothesis Hperm : forall l l', Permutation l l' -> val l = val l'.

  Definition avg_cost (l r : list nat) : A :=
    ndiv A (nadd A (nmul A (len A l) (val l)) (nmul A (len A r) (val r)))
           (nadd A (nadd A (len A l) (len A r)) (nofZ A 0)).

  Hypothesis Hupd : forall l r l' r' moved k,
    labelled data n moved -> labelled data n l' -> labelled data n r' ->
    Permutation l' (l ++ moved) -> Permutation r (moved ++ r') ->
    kL k = counts data n l -> kR k = counts data n r -> length (kM k) = n ->
    upd l' r' None k moved = Ok (avg_cost l' r', mkK (counts data n l') (counts data n r') (kM k)).

  Definition in_data (c : nat) : Prop := c < length data /\ nth c data 0 < n.
  Definition cst_ready (s : cst) : Prop := length (fst s) = n /\ room n (snd s).
  Definition cst_holds (l r : list nat) (s : cst) : Prop :=
    labelled data n l /\ labelled data n r /\
    kL (snd s) = counts data n l /\ kR (snd s) = counts data n r.

  Lemma counting_honest :
    honest (counting_target A imp upd) in_data val avg_cost cst_ready cst_holds.
  Proof.
    constructor.
    - intros l [c k] Hl [R1 R2]. cbn [tImp counting_target fst snd] in *.
      rewrite Hco, CountPerCat_ok by (rewrite R1; auto). rewrite R1. cbn [bind].
      rewrite Hval by auto. cbn [bind]. eexists. split; [reflexivity|].
      split; auto. cbn. apply counts_length.
    - intros l r [c k] Hl Hr [R1 (K1 & K2 & K3)]. cbn [tSplit counting_target fst snd] in *.
      rewrite (split_from A data imp from l r None k n Hco Hl Hr) by (auto; discriminate).
      rewrite !Hval by auto. cbn [bind has_m]. eexists. split; [reflexivity|].
      unfold cst_ready, cst_holds, room. cbn. rewrite !counts_length. repeat split; auto.
    - intros l r l' r' moved [c k] Hl Hr [R1 (K1 & K2 & K3)] (L1 & L2 & H1 & H2) P1 P2.
      cbn [tUpdate counting_target fst snd] in *.
      assert (Lm : labelled data n moved).
      { apply (labelled_perm _ _ _ _ P2) in L2. apply labelled_app in L2. tauto. }
      rewrite (Hupd l r l' r' moved k) by auto. cbn [bind]. eexists. split; [reflexivity|].
      unfold cst_ready, cst_holds, room. cbn. rewrite !counts_length. repeat split; auto.
    - intros l r l' r' P1 P2. unfold avg_cost, len.
      rewrite (Hperm l l') by auto. rewrite (Hperm r r') by auto.
      rewrite (Permutation_length P1), (Permutation_length P2). reflexivity.
  Qed.
End Counting.

(** Addition of floats is commutative. *)
Lemma fadd_comm x y : fadd x y = fadd y x.
Proof.
  unfold fadd, SFadd. destruct x as [sx|sx| |sx mx ex], y as [sy|sy| |sy my ey]; auto.
  - destruct sx, sy; auto.
  - destruct sx, sy; auto.
  - rewrite Z.add_comm, Z.min_comm. reflexivity.
Qed.

(** Gini impurity as a float64 from the counts of the classes. *)
Definition gini_val (A : arith) (data : list nat) (n : nat) (l : list nat) : A :=
  let total := Z.of_nat (length l) in
  fold_left (fun e i => nsub A e (ndiv A (nofZ A (i * i)) (nofZ A (total * total))))
    (counts data n l) (nadd A (nofZ A 0) (nofZ A 1)).

Lemma gini_val_perm A data n l l' : Permutation l l' -> gini_val A data n l = gini_val A data n l'.
Proof.
  intros P. unfold gini_val. rewrite (counts_perm data n l l' P), (Permutation_length P). reflexivity.
Qed.

Definition gini_cost (A : arith) (data : list nat) (n : nat) : list nat -> list nat -> A :=
  avg_cost A (gini_val A data n).

Lemma gini_honest_F64 data n :
  honest (gini_target F64 data) (in_data data n) (gini_val F64 data n) (gini_cost F64 data n)
    (cst_ready n) (cst_holds data n).
Proof.
  apply counting_honest with (from := GiniFromCounts F64).
  - intros cases counter. reflexivity.
  - intros l Hl. reflexivity.
  - intros. apply gini_val_perm; auto.
  - intros l r l' r' moved k Lm Ll Lr P1 P2 K1 K2 K3.
    rewrite (update_gini_from F64 data _ l r l' r' moved None k n) by (auto; exact I).
    cbn [has_m bind GiniFromCounts].
    assert (Ez : nadd F64 (nadd F64 (len F64 l') (len F64 r')) (nofZ F64 0) = nadd F64 (len F64 l') (len F64 r')).
    { apply unsigned_add0. apply unsigned_add; apply unsigned_of_nat. }
    unfold avg_cost. rewrite Ez. reflexivity.
Qed.

Lemma gini_symmetric_F64 data n : symmetric (gini_cost F64 data n).
Proof.
  intros l r. unfold gini_cost, avg_cost. cbn [nadd F64].
  rewrite (fadd_comm (nmul F64 (len F64 l) _)), (fadd_comm (len F64 l)). reflexivity.
Qed.

(** Entropy, any arithmetic. *)
Definition entropy_val (A : arith) (nlog : A -> A) (data : list nat) (n : nat) (l : list nat) : A :=
  let total := Z.of_nat (length l) in
  fold_left (fun e i => if (0 <? i)%Z then
      nsub A e (nmul A (ndiv A (nofZ A i) (nofZ A total)) (nlog (ndiv A (nofZ A i) (nofZ A total)))) else e)
    (counts data n l) (nofZ A 0).

Lemma entropy_honest A nlog data n :
  honest (entropy_target A nlog data) (in_data data n) (entropy_val A nlog data n)
    (avg_cost A (entropy_val A nlog data n)) (cst_ready n) (cst_holds data n).
Proof.
  apply counting_honest with (from := EntropyFromCounts A nlog).
  - intros cases counter. reflexivity.
  - intros l Hl. reflexivity.
  - intros l l' P. unfold entropy_val. rewrite (counts_perm data n l l' P), (Permutation_length P). reflexivity.
  - intros l r l' r' moved k Lm Ll Lr P1 P2 K1 K2 K3.
    rewrite (update_from A data _ l r l' r' moved None k n) by (auto; exact I).
    reflexivity.
Qed.

(** Squared error in exact arithmetic. *)
Definition sse_cost (xs : list R) (l r : list nat) : xr :=
  let term (c : list nat) : xr :=
    nmul XR (len XR c) (nsub XR (Some (snd (rsums xs c)))
      (ndiv XR (nmul XR (Some (fst (rsums xs c))) (Some (fst (rsums xs c)))) (len XR c))) in
  ndiv XR (nadd XR (term l) (term r)) (nadd XR (nadd XR (len XR l) (len XR r)) (nofZ XR 0)).
Definition sse_imp (xs : list R) (l : list nat) : xr :=
  nsub XR (Some (snd (rsums xs l)))
    (ndiv XR (nmul XR (Some (fst (rsums xs l))) (Some (fst (rsums xs l)))) (len XR l)).

Lemma num_honest_exact xs :
  honest (num_target XR (numeric xs)) (fun c => c < length xs) (sse_imp xs) (sse_cost xs)
    (fun _ => True) (fun l r s => inside xs l /\ inside xs r /\ holds_sums xs l r None s).
Proof.
  assert (Cost : forall l r s, inside xs l -> inside xs r ->
    exists s', NumSplitImpurity XR (numeric xs) l r None s = Ok (sse_cost xs l r, s') /\ holds_sums xs l r None s').
  { intros l r s Hl Hr. unfold NumSplitImpurity.
    rewrite (sums_value xs l Hl), (sums_value xs r Hr). cbn [bind has_m].
    eexists. split; [reflexivity|]. unfold holds_sums; cbn; repeat split; auto. }
  constructor.
  - intros l s Hl _. cbn [tImp num_target]. unfold NumImpurity. rewrite (sums_value xs l Hl). cbn [bind].
    eexists. split; [reflexivity|auto].
  - intros l r s Hl Hr _. cbn [tSplit num_target].
    destruct (Cost l r s Hl Hr) as (s' & E & H). exists s'. repeat split; auto; apply H.
  - intros l r l' r' moved s Hl Hr _ (I1 & I2 & H) P1 P2. cbn [tUpdate num_target].
    assert (Im : inside xs moved).
    { apply (inside_perm _ _ _ P2) in I2. apply inside_app in I2. tauto. }
    destruct (num_split_form xs l' r' None s Hl Hr ltac:(discriminate)) as (v & a' & E & _ & U).
    destruct (U s moved Im l r P1 P2 H) as (b & E2 & Hb).
    destruct (Cost l' r' s Hl Hr) as (s' & E3 & _). rewrite E in E3.
    assert (Ev : v = sse_cost xs l' r') by congruence. subst v.
    exists b. repeat split; auto; apply Hb.
  - intros l r l' r' P1 P2. unfold sse_cost, len.
    rewrite (rsums_perm xs l l' P1), (rsums_perm xs r r' P2).
    rewrite (Permutation_length P1), (Permutation_length P2). reflexivity.
Qed.

Lemma ordered_XR : ordered XR.
Proof.
  split.
  - intros [x|]; cbn; auto. apply Rltb_false. lra.
  - intros [x|] [y|] [z|]; cbn; auto; try discriminate.
    intros H1 H2. apply Rltb_false in H1. apply Rltb_true in H2. apply Rltb_false. lra.
Qed.
