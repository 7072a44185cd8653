(** Targets and predictions that do not depend on the order of the cases. *)
From Verif Require Import Go GoLemmas F64 Exact ModelFeature ModelImpurity ModelSearch ModelTargets ModelTargets2 ModelTree OrderProofs.
Local Open Scope nat_scope.
Local Open Scope list_scope.

(** ** Loops whose steps can be swapped *)
Definition swappable {B St} (body : B -> St -> res St) : Prop :=
  forall a b s s1 s2, body a s = Ok s1 -> body b s1 = Ok s2 -> exists s1', body b s = Ok s1' /\ body a s1' = Ok s2.
Lemma foreach_perm {B St} (body : B -> St -> res St) l l' : swappable body -> Permutation l l' ->
  forall s r, foreach l body s = Ok r -> foreach l' body s = Ok r.
Proof.
  intros Hb P. induction P as [|x l l' P IH|x y l|l1 l2 l3 P1 IH1 P2 IH2]; intros s r E; cbn [foreach] in *; auto.
  - apply bind_ok in E as (s1 & -> & E). cbn [bind]. apply IH. exact E.
  - apply bind_ok in E as (s1 & E1 & E). apply bind_ok in E as (s2 & E2 & E). destruct (Hb _ _ _ _ _ E1 E2) as (s1' & -> & E3). cbn [bind]. rewrite E3. exact E.
Qed.

(** A counter is changed at one place. *)
Definition bump {V} (g : V -> V) (k : list V) (c : nat) : res (list V) := let* n := get k c in set k c (g n).
Lemma upd_upd {V} (k : list V) i j x y : i <> j -> upd (upd k i x) j y = upd (upd k j y) i x.
Proof. revert i j. induction k as [|v k IH]; intros [|i] [|j] H; cbn; try congruence. f_equal. apply IH. congruence. Qed.
Lemma bump_inv {V} (g : V -> V) k c k' : bump g k c = Ok k' -> exists n, nth_error k c = Some n /\ k' = upd k c (g n).
Proof. unfold bump. intros E. apply bind_ok in E as (n & E1 & E). apply get_inv in E1. apply set_inv in E as [_ ->]. eauto. Qed.
Lemma bump_ok {V} (g : V -> V) k c n : nth_error k c = Some n -> bump g k c = Ok (upd k c (g n)).
Proof. intros H. unfold bump. rewrite (get_nth _ _ H). cbn [bind]. apply set_ok. apply nth_error_Some. congruence. Qed.
Lemma bump_swap {V} (g : V -> V) k c d k1 k2 : bump g k c = Ok k1 -> bump g k1 d = Ok k2 ->
  exists k1', bump g k d = Ok k1' /\ bump g k1' c = Ok k2.
Proof.
  intros E1 E2. apply bump_inv in E1 as (n & H1 & ->). pose proof E2 as E3. apply bump_inv in E2 as (m & H2 & ->).
  rewrite nth_error_upd in H2. destruct (Nat.eqb_spec d c) as [->|Hne].
  - exists (upd k c (g n)). split; [apply bump_ok; exact H1|exact E3].
  - cbn [andb] in H2. exists (upd k d (g m)). split; [apply bump_ok; exact H2|]. rewrite (upd_upd k c d) by congruence.
    apply bump_ok. rewrite nth_error_upd. destruct (Nat.eqb_spec c d); [congruence|exact H1].
Qed.

Lemma CountPerCat_perm data k l l' : Permutation l l' -> forall r, CountPerCat data l k = Ok r -> CountPerCat data l' k = Ok r.
Proof.
  intros P. unfold CountPerCat. apply foreach_perm; [|exact P]. intros a b s s1 s2 E1 E2.
  apply bind_ok in E1 as (c & -> & E1). apply bind_ok in E2 as (d & -> & E2). cbn [bind].
  apply (bump_swap (fun n => (n + 1)%Z)) with (k1 := s1); assumption.
Qed.
Lemma MoveCounts_perm data lc rc l l' : Permutation l l' -> forall r, MoveCountsRtoL data l lc rc = Ok r -> MoveCountsRtoL data l' lc rc = Ok r.
Proof.
  intros P. unfold MoveCountsRtoL. apply foreach_perm; [|exact P]. intros a b [u v] [u1 v1] [u2 v2] E1 E2.
  assert (G : forall u v c, (let* nl := get u c in let* lc' := set u c (nl + 1)%Z in let* nr := get v c in let* rc' := set v c (nr - 1)%Z in Ok (lc', rc'))
    = let* x := bump (fun n => (n + 1)%Z) u c in let* y := bump (fun n => (n - 1)%Z) v c in Ok (x, y)).
  { intros. unfold bump. destruct (get u0 c); [cbn [bind]|reflexivity..]. destruct (set u0 c _); [cbn [bind]|reflexivity..]. destruct (get v0 c); reflexivity. }
  apply bind_ok in E1 as (c & -> & E1). apply bind_ok in E2 as (d & -> & E2). cbn [bind]. rewrite G in E1, E2.
  apply bind_ok in E1 as (x & X1 & E1). apply bind_ok in E1 as (y & Y1 & E1). injection E1 as -> ->.
  apply bind_ok in E2 as (x & X2 & E2). apply bind_ok in E2 as (y & Y2 & E2). injection E2 as -> ->.
  destruct (bump_swap _ _ _ _ _ _ X1 X2) as (x1 & X3 & X4). destruct (bump_swap _ _ _ _ _ _ Y1 Y2) as (y1 & Y3 & Y4).
  exists (x1, y1). rewrite !G, X3, X4, Y3, Y4. auto.
Qed.
Lemma mode_counts_perm f l l' : Permutation l l' -> forall r, mode_counts f l = Ok r -> mode_counts f l' = Ok r.
Proof.
  intros P. unfold mode_counts. apply foreach_perm; [|exact P]. intros a b s s1 s2 E1 E2.
  apply bind_ok in E1 as (m & Em & E1). apply bind_ok in E2 as (m' & Em' & E2). rewrite Em, Em'. cbn [bind].
  destruct m; [injection E1 as ->|apply bind_ok in E1 as (c & Ec & E1); rewrite Ec];
    (destruct m'; [injection E2 as ->|apply bind_ok in E2 as (d & Ed & E2); rewrite Ed]); cbn [bind]; eauto.
  apply (bump_swap (fun n => n + 1)) with (k1 := s1); assumption.
Qed.
Lemma cFindPredicted_perm f l l' : Permutation l l' -> forall r, cFindPredicted f l = Ok r -> cFindPredicted f l' = Ok r.
Proof.
  intros P r E. unfold cFindPredicted, cMode, cModei in *. apply bind_ok in E as (m & E1 & E). apply bind_ok in E1 as (k & E1 & E2).
  rewrite (mode_counts_perm f l l' P _ E1). cbn [bind]. injection E2 as ->. exact E.
Qed.

(** ** Targets *)
Definition mperm (m m' : option (list nat)) : Prop :=
  match m, m' with Some l, Some l' => Permutation l l' | None, None => True | _, _ => False end.
Record orderless {A St} (T : target A St) : Prop := {
  ol_imp : forall l l' s r, Permutation l l' -> tImp T l s = Ok r -> tImp T l' s = Ok r;
  ol_split : forall l l' r r' m m' s x, Permutation l l' -> Permutation r r' -> mperm m m' -> tSplit T l r m s = Ok x -> tSplit T l' r' m' s = Ok x;
  ol_update : forall l l' r r' m m' v v' s x, Permutation l l' -> Permutation r r' -> mperm m m' -> Permutation v v' ->
    tUpdate T l r m v s = Ok x -> tUpdate T l' r' m' v' s = Ok x
}.
Lemma has_m_perm m m' : mperm m m' -> mperm (has_m m) (has_m m').
Proof.
  destruct m as [l|], m' as [l'|]; cbn; auto; try contradiction. intros P. destruct l as [|a l], l' as [|b l']; cbn; auto.
  - apply Permutation_nil in P. discriminate.
  - symmetry in P. apply Permutation_nil in P. discriminate.
Qed.
Lemma len_perm A l l' : Permutation l l' -> len A l = len A l'.
Proof. intros P. unfold len. rewrite (Permutation_length P). reflexivity. Qed.

Section Counting.
  Variable A : arith.
  Variable data : list nat.
  (** An impurity that does not depend on the order of the cases, one that depends on their number. *)
  Definition imp_orderless (imp : impurity A) : Prop := forall l l' k r, Permutation l l' -> imp l k = Ok r -> imp l' k = Ok r.
  Definition by_number (from : recount A) : Prop := forall l l' k, length l = length l' -> from l k = from l' k.

  Lemma SplitImpurity_perm imp : imp_orderless imp -> forall l l' r r' m m' k x, Permutation l l' -> Permutation r r' -> mperm m m' ->
    SplitImpurity A imp l r m k = Ok x -> SplitImpurity A imp l' r' m' k = Ok x.
  Proof.
    intros Hi l l' r r' m m' k x Pl Pr Pm E. unfold SplitImpurity in *. rewrite <- (len_perm A l l' Pl), <- (len_perm A r r' Pr).
    apply bind_ok in E as ([il lc] & E1 & E). rewrite (Hi _ _ _ _ Pl E1). cbn [bind].
    apply bind_ok in E as ([ir rc] & E2 & E). rewrite (Hi _ _ _ _ Pr E2). cbn [bind].
    apply has_m_perm in Pm. destruct (has_m m) as [mm|], (has_m m') as [mm'|]; try contradiction; [|exact E].
    rewrite <- (len_perm A mm mm' Pm). apply bind_ok in E as ([im mc] & E3 & E). rewrite (Hi _ _ _ _ Pm E3). exact E.
  Qed.
  Lemma UpdateSImp_perm from : by_number from -> forall l l' r r' m m' v v' k x, Permutation l l' -> Permutation r r' -> mperm m m' -> Permutation v v' ->
    UpdateSImp A data from l r m k v = Ok x -> UpdateSImp A data from l' r' m' k v' = Ok x.
  Proof.
    intros Hf l l' r r' m m' v v' k x Pl Pr Pm Pv E. unfold UpdateSImp in *. rewrite <- (len_perm A l l' Pl), <- (len_perm A r r' Pr).
    apply bind_ok in E as ([lc rc] & E1 & E). rewrite (MoveCounts_perm _ _ _ _ _ Pv _ E1). cbn [bind].
    rewrite <- (Hf l l' lc (Permutation_length Pl)), <- (Hf r r' rc (Permutation_length Pr)).
    apply bind_ok in E as (il & -> & E). apply bind_ok in E as (ir & -> & E). cbn [bind].
    apply has_m_perm in Pm. destruct (has_m m) as [mm|], (has_m m') as [mm'|]; try contradiction; [|exact E].
    rewrite <- (len_perm A mm mm' Pm), <- (Hf mm mm' (kM k) (Permutation_length Pm)). exact E.
  Qed.
  Lemma UpdateSImp_gini_perm from : by_number from -> forall l l' r r' m m' v v' k x, Permutation l l' -> Permutation r r' -> mperm m m' -> Permutation v v' ->
    UpdateSImp_gini A data from l r m k v = Ok x -> UpdateSImp_gini A data from l' r' m' k v' = Ok x.
  Proof.
    intros Hf l l' r r' m m' v v' k x Pl Pr Pm Pv E. unfold UpdateSImp_gini in *. rewrite <- (len_perm A l l' Pl), <- (len_perm A r r' Pr).
    apply bind_ok in E as ([lc rc] & E1 & E). rewrite (MoveCounts_perm _ _ _ _ _ Pv _ E1). cbn [bind].
    rewrite <- (Hf l l' lc (Permutation_length Pl)), <- (Hf r r' rc (Permutation_length Pr)).
    apply bind_ok in E as (il & -> & E). apply bind_ok in E as (ir & -> & E). cbn [bind].
    apply has_m_perm in Pm. destruct (has_m m) as [mm|], (has_m m') as [mm'|]; try contradiction; [|exact E].
    rewrite <- (len_perm A mm mm' Pm), <- (Hf mm mm' (kM k) (Permutation_length Pm)). exact E.
  Qed.
  Lemma counting_orderless imp upd : imp_orderless imp ->
    (forall l l' r r' m m' v v' k x, Permutation l l' -> Permutation r r' -> mperm m m' -> Permutation v v' -> upd l r m k v = Ok x -> upd l' r' m' k v' = Ok x) ->
    orderless (counting_target A imp upd).
  Proof.
    intros Hi Hu. split; cbn [tImp tSplit tUpdate counting_target].
    - intros l l' s r P E. apply bind_ok in E as ([e c] & E1 & E). rewrite (Hi _ _ _ _ P E1). exact E.
    - intros l l' r r' m m' s x P1 P2 P3 E. apply bind_ok in E as ([e c] & E1 & E). rewrite (SplitImpurity_perm imp Hi l l' r r' m m' _ _ P1 P2 P3 E1). exact E.
    - intros l l' r r' m m' v v' s x P1 P2 P3 P4 E. apply bind_ok in E as ([e c] & E1 & E). rewrite (Hu l l' r r' m m' v v' _ _ P1 P2 P3 P4 E1). exact E.
  Qed.
  Lemma gini_orderless : orderless (gini_target A data).
  Proof.
    apply counting_orderless; [|apply UpdateSImp_gini_perm].
    - intros l l' k r P E. unfold GiniWithoutAlocate in *. rewrite <- (Permutation_length P). apply bind_ok in E as (c & E1 & E). rewrite (CountPerCat_perm _ _ _ _ P _ E1). exact E.
    - intros l l' k Hl. unfold GiniFromCounts. rewrite Hl. reflexivity.
  Qed.
  Lemma entropy_orderless nlog : orderless (entropy_target A nlog data).
  Proof.
    apply counting_orderless; [|apply UpdateSImp_perm].
    - intros l l' k r P E. unfold EntropyImpurity in *. rewrite <- (Permutation_length P). apply bind_ok in E as (c & E1 & E). rewrite (CountPerCat_perm _ _ _ _ P _ E1). exact E.
    - intros l l' k Hl. unfold EntropyFromCounts. rewrite Hl. reflexivity.
  Qed.
  Lemma hdist_orderless : orderless (hdist_target A data).
  Proof.
    split; cbn [tImp tSplit tUpdate hdist_target].
    - auto.
    - intros l l' r r' m m' s x P1 P2 _ E. unfold HDistSplit in *. apply bind_ok in E as (lc & E1 & E). rewrite (CountPerCat_perm _ _ _ _ P1 _ E1). cbn [bind].
      apply bind_ok in E as (rc & E2 & E). rewrite (CountPerCat_perm _ _ _ _ P2 _ E2). exact E.
    - intros l l' r r' m m' v v' s x _ _ _ P E. unfold HDistUpdate in *. apply bind_ok in E as ([lc rc] & E1 & E). rewrite (MoveCounts_perm _ _ _ _ _ P _ E1). exact E.
  Qed.
End Counting.

(** Sums: an addition that can be reordered. *)
Definition adds_any_order (A : arith) : Prop :=
  forall x y z : A, nadd A (nadd A x y) z = nadd A (nadd A x z) y.
Lemma XR_adds : adds_any_order XR.
Proof. intros [x|] [y|] [z|]; cbn; try reflexivity. f_equal. lra. Qed.

Section Sums.
  Variable A : arith.
  Hypothesis Hadd : adds_any_order A.
  Variable data : list A.
  Lemma SumSq_perm l l' : Permutation l l' -> forall r, SumAndSumSquares A data l = Ok r -> SumAndSumSquares A data l' = Ok r.
  Proof.
    intros P. apply foreach_perm; [|exact P]. intros a b [s q] s1 s2 E1 E2. apply bind_ok in E1 as (x & -> & E1). injection E1 as <-.
    apply bind_ok in E2 as (y & -> & E2). injection E2 as <-. cbn [bind]. eexists. split; [reflexivity|]. cbn [bind]. do 2 f_equal; apply Hadd.
  Qed.
  Lemma GBSum_perm l l' : Permutation l l' -> forall r, GBSum A data l = Ok r -> GBSum A data l' = Ok r.
  Proof.
    intros P. apply foreach_perm; [|exact P]. intros a b s s1 s2 E1 E2. apply bind_ok in E1 as (x & -> & E1). injection E1 as <-.
    apply bind_ok in E2 as (y & -> & E2). injection E2 as <-. cbn [bind]. eexists. split; [reflexivity|]. cbn [bind]. f_equal. apply Hadd.
  Qed.
  Lemma NumImpurity_perm l l' : Permutation l l' -> forall r, NumImpurity A data l = Ok r -> NumImpurity A data l' = Ok r.
  Proof.
    intros P r E. unfold NumImpurity in *. rewrite <- (len_perm A l l' P). apply bind_ok in E as ([s q] & E1 & E). rewrite (SumSq_perm _ _ P _ E1). exact E.
  Qed.
  Lemma NumMean_perm missing l l' : Permutation l l' -> forall r, NumMean A data missing l = Ok r -> NumMean A data missing l' = Ok r.
  Proof.
    intros P r E. unfold NumMean in *. apply bind_ok in E as ([m n] & E1 & E).
    rewrite (fun Hb => foreach_perm _ l l' Hb P _ _ E1); [exact E|]. clear - Hadd. intros a b [m n] s1 s2 E1 E2.
    destruct s1 as [m1 n1], s2 as [m2 n2]. apply bind_ok in E1 as (u & -> & E1). apply bind_ok in E2 as (v & -> & E2). cbn [bind].
    destruct u; [|apply bind_ok in E1 as (x & -> & E1); cbn [bind]]; injection E1 as <- <-;
      (destruct v; [|apply bind_ok in E2 as (y & -> & E2); cbn [bind]]); injection E2 as <- <-; (eexists; split; [reflexivity|]); cbn [bind]; try reflexivity.
    rewrite (Hadd m y x). reflexivity.
  Qed.
  Lemma num_orderless : orderless (num_target A data).
  Proof.
    split; cbn [tImp tSplit tUpdate num_target].
    - intros l l' s r P E. apply bind_ok in E as (e & E1 & E). rewrite (NumImpurity_perm _ _ P _ E1). exact E.
    - intros l l' r r' m m' s x P1 P2 P3 E. unfold NumSplitImpurity in *. rewrite <- (len_perm A l l' P1), <- (len_perm A r r' P2).
      apply bind_ok in E as ([ls lq] & E1 & E). rewrite (SumSq_perm _ _ P1 _ E1). cbn [bind].
      apply bind_ok in E as ([rs rq] & E2 & E). rewrite (SumSq_perm _ _ P2 _ E2). cbn [bind].
      apply has_m_perm in P3. destruct (has_m m) as [mm|], (has_m m') as [mm'|]; try contradiction; [|exact E].
      rewrite <- (len_perm A mm mm' P3). apply bind_ok in E as ([ms mq] & E3 & E). rewrite (SumSq_perm _ _ P3 _ E3). exact E.
    - intros l l' r r' m m' v v' s x P1 P2 P3 P4 E. unfold NumUpdate in *. rewrite <- (len_perm A l l' P1), <- (len_perm A r r' P2).
      apply bind_ok in E as ([vs vq] & E1 & E). rewrite (SumSq_perm _ _ P4 _ E1). cbn [bind].
      apply has_m_perm in P3. destruct (has_m m) as [mm|], (has_m m') as [mm'|]; try contradiction; [|exact E].
      rewrite <- (len_perm A mm mm' P3). exact E.
  Qed.
  Lemma grad_orderless : orderless (grad_target A data).
  Proof.
    split; cbn [tImp tSplit tUpdate grad_target].
    - intros l l' s r P E. apply bind_ok in E as (e & E1 & E). rewrite (NumImpurity_perm _ _ P _ E1). exact E.
    - intros l l' r r' m m' s x P1 P2 _ E. unfold GBSplit, FriedmanScore in *. rewrite <- (len_perm A l l' P1), <- (len_perm A r r' P2).
      apply bind_ok in E as (ls & E1 & E). rewrite (GBSum_perm _ _ P1 _ E1). cbn [bind]. apply bind_ok in E as (rs & E2 & E). rewrite (GBSum_perm _ _ P2 _ E2). exact E.
    - intros l l' r r' m m' v v' s x P1 P2 _ P4 E. unfold GBUpdate, FriedmanScore in *. rewrite <- (len_perm A l l' P1), <- (len_perm A r r' P2).
      apply bind_ok in E as (mv & E1 & E). rewrite (GBSum_perm _ _ P4 _ E1). exact E.
  Qed.
End Sums.
