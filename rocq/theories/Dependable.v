(** The targets of the code always answer (GrowSpec.v), and float64 and exact
    comparisons are sane. *)
From Verif Require Import Go GoLemmas F64 F64Order Exact ModelFeature ModelImpurity ImpuritySpec ImpurityProofs PropImpurity2
  ModelSplit SplitSpec SplitProofs ModelSearch SearchSpec SearchProofs ModelTargets TargetProofs GrowSpec.
Local Open Scope nat_scope.
Local Open Scope list_scope.

Lemma move_total data n moved lc rc : labelled data n moved -> length lc = n -> length rc = n ->
  exists lc' rc', MoveCountsRtoL data moved lc rc = Ok (lc', rc') /\ length lc' = n /\ length rc' = n.
Proof.
  revert lc rc. unfold MoveCountsRtoL. induction moved as [|c moved IH]; intros lc rc Hm Hl Hr.
  - exists lc, rc. auto.
  - inversion Hm as [|? ? [H1 H2] Hm']; subst.
    cbn [foreach]. rewrite (get_default data c 0) by auto. cbn [bind].
    destruct (@get_ok Z lc (nth c data 0)) as (a & -> & _); [auto|]. cbn [bind].
    rewrite set_ok by auto. cbn [bind].
    destruct (@get_ok Z rc (nth c data 0)) as (b & -> & _); [lia|]. cbn [bind].
    rewrite set_ok by lia. cbn [bind].
    apply IH; auto; rewrite upd_length; auto.
Qed.

Section Counting.
  Variable A : arith.
  Variables (data : list nat) (n : nat).
  Variables (imp : impurity A) (from : recount A).
  Hypothesis Hco : coherent A data imp from.
  Hypothesis Hfrom : forall l c, length c = n -> exists v, from l c = Ok v.

  Lemma counting_imp l c : labelled data n l -> length c = n ->
    exists v, imp l c = Ok (v, counts data n l).
  Proof.
    intros Hl Hc. rewrite Hco, CountPerCat_ok by (rewrite Hc; auto). rewrite Hc. cbn [bind].
    destruct (Hfrom l (counts data n l)) as (v & ->); [apply counts_length|]. cbn [bind]. eauto.
  Qed.

  Lemma counting_split l r m k : labelled data n l -> labelled data n r ->
    (forall mm, m = Some mm -> labelled data n mm) -> room n k ->
    exists v k', SplitImpurity A imp l r m k = Ok (v, k') /\ room n k'.
  Proof.
    intros Hl Hr Hm (K1 & K2 & K3). unfold SplitImpurity.
    destruct (counting_imp l (kL k) Hl K1) as (vl & ->). cbn [bind].
    destruct (counting_imp r (kR k) Hr K2) as (vr & ->). cbn [bind].
    destruct m as [[|c m]|]; cbn [has_m].
    - do 2 eexists. split; [reflexivity|]. unfold room; cbn. rewrite !counts_length. auto.
    - destruct (counting_imp (c :: m) (kM k) (Hm _ eq_refl) K3) as (vm & ->). cbn [bind].
      do 2 eexists. split; [reflexivity|]. unfold room; cbn. rewrite !counts_length. auto.
    - do 2 eexists. split; [reflexivity|]. unfold room; cbn. rewrite !counts_length. auto.
  Qed.

  Lemma counting_dependable upd :
    (forall l r m k moved, labelled data n moved -> room n k -> exists v k', upd l r m k moved = Ok (v, k') /\ room n k') ->
    dependable (counting_target A imp upd) (in_data data n) (cst_ready n).
  Proof.
    intros Hu. constructor.
    - intros l [c k] Hl [R1 R2]. cbn [tImp counting_target fst snd].
      destruct (counting_imp l c Hl R1) as (v & ->). cbn [bind]. do 2 eexists. split; [reflexivity|].
      split; auto. apply counts_length.
    - intros l r m [c k] Hl Hr Hm [R1 R2]. cbn [tSplit counting_target fst snd].
      destruct (counting_split l r m k Hl Hr Hm R2) as (v & k' & -> & R'). cbn [bind].
      do 2 eexists. split; [reflexivity|]. split; auto.
    - intros l r m moved [c k] _ _ _ Hv [R1 R2]. cbn [tUpdate counting_target fst snd].
      destruct (Hu l r m k moved Hv R2) as (v & k' & -> & R'). cbn [bind].
      do 2 eexists. split; [reflexivity|]. split; auto.
  Qed.

  Lemma update_total l r m k moved : labelled data n moved -> room n k ->
    exists v k', UpdateSImp A data from l r m k moved = Ok (v, k') /\ room n k'.
  Proof.
    intros Hm (K1 & K2 & K3). unfold UpdateSImp.
    destruct (move_total data n moved (kL k) (kR k) Hm K1 K2) as (lc & rc & -> & L1 & L2). cbn [bind].
    destruct (Hfrom l lc L1) as (vl & ->). cbn [bind]. destruct (Hfrom r rc L2) as (vr & ->). cbn [bind].
    destruct (has_m m).
    - destruct (Hfrom l0 (kM k) K3) as (vm & ->). cbn [bind]. do 2 eexists. split; [reflexivity|]. repeat split; auto.
    - do 2 eexists. split; [reflexivity|]. repeat split; auto.
  Qed.
  Lemma update_gini_total l r m k moved : labelled data n moved -> room n k ->
    exists v k', UpdateSImp_gini A data from l r m k moved = Ok (v, k') /\ room n k'.
  Proof.
    intros Hm (K1 & K2 & K3). unfold UpdateSImp_gini.
    destruct (move_total data n moved (kL k) (kR k) Hm K1 K2) as (lc & rc & -> & L1 & L2). cbn [bind].
    destruct (Hfrom l lc L1) as (vl & ->). cbn [bind]. destruct (Hfrom r rc L2) as (vr & ->). cbn [bind].
    destruct (has_m m).
    - destruct (Hfrom l0 (kM k) K3) as (vm & ->). cbn [bind]. do 2 eexists. split; [reflexivity|]. repeat split; auto.
    - do 2 eexists. split; [reflexivity|]. repeat split; auto.
  Qed.
End Counting.

(** Classification by Gini impurity, any arithmetic. *)
Lemma gini_dependable A data n : dependable (gini_target A data) (in_data data n) (cst_ready n).
Proof.
  apply counting_dependable with (from := GiniFromCounts A).
  - intros cases counter. reflexivity.
  - intros l c _. eexists. reflexivity.
  - intros. apply update_gini_total; auto. intros l' c _. eexists. reflexivity.
Qed.
Lemma entropy_dependable A nlog data n : dependable (entropy_target A nlog data) (in_data data n) (cst_ready n).
Proof.
  apply counting_dependable with (from := EntropyFromCounts A nlog).
  - intros cases counter. reflexivity.
  - intros l c _. eexists. reflexivity.
  - intros. apply update_total; auto. intros l' c _. eexists. reflexivity.
Qed.

(** Regression by squared error, any arithmetic. *)
Lemma sum_total (A : arith) (data : list A) cases : Forall (fun c => c < length data) cases ->
  exists s q, SumAndSumSquares A data cases = Ok (s, q).
Proof.
  intros H. unfold SumAndSumSquares. generalize (nofZ A 0) at 1 as a. generalize (nofZ A 0) as b.
  induction cases as [|c cases IH]; intros b a; [cbn; eauto|].
  inversion H; subst. cbn [foreach]. destruct (@get_ok A data c) as (x & -> & _); [auto|]. cbn [bind].
  apply IH; auto.
Qed.
Lemma num_dependable (A : arith) (data : list A) :
  dependable (num_target A data) (fun c => c < length data) (fun _ => True).
Proof.
  constructor.
  - intros l s Hl _. cbn [tImp num_target]. unfold NumImpurity.
    destruct (sum_total A data l Hl) as (a & b & ->). cbn [bind]. eauto.
  - intros l r m s Hl Hr Hm _. cbn [tSplit num_target]. unfold NumSplitImpurity.
    destruct (sum_total A data l Hl) as (a & b & ->). cbn [bind].
    destruct (sum_total A data r Hr) as (c & d & ->). cbn [bind].
    destruct m as [[|x m]|]; cbn [has_m]; eauto.
    destruct (sum_total A data (x :: m) (Hm _ eq_refl)) as (e & f & ->). cbn [bind]. eauto.
  - intros l r m moved s _ _ _ Hv _. cbn [tUpdate num_target]. unfold NumUpdate.
    destruct (sum_total A data moved Hv) as (a & b & ->). cbn [bind]. destruct (has_m m); eauto.
Qed.
(** Gradient boosting, any arithmetic. *)
Lemma gbsum_total (A : arith) (data : list A) cases : Forall (fun c => c < length data) cases ->
  exists s, GBSum A data cases = Ok s.
Proof.
  intros H. unfold GBSum. generalize (nofZ A 0) as b.
  induction cases as [|c cases IH]; intros b; [cbn; eauto|].
  inversion H; subst. cbn [foreach]. destruct (@get_ok A data c) as (x & -> & _); [auto|]. cbn [bind].
  apply IH; auto.
Qed.
Lemma grad_dependable (A : arith) (data : list A) :
  dependable (grad_target A data) (fun c => c < length data) (fun _ => True).
Proof.
  constructor.
  - intros l s Hl _. cbn [tImp grad_target]. unfold NumImpurity.
    destruct (sum_total A data l Hl) as (a & b & ->). cbn [bind]. eauto.
  - intros l r m s Hl Hr Hm _. cbn [tSplit grad_target]. unfold GBSplit.
    destruct (gbsum_total A data l Hl) as (a & ->). cbn [bind].
    destruct (gbsum_total A data r Hr) as (c & ->). cbn [bind]. eauto.
  - intros l r m moved s _ _ _ Hv _. cbn [tUpdate grad_target]. unfold GBUpdate.
    destruct (gbsum_total A data moved Hv) as (a & ->). cbn [bind]. eauto.
Qed.

Lemma sane_F64 : sane F64.
Proof. split; [apply ordered_F64|vm_compute; reflexivity]. Qed.

Lemma dependable_weaken {A : arith} {St} (T : target A St) (ok ok' : nat -> Prop) ready :
  (forall c, ok' c -> ok c) -> dependable T ok ready -> dependable T ok' ready.
Proof.
  intros H [D1 D2 D3]. assert (W : forall l, Forall ok' l -> Forall ok l).
  { intros l. apply Forall_impl. auto. }
  constructor; eauto.
  - intros. apply D2; auto.
  - intros. apply D3; auto.
Qed.

(** ** The contrast target of vetting: a shuffled copy of the target *)
From Verif Require Import ModelSample ModelGrow SplitterProofs.

Lemma shuffleCases_total {B} rnd cases (ms : list bool) (d : list B) n :
  Forall (fun c => c < n) cases -> length ms = n -> length d = n ->
  exists ms' d', shuffleCases rnd cases ms d = Ok (ms', d') /\ length ms' = n /\ Permutation d d'.
Proof.
  intros Hc Hm Hd. unfold shuffleCases.
  destruct (@for_up_total (list bool * list B)
    (fun _ '((m, e) : list bool * list B) => length m = n /\ Permutation d e)
    (fun j st => let* targeti := get cases j in
       let* r := intn (rnd j) (length cases - j) in
       let* sourcei := get cases (j + r) in swap2 targeti sourcei st) (length cases) 0 (ms, d)) as ([m e] & E & H1 & H2).
  - intros i [m e] Hi [L P].
    destruct (@get_ok nat cases i) as (t & -> & Et); [lia|]. cbn [bind].
    unfold intn. destruct (Nat.eqb_spec (length cases - i) 0); [lia|]. cbn [bind].
    set (k := rnd i mod (length cases - i)).
    assert (Hk : k < length cases - i) by (apply Nat.mod_upper_bound; lia). clearbody k.
    destruct (@get_ok nat cases (i + k)) as (u & -> & Eu); [lia|]. cbn [bind swap2].
    rewrite Forall_forall in Hc.
    assert (Ht : t < n) by (apply Hc; eapply nth_error_In; eauto).
    assert (Hu : u < n) by (apply Hc; eapply nth_error_In; eauto).
    pose proof (Permutation_length P) as PL.
    destruct (@swapl_ok bool m t u) as (m' & Em); [lia|lia|]. rewrite Em. cbn [bind].
    destruct (@swapl_ok B e t u) as (e' & Ee); [lia|lia|]. rewrite Ee. cbn [bind].
    apply yields_ok. split.
    + rewrite (swapl_length _ _ _ Em). auto.
    + etransitivity; [exact P|]. apply (swapl_perm _ _ _ Ee).
  - auto.
  - exists m, e. auto.
Qed.

(** densecatfeature.go CopyInTo and ShuffleCases on the target itself. *)
Definition cat_copy (target : catF) (_ : catF) : catF := target.
Lemma gini_vettable (target : catF) N n : length (cData target) = N -> length (cMissing target) = N ->
  Forall (fun v => v < n) (cData target) ->
  vettable F64 cst catF (cat_copy target) cShuffleCases (fun k => gini_target F64 (cData k))
    (fun c => c < N) (cst_ready n)
    (fun k => length (cData k) = N /\ length (cMissing k) = N /\ Forall (fun v => v < n) (cData k)).
Proof.
  intros H1 H2 H3. constructor.
  - intros k _. unfold cat_copy. auto.
  - intros draws cs k Hc (K1 & K2 & K3). unfold cShuffleCases.
    destruct (shuffleCases_total draws cs (cMissing k) (cData k) N Hc K2 K1) as (ms & d & -> & L & P). cbn [bind].
    eexists. split; [reflexivity|]. cbn [cData cMissing]. split; [rewrite <- (Permutation_length P); auto|].
    split; auto. eapply Permutation_Forall; eauto.
  - intros k (K1 & K2 & K3). eapply dependable_weaken; [|apply gini_dependable with (n := n)].
    intros c Hc. split; [lia|]. rewrite Forall_forall in K3. apply K3. apply nth_In. lia.
Qed.
