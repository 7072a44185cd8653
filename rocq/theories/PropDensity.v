(** C90: density estimating trees.  C91: the density term of transduction trees. *)
From Verif Require Import Go GoLemmas F64 Exact ModelFeature ModelSplit ModelImpurity ModelSearch ModelTargets ModelTree ModelGrow
  SearchSpec SearchProofs GrowSpec Dependable PropGrow PropGrow2 ModelTargets2 BlindProofs.
Local Open Scope nat_scope.
Local Open Scope list_scope.

(** ** Values that are not negative *)

Definition not_neg (x : f64) : Prop :=
  match x with
  | S754_nan | S754_zero false | S754_infinity false | S754_finite false _ _ => True
  | _ => False
  end.
(** The values a division by +0 or NaN can have here. *)
Definition lost (x : f64) : Prop := x = S754_infinity false \/ x = S754_nan.

Lemma round_sign m e l : not_neg (binary_round_aux 53 1024 false m e l).
Proof.
  unfold binary_round_aux. destruct (shr_fexp 53 1024 m e l) as [mrs' e'].
  destruct (shr_fexp 53 1024 _ e' loc_Exact) as [mrs'' e'']. destruct (shr_m mrs''); [exact I| |exact I].
  destruct (e'' <=? 1024 - 53)%Z; exact I.
Qed.
Lemma fdiv_not_neg x y : not_neg x -> not_neg y -> not_neg (fdiv x y).
Proof.
  destruct x as [[]|[]| |[] mx ex], y as [[]|[]| |[] my ey]; intros Hx Hy; try contradiction; try exact I.
  unfold fdiv, SFdiv. destruct (SFdiv_core_binary 53 1024 _ _ _ _) as [[mz ez] lz]. apply round_sign.
Qed.
Lemma f_of_Z_not_neg z : (0 <= z)%Z -> not_neg (f_of_Z z).
Proof.
  intros H. destruct z as [|p|p]; [exact I| |lia]. unfold f_of_Z, binary_normalize, binary_round.
  match goal with |- context [let (_, _) := ?X in _] => destruct X as [m e] end. apply round_sign.
Qed.
Lemma fdiv_zero x : not_neg x -> lost (fdiv x f0).
Proof. destruct x as [[]|[]| |[] m e]; intros H; try contradiction; cbn; [right|left|right|left]; reflexivity. Qed.
Lemma fdiv_nan x : lost (fdiv x S754_nan).
Proof. right. destruct x as [[]|[]| |[] m e]; reflexivity. Qed.
Lemma fdiv_lost x y : lost x -> not_neg y -> lost (fdiv x y).
Proof. intros [-> | ->]; destruct y as [[]|[]| |[] m e]; intros H; try contradiction; cbn; (left; reflexivity) || (right; reflexivity). Qed.

(** Whatever the values are: the span of a numerical feature is +0 or NaN. *)
Lemma span_trivial f cases s : nSpan f cases = Ok s -> s = f0 \/ s = S754_nan.
Proof.
  unfold nSpan. intros E. apply bind_ok in E as ([mn mx] & E & Es).
  assert (H : mn = mx).
  { revert E. cut (f0 = f0); [|reflexivity]. generalize f0 at 2 4. generalize f0 as a. 
    induction cases as [|c cases IH]; intros a b Hab E; cbn [foreach] in E; [injection E as <- <-; auto|].
    apply bind_ok in E as ([a' b'] & E1 & E2). apply (IH a' b'); auto.
    apply bind_ok in E1 as (ms & _ & E1). destruct ms; [injection E1 as <- <-; auto|].
    apply bind_ok in E1 as (v & _ & E1). injection E1 as <- <-. reflexivity. }
  injection Es as <-. subst mn. destruct mx as [[]|[]| |s m e]; auto.
  left. unfold fsub, SFsub. rewrite Z.min_id, Z.sub_diag. reflexivity.
Qed.

(** ** Spec: distinct values *)

(** [n] is the number of distinct elements of [l]. *)
Definition distinct (l : list nat) (n : nat) : Prop :=
  exists D, NoDup D /\ (forall c, In c D <-> In c l) /\ length D = n.
(** The categories that occur among the cases. *)
Definition cats_of (f : catF) (cases : list nat) : list nat :=
  map (fun c => nth c (cData f) 0) (filter (fun c => negb (nth c (cMissing f) false)) cases).
(** The cases exist and have a known category. *)
Definition covers (f : catF) (cases : list nat) : Prop :=
  Forall (fun c => c < length (cMissing f) /\ c < length (cData f) /\ nth c (cData f) 0 < NCats (cMap f)) cases.

Lemma get_at {X} (l : list X) i d : i < length l -> get l i = Ok (nth i l d).
Proof. intros H. unfold get. rewrite (nth_error_nth' l d H). reflexivity. Qed.

Lemma span_counts f k : NCats (cMap f) <= k -> forall cases counter seen,
  covers f cases -> length counter = k -> NoDup seen -> Forall (fun c => c < NCats (cMap f)) seen ->
  (forall c, c < k -> (nth c counter 0 = 0 <-> ~ In c seen)) ->
  exists n, cSpan_loop f cases counter (length seen) = Ok n /\ distinct (seen ++ cats_of f cases) n.
Proof.
  intros Hk. induction cases as [|i cases IH]; intros counter seen Hc Hl Hn Hs Hz; cbn [cSpan_loop].
  - eexists. split; [reflexivity|]. exists seen. cbn. rewrite app_nil_r. split; auto. split; auto. tauto.
  - apply Forall_cons_iff in Hc as [(H1 & H2 & H3) Hc]. rewrite (get_at _ _ false) by auto. cbn [bind].
    unfold cats_of. cbn [filter]. destruct (nth i (cMissing f) false); cbn [negb].
    { apply IH; auto. }
    rewrite (get_at _ _ 0) by auto. cbn [bind]. set (c := nth i (cData f) 0) in *.
    rewrite (get_at _ _ 0) by lia. cbn [bind map]. fold (cats_of f cases). fold c.
    destruct (nth c counter 0 =? 0) eqn:E0.
    + apply Nat.eqb_eq in E0. assert (Hc0 : ~ In c seen) by (apply Hz; auto; lia).
      rewrite set_ok by lia. cbn [bind].
      assert (Nd : NoDup (c :: seen)) by (constructor; auto).
      assert (Fs : Forall (fun c => c < NCats (cMap f)) (c :: seen)) by (constructor; auto).
      destruct (S (length seen) =? NCats (cMap f)) eqn:Ex.
      * apply Nat.eqb_eq in Ex. eexists. split; [reflexivity|]. exists (c :: seen). split; auto. split; [|reflexivity].
        assert (Full : incl (seq 0 (NCats (cMap f))) (c :: seen)).
        { apply NoDup_length_incl; auto; [rewrite seq_length; cbn; lia|].
          intros x Hx. rewrite Forall_forall in Fs. apply in_seq. specialize (Fs x Hx). lia. }
        intros x. rewrite in_app_iff. cbn [In]. split; [tauto|].
        intros [H|[H|H]]; [right; exact H|left; exact H|].
        apply in_map_iff in H as (j & <- & H). apply filter_In in H as [H _]. apply Full, in_seq.
        rewrite Forall_forall in Hc. destruct (Hc j H) as (_ & _ & Hj). lia.
      * destruct (IH (upd counter c 1) (c :: seen)) as (n & E & D & D1 & D2 & D3); auto.
        { rewrite upd_length. auto. }
        { intros x Hx. destruct (Nat.eq_dec x c) as [->|Nx].
          - assert (En : nth c (upd counter c 1) 0 = 1) by (apply nth_error_nth, nth_error_upd_eq; lia).
            rewrite En. cbn. split; [discriminate|tauto].
          - assert (En : nth x (upd counter c 1) 0 = nth x counter 0).
            { apply nth_error_nth. rewrite nth_error_upd_neq by auto. apply nth_error_nth'. lia. }
            rewrite En, Hz by auto. cbn. intuition congruence. }
        exists n. split; [exact E|]. exists D. split; auto. split; auto. intros x. rewrite D2, !in_app_iff. cbn [In]. tauto.
    + destruct (IH counter seen) as (n & E & D & D1 & D2 & D3); auto.
      exists n. split; [exact E|]. exists D. split; auto. split; auto. intros x. rewrite D2, !in_app_iff. cbn [In].
      assert (Hi : In c seen).
      { destruct (in_dec Nat.eq_dec c seen) as [H|H]; auto. apply Hz in H; [|lia]. apply Nat.eqb_neq in E0. congruence. }
      split; [tauto|]. intros [H|[<-|H]]; auto.
Qed.

Lemma span_distinct f k cases : NCats (cMap f) <= k -> covers f cases ->
  exists n, cSpan f cases (repeat 0 k) = Ok n /\ distinct (cats_of f cases) n.
Proof.
  intros Hk Hc. unfold cSpan. rewrite repeat_length.
  destruct (span_counts f k Hk cases (repeat 0 k) []) as (n & E & H); auto.
  - apply repeat_length.
  - constructor.
  - intros c _. rewrite nth_repeat. cbn. tauto.
  - exists n. split; auto.
Qed.

(** ** C90 *)

Lemma dens_span_not_neg f cases s : dens_span f cases = Ok s -> not_neg s.
Proof.
  destruct f as [f|f]; cbn [dens_span]; intros E.
  - apply span_trivial in E as [-> | ->]; exact I.
  - unfold cat_span in E. apply bind_ok in E as (n & _ & E). injection E as <-. apply f_of_Z_not_neg. lia.
Qed.
Lemma density_loop fs cases : forall e e' : F64, not_neg e ->
  foreach (map dens_span fs) (fun span e => let* s := span cases in Ok (ndiv F64 e s)) e = Ok e' ->
  not_neg e' /\ (lost e -> lost e') /\ ((exists f, In (FNum f) fs) -> lost e').
Proof.
  induction fs as [|f fs IH]; intros e e' He E; cbn [map foreach] in E.
  - injection E as <-. split; auto. split; auto. intros (f & []).
  - apply bind_ok in E as (e1 & E1 & E). apply bind_ok in E1 as (s & E1 & E2). injection E2 as E2.
    pose proof (dens_span_not_neg _ _ _ E1) as Hs. change (ndiv F64 e s) with (fdiv e s) in E2. subst e1.
    destruct (IH (fdiv e s) e') as (A1 & A2 & A3); auto; [apply fdiv_not_neg; auto|].
    split; auto. split; [intros; apply A2, fdiv_lost; auto|].
    intros (g & [-> |Hg]); [|apply A3; eauto]. apply A2. cbn [dens_span] in E1.
    apply span_trivial in E1 as [-> | ->]; [apply fdiv_zero; auto|apply fdiv_nan].
Qed.

Lemma density_lost fs N cases e : (exists f, In (FNum f) fs) -> DensImpurity F64 (map dens_span fs) N cases = Ok e -> lost e.
Proof.
  intros Hf E. unfold DensImpurity in E. apply density_loop in E; [apply E, Hf|].
  apply (fdiv_not_neg (f_of_Z _) (f_of_Z _)); apply f_of_Z_not_neg; nia.
Qed.
Lemma fadd_lost x y : lost x -> lost y -> lost (fadd x y).
Proof. intros [-> | ->] [-> | ->]; cbn; auto; (left; reflexivity) || (right; reflexivity). Qed.
Lemma fmul_lost x y : not_neg x -> lost y -> lost (fmul x y).
Proof. intros Hx [-> | ->]; destruct x as [[]|[]| |[] m e]; try contradiction; cbn; (left; reflexivity) || (right; reflexivity). Qed.
Lemma fadd_not_neg x y : not_neg x -> not_neg y -> not_neg (fadd x y).
Proof.
  destruct x as [[]|[]| |[] mx ex], y as [[]|[]| |[] my ey]; intros Hx Hy; try contradiction; try exact I.
  unfold fadd, SFadd. cbn [cond_Zopp].
  destruct (Zpos (fst (shl_align mx ex (Z.min ex ey))) + Zpos (fst (shl_align my ey (Z.min ex ey))))%Z eqn:E; try lia.
  unfold binary_normalize, binary_round. match goal with |- context [let (_, _) := ?X in _] => destruct X as [m e] end. apply round_sign.
Qed.

Lemma split_lost imp l r m e : (forall cs e, imp cs = Ok e -> lost e) -> split_by F64 imp l r m = Ok e -> lost e.
Proof.
  intros Hi E. unfold split_by in E. apply bind_ok in E as (il & E1 & E). apply bind_ok in E as (ir & E2 & E).
  assert (L : forall k : list nat, not_neg (f_of_Z (Z.of_nat (length k)))) by (intros; apply f_of_Z_not_neg; lia).
  destruct (has_m m) as [mm|].
  - apply bind_ok in E as (im & E3 & E). injection E as <-. apply fdiv_lost.
    + apply fadd_lost; [apply fadd_lost|]; apply fmul_lost; eauto.
    + apply fadd_not_neg; [apply fadd_not_neg|]; apply L.
  - injection E as <-. apply fdiv_lost.
    + apply fadd_lost; apply fmul_lost; eauto.
    + apply fadd_not_neg; [apply fadd_not_neg; apply L|exact I].
Qed.
Lemma lost_worse (p e d : F64) : lost p -> lost e -> nltb F64 d (decrease F64 p e) = false.
Proof. intros [-> | ->] [-> | ->]; destruct d as [[]|[]| |[] m x]; reflexivity. Qed.

Section C90.
  Variables (fs : list feature) (N : nat).
  (** at least one of the features is numerical *)
  Hypothesis Hnum : exists f, In (FNum f) fs.
  Variables (predict : list nat -> res string) (rnd : nat -> nat) (K : Type) (kCopyFrom : K -> K)
    (kShuffleCases : (nat -> nat) -> list nat -> K -> res K) (kTarget : K -> target F64 unit).
  Local Notation Grow := (Grow F64 unit (density_target fs N) predict rnd K kCopyFrom kShuffleCases kTarget).

  (** Every tree that is grown for such data is a single leaf, whatever the data, the
      parameters and the random numbers. *)
Theorem C90_never_splits_refuted : forall fuel p cases g t g',
    Grow fuel p newNode cases g = Ok (t, g') ->
    exists cases' pred, predict cases' = Ok pred /\ t = Node (mkNd CNil 0 pred None) Nil Nil Nil.
  Proof.
    intros fuel p cases g t g' E. unfold newNode in E.
    eapply (blind_grow F64 unit (density_target fs N) lost) in E; [exact E|..].
    - intros cs s e s' H. cbn in H. apply bind_ok in H as (x & H & H'). injection H' as <- <-. eapply density_lost; eauto.
    - intros l r m s e s' H. cbn in H. apply bind_ok in H as (x & H & H'). injection H' as <- <-.
      eapply split_lost; [|exact H]. intros. eapply density_lost; eauto.
    - intros l r m v s e s' H. cbn in H. apply bind_ok in H as (x & H & H'). injection H' as <- <-.
      eapply split_lost; [|exact H]. intros. eapply density_lost; eauto.
    - apply lost_worse.
    - vm_compute. reflexivity.
    - vm_compute. reflexivity.
  Qed.

  (** ... and the density predicted for the leaf is infinite or not a number. *)
Theorem C90_infinite_density_refuted : forall cases e,
    DensPredicted F64 (map dens_span fs) N cases = Ok e -> lost e.
  Proof.
    intros cases e E. unfold DensPredicted in E. apply density_loop in E; [apply E, Hnum|].
    apply (fdiv_not_neg (f_of_Z _) (f_of_Z _)); apply f_of_Z_not_neg; lia.
  Qed.

  (** For data that can be searched (growable, see C40) such a tree is indeed grown. *)
Theorem C90_one_leaf_refuted : forall p ok ready kok cases g,
    growable F64 unit (density_target fs N) predict K kCopyFrom kShuffleCases kTarget p ok ready kok cases g ->
    forall fuel, length cases < fuel ->
    exists pred g', Grow fuel p newNode cases g = Ok (Node (mkNd CNil 0 pred None) Nil Nil Nil, g').
  Proof.
    intros p ok ready kok cases g Hg fuel Hf.
    destruct (C40_growing_ends_partial _ _ _ _ rnd _ _ _ _ _ _ _ _ _ _ Hg) as (n & g' & E & _).
    specialize (E fuel Hf). pose proof (C90_never_splits_refuted _ _ _ _ _ _ E) as (cs & pred & _ & ->). eauto.
  Qed.
End C90.

(** Density targets over features that cover the cases always answer. *)
Definition all_cover (fs : list feature) (c : nat) : Prop :=
  forall f, In f fs -> match f with
    | FNum f => c < length (nMissing f) /\ c < length (nData f)
    | FCat f => covers f [c]
    end.
Lemma covers_all f cases : (forall c, In c cases -> covers f [c]) -> covers f cases.
Proof. intros H. apply Forall_forall. intros c Hc. specialize (H c Hc). inversion H; auto. Qed.
Lemma num_span_total f cases : (forall c, In c cases -> c < length (nMissing f) /\ c < length (nData f)) ->
  exists s, nSpan f cases = Ok s.
Proof.
  intros H. unfold nSpan. generalize f0 at 1 as a. generalize f0 as b.
  induction cases as [|c cases IH]; intros b a; cbn [foreach].
  - eexists. reflexivity.
  - destruct (H c) as [H1 H2]; [cbn; auto|]. rewrite (get_at _ _ false) by auto. cbn [bind].
    destruct (nth c (nMissing f) false); [apply IH; intros; apply H; cbn; auto|].
    rewrite (get_at _ _ f0) by auto. cbn [bind]. apply IH. intros; apply H; cbn; auto.
Qed.
Lemma dens_span_total fs f cases : In f fs -> Forall (all_cover fs) cases -> exists s, dens_span f cases = Ok s.
Proof.
  intros Hf Hc. rewrite Forall_forall in Hc. destruct f as [f|f]; cbn [dens_span].
  - apply num_span_total. intros c Hi. apply (Hc c Hi _ Hf).
  - destruct (span_distinct f (NCats (cMap f)) cases) as (n & E & _); auto.
    { apply covers_all. intros c Hi. apply (Hc c Hi _ Hf). }
    unfold cat_span. rewrite E. cbn [bind]. eauto.
Qed.
Lemma density_total fs N cases : Forall (all_cover fs) cases -> exists e, DensImpurity F64 (map dens_span fs) N cases = Ok e.
Proof.
  intros Hc. unfold DensImpurity. generalize (ndiv F64 (num F64 (Z.of_nat (length cases) * Z.of_nat (length cases))) (num F64 (Z.of_nat N * Z.of_nat N))).
  assert (H : forall f, In f fs -> exists s, dens_span f cases = Ok s) by (intros; eapply dens_span_total; eauto).
  clear Hc. induction fs as [|f fs IH]; intros e; cbn [map foreach]; [eauto|].
  destruct (H f) as (s & ->); [cbn; auto|]. cbn [bind]. apply IH. intros; apply H; cbn; auto.
Qed.
Lemma density_dependable fs N : dependable (density_target fs N) (all_cover fs) (fun _ => True).
Proof.
  assert (H : forall l r m, Forall (all_cover fs) l -> Forall (all_cover fs) r -> (forall k, m = Some k -> Forall (all_cover fs) k) ->
    exists e, split_by F64 (DensImpurity F64 (map dens_span fs) N) l r m = Ok e).
  { intros l r m Hl Hr Hm. unfold split_by. destruct (density_total fs N l Hl) as (a & ->). cbn [bind].
    destruct (density_total fs N r Hr) as (b & ->). cbn [bind]. destruct m as [[|c m]|]; cbn [has_m]; eauto.
    destruct (density_total fs N (c :: m) (Hm _ eq_refl)) as (d & ->). cbn [bind]. eauto. }
  constructor.
  - intros l s Hl _. unfold density_target, plain_target; cbn [tImp tSplit tUpdate]. destruct (density_total fs N l Hl) as (a & ->). cbn [bind]. eauto.
  - intros l r m s Hl Hr Hm _. unfold density_target, plain_target; cbn [tImp tSplit tUpdate]. destruct (H l r m Hl Hr Hm) as (a & ->). cbn [bind]. eauto.
  - intros l r m v s Hl Hr Hm _ _. unfold density_target, plain_target; cbn [tImp tSplit tUpdate]. destruct (H l r m Hl Hr Hm) as (a & ->). cbn [bind]. eauto.
Qed.

(** *** With categorical features only *)

Fixpoint Rprod (l : list R) : R := match l with [] => 1%R | x :: l' => (x * Rprod l')%R end.
Lemma Rprod_nonzero l : Forall (fun x => x <> 0%R) l -> Rprod l <> 0%R.
Proof. induction 1; cbn; [lra|]. apply Rmult_integral_contrapositive. auto. Qed.

(** Exact arithmetic: the impurity is t^2 / (N^2 times the numbers of categories present), as the paper has it. *)
Theorem C90_categorical_partial : forall fs ns N cases, 0 < N ->
  Forall2 (fun f n => covers f cases /\ distinct (cats_of f cases) n /\ 0 < n) fs ns ->
  DensImpurity XR (map (fun f => cat_span XR (NCats (cMap f)) f) fs) N cases =
    Ok (Some (INR (length cases) * INR (length cases) / (INR N * INR N) / Rprod (map INR ns))%R).
Proof.
  intros fs ns N cases HN H. assert (HN0 : (INR N <> 0)%R) by (apply not_0_INR; lia).
  unfold DensImpurity. cbn [ndiv num nofZ XR]. unfold num. cbn [nofZ XR].
  rewrite !mult_IZR, <- !INR_IZR_INZ, xdiv_some by (apply Rmult_integral_contrapositive; auto).
  generalize (INR (length cases) * INR (length cases) / (INR N * INR N))%R as e. clear HN HN0.
  induction H as [|f n fs ns (H1 & H2 & H3) H IH]; intros e; cbn [map foreach Rprod].
  - f_equal. f_equal. field.
  - destruct (span_distinct f (NCats (cMap f)) cases (le_n _) H1) as (n' & E & D').
    assert (n' = n).
    { destruct H2 as (D & N1 & I1 & <-), D' as (D2 & N2 & I2 & <-). apply Nat.le_antisymm; apply NoDup_incl_length; auto; intros x Hx.
      - apply I1, I2, Hx. - apply I2, I1, Hx. }
    subst n'. unfold cat_span at 1. rewrite E. cbn [bind nofZ XR ndiv]. rewrite <- INR_IZR_INZ.
    assert (Hn : (INR n <> 0)%R) by (apply not_0_INR; lia). rewrite xdiv_some by auto.
    etransitivity; [apply IH|]. f_equal. f_equal. 
    assert (Hp : (Rprod (map INR ns) <> 0)%R).
    { apply Rprod_nonzero, Forall_forall. intros x Hx. apply in_map_iff in Hx as (k & <- & Hk).
      clear - H Hk. induction H as [|f n fs ns (_ & _ & Hn) H IH]; [destruct Hk|]. destruct Hk as [->|Hk]; auto. apply not_0_INR; lia. }
    field. auto.
Qed.

(** *** Examples *)

(** Six cases, a number that separates them and a category: one leaf. *)
Definition ex_num : numF := mkNum (map f_of_Z [1; 2; 3; 10; 11; 12]%Z) (repeat false 6) "N:x"%string false.
Definition ex_cat : catF := mkCat (mkCM [("a"%string, 0); ("b"%string, 1)] ["a"; "b"]%string) [0; 0; 0; 1; 1; 1] (repeat false 6) "C:y"%string false false.
Definition ex_p (fs : list feature) : params := mkP fs (length fs) 1 false false false false 0 false.
Definition ex_start (n : nat) : gstate F64 unit unit :=
  mkG _ _ _ (seq 0 n) [] (mkAl (repeat f0 6) (repeat 0%Z 6) tt 0) tt None None.
Definition ex_grow (fs : list feature) :=
  Grow F64 unit (density_target fs 6) (fun _ => Ok "leaf"%string) (fun _ => 0) unit (fun k => k) (fun _ _ k => Ok k)
    (fun _ => density_target fs 6) 10 (ex_p fs) newNode (seq 0 6) (ex_start (length fs)).
Example ex_density_one_leaf :
  match ex_grow [FNum ex_num; FCat ex_cat] with Ok (t, _) => t = Node (mkNd CNil 0 "leaf"%string None) Nil Nil Nil | _ => False end.
Proof. vm_compute. reflexivity. Qed.
(** Without the number the same cases are split. *)
Example ex_density_splits :
  match ex_grow [FCat ex_cat] with Ok (Node d l r _, _) => dCode d = CInt 1 /\ l <> Nil /\ r <> Nil | _ => False end.
Proof. vm_compute. repeat split; discriminate. Qed.
Example ex_density_covered : Forall (all_cover [FNum ex_num; FCat ex_cat]) (seq 0 6).
Proof.
  apply Forall_forall. intros c Hc. apply in_seq in Hc. intros f [<-|[<-|[]]].
  - cbn. lia.
  - assert (L : c = 0 \/ c = 1 \/ c = 2 \/ c = 3 \/ c = 4 \/ c = 5) by lia.
    decompose [or] L; subst c; repeat constructor.
Qed.
(** The hypothesis of C90_one_leaf_refuted for six different numbers. *)
Definition ex_vs : list f64 := map f_of_Z [1; 2; 3; 10; 11; 12]%Z.
Definition ex_fs : list feature := [FNum (PropSearch.plain ex_vs)].
Example ex_density_growable :
  growable F64 unit (density_target ex_fs 6) (fun _ => Ok "leaf"%string) unit (fun k => k) (fun _ _ k => Ok k)
    (fun _ => density_target ex_fs 6) (ex_p ex_fs) (all_cover ex_fs) (fun _ => True) (fun _ => True) (seq 0 6) (ex_start 1).
Proof.
  assert (L : Forall (fun c => c < length ex_vs) (seq 0 6)) by (apply PropSplitter.upto_cases; cbn; lia).
  constructor; try discriminate.
  - apply density_dependable.
  - apply sane_F64.
  - eauto.
  - apply Forall_forall. intros c Hc. apply in_seq in Hc. intros f [<-|[]]. cbn. lia.
  - cbn. lia.
  - cbn. lia.
  - intros i [<-|[]]. exists (FNum (PropSearch.plain ex_vs)). split; [reflexivity|].
    split; [apply plain_searchable; auto; vm_compute; reflexivity|].
    split; [apply plain_faithful; auto; vm_compute; reflexivity|discriminate].
  - split; cbn; lia.
  - exact I.
Qed.
Example ex_density_distinct : distinct (cats_of ex_cat (seq 0 6)) 2.
Proof. exists [0; 1]. split; [repeat constructor; cbn; intuition lia|]. split; [|reflexivity]. intros c. cbn. tauto. Qed.

(** ** C91 *)

Definition is_cat (f : feature) : bool := match f with FCat _ => true | FNum _ => false end.

Lemma maxcats_cats fs : forall mx, fold_left (fun mx f => if mx <? fNCats f then fNCats f else mx) (filter is_cat fs) mx =
  fold_left (fun mx f => if mx <? fNCats f then fNCats f else mx) fs mx.
Proof. induction fs as [|[f|f] fs IH]; intros mx; cbn [filter is_cat fold_left]; auto. Qed.

(** The density term does not depend on the numerical features, whatever their values:
    leaving them out changes nothing. *)
Theorem C91_numbers_ignored_refuted : forall name fs cases,
  (forall f c, In (FNum f) fs -> In c cases -> c < length (nMissing f) /\ c < length (nData f)) ->
  trans_density name fs cases = trans_density name (filter is_cat fs) cases.
Proof.
  intros name fs cases Hc. unfold trans_density, TransDensity.
  replace (MaxCats (filter is_cat fs)) with (MaxCats fs) by (symmetry; apply maxcats_cats).
  generalize (MaxCats fs) as k. intros k. generalize (ndiv F64 (nofZ F64 1) (num F64 (Z.of_nat (length cases) * Z.of_nat (length cases)))).
  induction fs as [|[f|f] fs IH]; intros e.
  - reflexivity.
  - cbn [filter is_cat trans_features]. fold (trans_features name fs) (trans_features name (filter is_cat fs)).
    assert (IH' := IH (fun g c Hg Hi => Hc g c (or_intror Hg) Hi)).
    destruct (negb (String.eqb (fName (FNum f)) name)); [|apply IH'].
    cbn [map foreach trans_span]. destruct (num_span_total f cases) as (s & E); [intros c Hi; apply (Hc f); cbn; auto|].
    rewrite E. cbn [bind]. replace (nltb F64 (nofZ F64 0) s) with false; [apply IH'|].
    apply span_trivial in E as [-> | ->]; reflexivity.
  - cbn [filter is_cat trans_features]. fold (trans_features name fs) (trans_features name (filter is_cat fs)).
    assert (IH' := IH (fun g c Hg Hi => Hc g c (or_intror Hg) Hi)).
    destruct (negb (String.eqb (fName (FCat f)) name)); [|apply IH'].
    cbn [map foreach trans_span]. destruct (cat_span F64 k f cases); cbn [bind]; auto.
Qed.

(** Exact arithmetic, categorical features: the product of the numbers of categories
    present (where there are any) over t^2. *)
Theorem C91_categorical_partial : forall fs ns k cases, cases <> [] ->
  Forall2 (fun f n => covers f cases /\ NCats (cMap f) <= k /\ distinct (cats_of f cases) n) fs ns ->
  TransDensity XR (map (cat_span XR k) fs) cases =
    Ok (Some (Rprod (map (fun n => if n =? 0 then 1 else INR n)%R ns) / (INR (length cases) * INR (length cases)))%R).
Proof.
  intros fs ns k cases Hne H.
  assert (Ht : (INR (length cases) <> 0)%R) by (apply not_0_INR; destruct cases; [congruence|discriminate]).
  unfold TransDensity. cbn [ndiv nofZ XR]. unfold num. cbn [nofZ XR].
  rewrite mult_IZR, <- !INR_IZR_INZ, xdiv_some by (apply Rmult_integral_contrapositive; auto).
  replace (Rprod (map (fun n => if n =? 0 then 1 else INR n)%R ns) / (INR (length cases) * INR (length cases)))%R
    with (1 / (INR (length cases) * INR (length cases)) * Rprod (map (fun n => if n =? 0 then 1 else INR n)%R ns))%R by (field; auto).
  generalize (1 / (INR (length cases) * INR (length cases)))%R as e. clear Ht Hne.
  induction H as [|f n fs ns (H1 & H2 & H3) H IH]; intros e; cbn [map foreach Rprod].
  - f_equal. f_equal. lra.
  - destruct (span_distinct f k cases H2 H1) as (n' & E & D').
    assert (n' = n).
    { destruct H3 as (D & N1 & I1 & <-), D' as (D2 & N2 & I2 & <-). apply Nat.le_antisymm; apply NoDup_incl_length; auto; intros x Hx.
      - apply I1, I2, Hx. - apply I2, I1, Hx. }
    subst n'. unfold cat_span at 1. rewrite E. cbn [bind nofZ XR nltb xcmp nmul lift2]. rewrite <- INR_IZR_INZ.
    destruct (n =? 0) eqn:E0.
    + apply Nat.eqb_eq in E0. subst n. cbn [INR]. replace (Rltb 0 0) with false by (symmetry; apply Rltb_false; lra).
      etransitivity; [apply IH|]. f_equal. f_equal. lra.
    + apply Nat.eqb_neq in E0. replace (Rltb 0 (INR n)) with true by (symmetry; apply Rltb_true, lt_0_INR; lia).
      etransitivity; [apply IH|]. f_equal. f_equal. lra.
Qed.

(** The number separates the two groups, and the density term does not see it. *)
Example ex_trans_blind :
  trans_density "C:t"%string [FNum ex_num; FCat ex_cat] (seq 0 3) = trans_density "C:t"%string [FCat ex_cat] (seq 0 3)
  /\ trans_density "C:t"%string [FNum ex_num; FCat ex_cat] (seq 0 3) = Ok (fdiv f1 (f_of_Z 9))
  /\ trans_density "C:t"%string [FNum ex_num; FCat ex_cat] (seq 2 3) = Ok (fmul (fdiv f1 (f_of_Z 9)) f2).
Proof. vm_compute. auto. Qed.

Print Assumptions C90_never_splits_refuted.
Print Assumptions C90_infinite_density_refuted.
Print Assumptions C90_one_leaf_refuted.
Print Assumptions C90_categorical_partial.
Print Assumptions C91_numbers_ignored_refuted.
Print Assumptions C91_categorical_partial.
