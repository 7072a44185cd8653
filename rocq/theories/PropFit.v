(** C137: gradient boosting and the fit of the training cases. *)
From Verif Require Import Go GoLemmas F64 Exact ModelFeature ModelSplit ModelSample SplitSpec ModelTree TreeSpec TreeProofs ModelBallot ModelSearch SearchSpec
  GrowSpec ModelTargets ModelGrow SplitterProofs Dependable GrownSpec GrowProofs PropGrow ModelImpurity ImpuritySpec ImpurityProofs PropImpurity
  PropImpurity3 PropTargets2 ModelBoost BoostProofs PropBoost ModelForest FitSpec.
From Verif Require PropFeatureSearch PropRows PropGrow2.
From Coq Require Import Arith.Cantor.
Local Open Scope string_scope.
Local Open Scope nat_scope.
Local Open Scope list_scope.

(** ** Sums over the cases, leaf by leaf *)
Lemma Rsum_filter {B} (f : B -> R) (P : B -> bool) l :
  Rsum (map f l) = (Rsum (map f (filter P l)) + Rsum (map f (filter (fun x => negb (P x)) l)))%R.
Proof. induction l as [|x l IH]; cbn; [lra|]. destruct (P x); cbn; rewrite IH; lra. Qed.
Lemma Rsum_ext {B} (f g : B -> R) l : (forall x, In x l -> f x = g x) -> Rsum (map f l) = Rsum (map g l).
Proof. intros H. f_equal. apply map_ext_in. exact H. Qed.
Lemma Rsum_plus {B} (f g : B -> R) l : Rsum (map (fun x => f x + g x)%R l) = (Rsum (map f l) + Rsum (map g l))%R.
Proof. induction l as [|x l IH]; cbn; lra. Qed.
Lemma Rsum_scale {B} (a : R) (f : B -> R) l : Rsum (map (fun x => a * f x)%R l) = (a * Rsum (map f l))%R.
Proof. induction l as [|x l IH]; cbn; lra. Qed.
Lemma Rsum_const {B} (a : R) (l : list B) : Rsum (map (fun _ => a) l) = (INR (length l) * a)%R.
Proof. induction l as [|x l IH]; [cbn; lra|]. cbn [map Rsum length]. rewrite IH, S_INR. lra. Qed.
Lemma Rsum_nonneg {B} (f : B -> R) l : (forall x, In x l -> 0 <= f x)%R -> (0 <= Rsum (map f l))%R.
Proof. induction l as [|x l IH]; cbn; intros H; [lra|]. pose proof (H x (or_introl eq_refl)). specialize (IH (fun y Hy => H y (or_intror Hy))). lra. Qed.
Lemma Rsum_pos {B} (f : B -> R) l y : (forall x, In x l -> 0 <= f x)%R -> In y l -> (0 < f y)%R -> (0 < Rsum (map f l))%R.
Proof.
  induction l as [|x l IH]; intros H Hy Hp; [destruct Hy|]. cbn. pose proof (H x (or_introl eq_refl)) as H0. destruct Hy as [->|Hy].
  - pose proof (Rsum_nonneg f l (fun y Hy => H y (or_intror Hy))). lra.
  - specialize (IH (fun z Hz => H z (or_intror Hz)) Hy Hp). lra.
Qed.

Lemma filter_shorter {B} (P : B -> bool) l : length (filter P l) <= length l.
Proof. induction l as [|x l IH]; cbn; [lia|]. destruct (P x); cbn; lia. Qed.

(** Equal sums over every group, equal sums. *)
Lemma grouped (key : nat -> option path) (f g : nat -> R) : forall k ds, length ds <= k ->
  (forall q, let D := filter (fun d => match key d with Some q' => if path_dec q' q then true else false | None => false end) ds in
     Rsum (map f D) = Rsum (map g D)) ->
  (forall d, In d ds -> key d = None -> f d = g d) -> Rsum (map f ds) = Rsum (map g ds).
Proof.
  induction k as [|k IH]; intros ds Hk Hq Hn.
  - destruct ds; [reflexivity|cbn in Hk; lia].
  - destruct ds as [|d ds]; [reflexivity|]. destruct (key d) as [q|] eqn:Ed.
    + set (P := fun d => match key d with Some q' => if path_dec q' q then true else false | None => false end).
      rewrite (Rsum_filter f P), (Rsum_filter g P). f_equal; [apply Hq|]. apply IH.
      * cbn [filter]. unfold P at 1. rewrite Ed. destruct (path_dec q q); [|congruence]. cbn [negb].
        etransitivity; [apply filter_shorter|]. cbn in Hk. lia.
      * intros q' D. unfold D. clear D. destruct (path_dec q' q) as [->|N].
        -- replace (filter _ _) with (@nil nat); [reflexivity|]. symmetry.
           generalize (d :: ds). intros l. induction l as [|x l IHl]; [reflexivity|]. cbn [filter]. destruct (P x) eqn:Px; cbn [negb]; [exact IHl|].
           cbn [filter]. fold (P x). rewrite Px. exact IHl.
        -- replace (filter _ (filter _ (d :: ds))) with (filter (fun d => match key d with Some q0 => if path_dec q0 q' then true else false | None => false end) (d :: ds)).
           ++ apply Hq.
           ++ generalize (d :: ds). intros l. induction l as [|x l IHl]; [reflexivity|]. cbn [filter]. destruct (P x) eqn:Px; cbn [negb].
              ** unfold P in Px. destruct (key x) as [q0|]; [|discriminate]. destruct (path_dec q0 q) as [->|]; [|discriminate].
                 destruct (path_dec q q'); [congruence|exact IHl].
              ** cbn [filter]. destruct (match key x with Some q0 => if path_dec q0 q' then true else false | None => false end); [f_equal|]; exact IHl.
      * intros x Hx. apply filter_In in Hx as [Hx _]. auto.
    + cbn [map Rsum]. f_equal; [apply Hn; [left; reflexivity|exact Ed]|]. apply IH; [cbn in Hk; lia| |intros; apply Hn; [right|]; auto].
      intros q D. specialize (Hq q). cbn [filter] in Hq. rewrite Ed in Hq. exact Hq.
Qed.

(** ** The step towards the averages *)
Lemma mates_same fm t n d q : In d (filter (ends_at fm t q) (seq 0 n)) -> leaf_mates fm t n d = filter (ends_at fm t q) (seq 0 n).
Proof.
  intros H. apply filter_In in H as [_ H]. unfold ends_at in H. unfold leaf_mates. destruct (follow fm t d) as [q'|]; [|discriminate].
  destruct (path_dec q' q) as [->|]; [reflexivity|discriminate].
Qed.
Lemma mean_times vs : (INR (length vs) * mean vs = Rsum vs)%R.
Proof.
  unfold mean. destruct vs as [|v vs]; [cbn; lra|]. field. apply not_0_INR. cbn. lia.
Qed.

(** In every leaf, the sum of the residuals shrinks by the factor [1 - l]. *)
Lemma leaf_sum l fm t rs q : let D := filter (ends_at fm t q) (seq 0 (length rs)) in
  Rsum (values (step_down l fm t rs) D) = ((1 - l) * Rsum (values rs D))%R.
Proof.
  intros D. assert (Hl : forall d, In d D -> d < length rs) by (intros d H; apply filter_In in H as [H _]; apply in_seq in H; lia).
  assert (Hv : forall d, In d D -> nth d (step_down l fm t rs) 0%R = (nth d rs 0 + - l * mean (values rs D))%R).
  { intros d Hd. unfold step_down. rewrite (nth_error_nth _ _ _ (nth_map_seq _ _ _ (Hl d Hd))). unfold leaf_mean.
    rewrite (mates_same _ _ _ _ q Hd). fold D. lra. }
  unfold values. rewrite (Rsum_ext _ _ _ Hv), Rsum_plus, Rsum_const.
  assert (Hm := mean_times (values rs D)). unfold values at 1 in Hm. rewrite map_length in Hm. unfold values in Hm |- *.
  transitivity (Rsum (map (fun i => nth i rs 0%R) D) + - l * (INR (length D) * mean (map (fun i => nth i rs 0%R) D)))%R; [ring|].
  rewrite Hm. ring.
Qed.

Lemma mates_incl fm t n d c : In c (leaf_mates fm t n d) -> c < n.
Proof. unfold leaf_mates. destruct (follow fm t d); [|intros []]. intros H. apply filter_In in H as [H _]. apply in_seq in H. lia. Qed.
Lemma step_nth l fm t rs d : d < length rs -> nth d (step_down l fm t rs) 0%R = (nth d rs 0 - l * leaf_mean fm t rs d)%R.
Proof. intros H. unfold step_down. apply nth_error_nth, (nth_map_seq (fun d => nth d rs 0 - l * leaf_mean fm t rs d)%R), H. Qed.
Lemma step_length l fm t rs : length (step_down l fm t rs) = length rs.
Proof. unfold step_down. rewrite map_length, seq_length. reflexivity. Qed.
Lemma list_values (rs : list R) : map (fun d => nth d rs 0%R) (seq 0 (length rs)) = rs.
Proof.
  apply nth_ext with (d := 0%R) (d' := 0%R); [rewrite map_length, seq_length; reflexivity|]. intros d H. rewrite map_length, seq_length in H.
  apply nth_error_nth, (nth_map_seq (fun d => nth d rs 0%R)), H.
Qed.

(** The training error, exactly. *)
Theorem C137_error_account : forall l fm t rs,
  squares (step_down l fm t rs) =
  (squares rs - l * (2 - l) * Rsum (map (fun d => leaf_mean fm t rs d * leaf_mean fm t rs d) (seq 0 (length rs))))%R.
Proof.
  intros l fm t rs. set (m := leaf_mean fm t rs). set (D := seq 0 (length rs)).
  assert (Hc : Rsum (map (fun d => nth d rs 0 * m d)%R D) = Rsum (map (fun d => m d * m d)%R D)).
  { apply (grouped (follow fm t)) with (k := length D); [auto| |].
    - intros q E. set (E0 := filter (ends_at fm t q) (seq 0 (length rs))). change E with E0.
      assert (Hm : forall d, In d E0 -> m d = mean (values rs E0)). { intros d Hd. unfold m, leaf_mean. rewrite (mates_same _ _ _ _ q Hd). reflexivity. }
      rewrite (Rsum_ext _ (fun d => mean (values rs E0) * nth d rs 0)%R); [|intros d Hd; rewrite (Hm d Hd); ring].
      rewrite (Rsum_ext (fun d => m d * m d)%R (fun d => mean (values rs E0) * mean (values rs E0))%R); [|intros d Hd; rewrite (Hm d Hd); reflexivity].
      rewrite Rsum_scale, Rsum_const. change (map (fun x => nth x rs 0%R) E0) with (values rs E0).
      rewrite <- (mean_times (values rs E0)) at 1. replace (length (values rs E0)) with (length E0) by (unfold values; rewrite map_length; reflexivity). ring.
    - intros d _ Hd. unfold m, leaf_mean, leaf_mates. rewrite Hd. unfold mean. cbn. unfold Rdiv. ring. }
  unfold squares at 1, step_down. fold m D. rewrite map_map.
  rewrite (Rsum_ext _ (fun d => (nth d rs 0 * nth d rs 0) + ((- (2 * l)) * (nth d rs 0 * m d) + (l * l) * (m d * m d)))%R) by (intros; ring).
  rewrite !Rsum_plus, !Rsum_scale, Hc.
  assert (Es : squares rs = Rsum (map (fun d => nth d rs 0 * nth d rs 0)%R D)).
  { unfold squares. transitivity (Rsum (map (fun r => r * r)%R (map (fun d => nth d rs 0%R) D))); [unfold D; rewrite list_values; reflexivity|]. rewrite map_map. reflexivity. }
  rewrite Es. ring.
Qed.
Print Assumptions C137_error_account.

Lemma firstn_S_snoc {B} (l : list B) k x : nth_error l k = Some x -> firstn (S k) l = firstn k l ++ [x].
Proof. revert l. induction k as [|k IH]; intros [|y l] H; try discriminate; cbn in *; [congruence|]. f_equal. apply IH, H. Qed.

(** ** An even sample gives every leaf the average of all its training cases *)
Lemma even_copies n cs : evenly n cs -> exists k, 0 < k /\ Permutation cs (concat (repeat (seq 0 n) k)).
Proof.
  intros (k & Hk & H). exists k. split; [exact Hk|]. apply (Permutation_count_occ Nat.eq_dec). intros c. rewrite H. clear.
  induction k as [|k IH]; [destruct (c <? n); reflexivity|]. cbn [repeat concat]. rewrite count_occ_app, <- IH.
  destruct (c <? n) eqn:E.
  - apply Nat.ltb_lt in E. rewrite (proj1 (NoDup_count_occ' Nat.eq_dec _) (seq_NoDup n 0) c); [reflexivity|apply in_seq; lia].
  - apply Nat.ltb_ge in E. rewrite (proj1 (count_occ_not_In Nat.eq_dec _ _)); [reflexivity|]. rewrite in_seq. lia.
Qed.
Lemma even_in n cs : evenly n cs -> forall c, In c cs <-> c < n.
Proof.
  intros (k & Hk & H) c. rewrite (count_occ_In Nat.eq_dec), H. destruct (c <? n) eqn:E.
  - apply Nat.ltb_lt in E. lia.
  - apply Nat.ltb_ge in E. lia.
Qed.
Lemma even_mean n cs P xs ds : evenly n cs -> Permutation (filter P cs) ds -> mean (values xs ds) = mean (values xs (filter P (seq 0 n))).
Proof.
  intros He Hp. destruct (even_copies n cs He) as (k & Hk & Hc).
  assert (Hs : Rsum (values xs ds) = (INR k * Rsum (values xs (filter P (seq 0 n))))%R /\ length ds = k * length (filter P (seq 0 n))).
  { assert (Hd : Permutation ds (concat (repeat (filter P (seq 0 n)) k))).
    { rewrite <- Hp. rewrite (Permutation_filter P Hc). clear. induction k as [|k IH]; [constructor|]. cbn [repeat concat]. rewrite filter_app. apply Permutation_app_head, IH. }
    split.
    - unfold values. rewrite (Rsum_perm _ _ (Permutation_map _ Hd)). clear. induction k as [|k IH]; [cbn; ring|]. cbn [repeat concat].
      rewrite map_app, Rsum_app, IH, S_INR. ring.
    - rewrite (Permutation_length Hd). clear. induction k as [|k IH]; [reflexivity|]. cbn [repeat concat]. rewrite app_length, IH. cbn. lia. }
  destruct Hs as [H1 H2]. unfold mean. rewrite H1. unfold values at 2 4. rewrite !map_length, H2, mult_INR.
  assert (Hk' : INR k <> 0%R) by (apply not_0_INR; lia).
  destruct (filter P (seq 0 n)) as [|c l] eqn:El; [cbn; unfold Rdiv; ring|]. field. split; [apply not_0_INR; discriminate|exact Hk'].
Qed.

(** ** Growing on the residuals *)

(** The numbers [num] (the rational ones, for instance) can be calculated with and survive
    being written as the prediction of a leaf and read back. *)
Definition readable_numbers (PF : string -> option XR) (fmtF : XR -> string) (num : R -> Prop) : Prop :=
  num 0%R /\ (forall a b, num a -> num b -> num (a + b)%R /\ num (a - b)%R /\ num (a * b)%R) /\
  (forall a k, num a -> num (a / INR (S k))%R) /\ forall x, num x -> PF (fmtF (Some x)) = Some (Some x).

Section Training.
  Variable PF : string -> option XR.
  Variable fmtF : XR -> string.
  Variable fm : fmatrix.
  Variable p : params.
  Variable n : nat.
  Local Notation gst := (gstate XR (sums XR) (numcol XR)).
  Local Notation Kok := (fun k : numcol XR => length (ncData XR k) = n /\ length (ncMissing XR k) = n).
  Local Notation growable_on gb := (growable XR (sums XR) (boost_target XR (ncData XR (gbF XR gb))) (gbFindPredicted XR fmtF gb) (numcol XR)
    (gbCopyInTo XR gb) (ncShuffleCases XR) (fun k => num_target XR (ncData XR k)) p (fun c => c < n) (fun _ => True) Kok).

  (** Trees can be grown on the cases [cs] with the scratch space [g]: usable candidates,
      enough room, a contrast (for -vet) as long as the target. *)
  Record trainable (cs : list nat) (g : gst) : Prop := {
    tr_leaf : 1 <= pLeaf p;
    tr_try : pTry p <= length (gCans g);
    tr_data : forall i, In i (gCans g) -> exists f, nth_error (pData p) i = Some f /\ searchable f cs /\ faithful f cs /\
      (pEvalOob p = true -> searchable f (gOob g));
    tr_room : roomy (gAl g) (length cs);
    tr_imp : forall l, gImp g = Some l -> Forall (fun i => i < length l) (gCans g);
    tr_depth : forall l, gDepth g = Some l -> Forall (fun i => i < length l) (gCans g);
    tr_vet : pVet p = true -> Kok (gK g);
    tr_oob : pEvalOob p = true -> Forall (fun c => c < n) (gOob g) /\ roomy (gAl g) (length (gOob g))
  }.

  Lemma boost_dependable data : dependable (boost_target XR data) (fun c => c < length data) (fun _ => True).
  Proof.
    destruct (grad_dependable XR data) as [H1 H2 H3]. constructor; cbn [boost_target tImp tSplit tUpdate].
    - intros l s Hl _. destruct (H1 l (sLs XR s, sRs XR s) Hl I) as (v & s' & -> & _). cbn [bind]. eauto.
    - intros l r m s Hl Hr Hm _. destruct (H2 l r m (sLs XR s, sRs XR s) Hl Hr Hm I) as (v & [a b] & -> & _). cbn [bind]. eauto.
    - intros l r m mv s Hl Hr Hm Hv _. destruct (H3 l r m mv (sLs XR s, sRs XR s) Hl Hr Hm Hv I) as (v & [a b] & -> & _). cbn [bind]. eauto.
  Qed.
  Lemma mean_total (data : list XR) ms cs : length data = n -> length ms = n -> Forall (fun c => c < n) cs -> exists m, NumMean XR data ms cs = Ok m.
  Proof.
    intros H1 H2 H. unfold NumMean.
    match goal with |- context [foreach cs ?bd ?i] => assert (G : forall s, exists r, foreach cs bd s = Ok r) end.
    { induction cs as [|c cs IH]; intros [a b]; [cbn; eauto|]. inversion H; subst. cbn [foreach].
      destruct (@get_ok bool ms c) as (miss & -> & _); [lia|]. cbn [bind]. destruct miss; [apply IH; auto|].
      destruct (@get_ok XR data c) as (x & -> & _); [lia|]. cbn [bind]. apply IH; auto. }
    destruct (G (nofZ XR 0, 0)) as ([m k] & E). rewrite E. cbn [bind]. eauto.
  Qed.
  Lemma shuffle_total rnd cs (ms : list bool) (d : list XR) : length d = n -> length ms = n -> Forall (fun c => c < n) cs ->
    exists ms' d', shuffleCases rnd cs ms d = Ok (ms', d') /\ length d' = n /\ length ms' = n.
  Proof.
    intros Hd Hm Hc. unfold shuffleCases. rewrite Forall_forall in Hc.
    destruct (@for_up_total _ (fun (_ : nat) '((ms', d') : list bool * list XR) => length d' = n /\ length ms' = n)
      (fun j st => let* targeti := get cs j in let* r := intn (rnd j) (length cs - j) in let* sourcei := get cs (j + r) in swap2 targeti sourcei st)
      (length cs) 0 (ms, d)) as ([ms' d'] & E & H); [| |exists ms', d'; split; [exact E|exact H]].
    - intros j [ms1 d1] Hj [L1 L2]. destruct (@get_ok nat cs j) as (a & Ea & Na); [lia|]. rewrite Ea. cbn [bind]. unfold intn.
      destruct (length cs - j =? 0) eqn:E0; [apply Nat.eqb_eq in E0; lia|]. cbn [bind].
      pose proof (Nat.mod_upper_bound (rnd j) (length cs - j)) as Hb.
      destruct (@get_ok nat cs (j + rnd j mod (length cs - j))) as (b & Eb & Nb); [lia|]. rewrite Eb. cbn [bind].
      assert (Ha := Hc a (nth_error_In _ _ Na)). assert (Hb' := Hc b (nth_error_In _ _ Nb)). cbn beta in Ha, Hb'.
      unfold swap2. destruct (@swapl_ok bool ms1 a b) as (m2 & E2); [lia|lia|]. rewrite E2. cbn [bind].
      destruct (@swapl_ok XR d1 a b) as (d2 & E3); [lia|lia|]. rewrite E3. cbn [bind].
      exists (m2, d2). split; [reflexivity|]. rewrite (swapl_length _ _ _ E2), (swapl_length _ _ _ E3). auto.
    - split; [exact Hd|exact Hm].
  Qed.

  Lemma trainable_growable gb cs g : full XR n (gbF XR gb) -> Forall (fun c => c < n) cs -> trainable cs g -> growable_on gb cs g.
  Proof.
    intros (F1 & F2 & _) Hc [H1 H2 H3 H4 H5 H6 H7 H8]. constructor; auto.
    - rewrite <- F1. apply boost_dependable.
    - apply PropFeatureSearch.sane_XR.
    - intros cs' H. unfold gbFindPredicted. destruct (mean_total _ _ _ F1 F2 H) as (m & ->). cbn [bind]. eauto.
    - intros V. split; [|auto]. constructor.
      + intros k [K1 K2]. unfold gbCopyInTo. cbn [ncData ncMissing]. rewrite !PropRows.copyinto_full by congruence. auto.
      + intros dr cs' k H [K1 K2]. unfold ncShuffleCases. destruct (shuffle_total dr cs' (ncMissing XR k) (ncData XR k) K1 K2 H) as (m' & d' & -> & L1 & L2).
        cbn [bind]. eexists. split; [reflexivity|]. cbn. auto.
      + intros k [K1 _]. rewrite <- K1. apply num_dependable.
  Qed.
  Lemma growable_trainable gb cs g : growable_on gb cs g -> trainable cs g.
  Proof. intros [H1 H2 H3 H4 H5 H6 H7 H8 H9 H10 H11 H12 H13]. constructor; auto. intros V. apply (H12 V). Qed.

  Lemma follow_terminal : forall t c q, well_formed t -> follow fm t c = Some q -> exists d l r m, at_path t q = Node d l r m /\ terminal d = true.
  Proof.
    induction t as [|d l IHl r IHr m IHm]; intros c q W F; [discriminate|]. cbn [follow well_formed] in F, W. unfold turn in F.
    pose proof (nd_terminal_test fm d) as Ht. destruct (test_of fm d) as [[f goes]|].
    - destruct W as (_ & Wl & Wr & Wm). destruct (fmissing f c); [|destruct (goes c)].
      + destruct (follow fm m c) as [q'|] eqn:E; [|discriminate]. cbn in F. injection F as <-. cbn [at_path]. eapply IHm; eauto.
      + destruct (follow fm l c) as [q'|] eqn:E; [|discriminate]. cbn in F. injection F as <-. cbn [at_path]. eapply IHl; eauto.
      + destruct (follow fm r c) as [q'|] eqn:E; [|discriminate]. cbn in F. injection F as <-. cbn [at_path]. eapply IHr; eauto.
    - injection F as <-. cbn. eauto 8.
  Qed.

  Lemma all_known ms cs : length ms = n -> (forall d, d < n -> nth d ms false = false) -> Forall (fun c => c < n) cs -> PropImpurity3.known ms cs = cs.
  Proof.
    intros L H Hc. unfold PropImpurity3.known. induction cs as [|c cs IH]; [reflexivity|]. inversion Hc; subst. cbn [filter].
    rewrite (nth_indep ms true false) by lia. rewrite H by assumption. cbn [negb]. f_equal. auto.
  Qed.

  Variable num : R -> Prop.
  Hypothesis Hnum : readable_numbers PF fmtF num.
  Lemma num_mean rs cs : Forall num rs -> num (mean (values rs cs)).
  Proof.
    intros H. destruct Hnum as (N0 & N1 & N2 & _). unfold mean.
    destruct cs as [|c0 cs0]; [cbn; unfold Rdiv; rewrite Rmult_0_l; exact N0|]. apply N2. change (num (Rsum (values rs (c0 :: cs0)))). generalize (c0 :: cs0) as cs.
    intros cs. unfold values. induction cs as [|c cs IH]; [exact N0|]. cbn [map Rsum]. apply N1; [|exact IH].
    destruct (Nat.lt_ge_cases c (length rs)) as [Hc|Hc]; [rewrite Forall_forall in H; apply H, nth_In, Hc|rewrite nth_overflow by exact Hc; exact N0].
  Qed.
  Lemma num_step l t rs : num l -> Forall num rs -> Forall num (step_down l fm t rs).
  Proof.
    intros Hl H. unfold step_down. apply Forall_forall. intros x Hx. apply in_map_iff in Hx as (d & <- & Hd). apply in_seq in Hd.
    destruct Hnum as (_ & N1 & _ & _). apply N1; [rewrite Forall_forall in H; apply H, nth_In; lia|]. apply N1; [exact Hl|]. apply num_mean, H.
  Qed.
  Hypothesis Hfm : fmData fm = pData p.
  Hypothesis Hlen : exists f, nth_error (pData p) 0 = Some f /\ fLength f = n.
  (** every column has all the cases *)

  (** One round on an even sample: the residuals take a step towards the averages of the leaves. *)
  Lemma one_boost rnd cs gb g (l : R) rs : evenly n cs -> trainable cs g -> full XR n (gbF XR gb) ->
    gbLearn XR gb = Some l -> ncData XR (gbF XR gb) = numeric rs -> Forall num rs ->
    exists t gb' g', boost_round XR PF fmtF fm p rnd cs gb g = Ok (t, Some l, gb', g') /\
      ncData XR (gbF XR gb') = numeric (step_down l fm t rs) /\
      full XR n (gbF XR gb') /\ gbLearn XR gb' = Some l /\ gbMean XR gb' = gbMean XR gb /\
      (forall cs', trainable cs' g -> Forall (fun c => c < n) cs' -> trainable cs' g').
  Proof.
    intros He Ht HF Hl Hd Hn0. pose proof (even_in n cs He) as Hin.
    assert (Hc : Forall (fun c => c < n) cs) by (apply Forall_forall; intros c H; apply Hin, H).
    pose proof (trainable_growable gb cs g HF Hc Ht) as Hg.
    destruct (growth _ _ _ _ rnd _ _ _ _ _ _ _ _ _ _ Hg) as (t & g' & us & En & G & _ & _ & Hk).
    pose proof (En (S (length cs)) (Nat.lt_succ_diag_r _)) as E0.
    destruct (C42_leaves_predict_their_cases _ _ _ _ rnd _ _ _ _ _ _ _ _ _ _ fm Hg Hfm _ t g' (Nat.lt_succ_diag_r _) E0) as (N1 & N2 & N3 & N4 & _).
    assert (Hu : usable fm (seq 0 n) t).
    { eapply grown_usable; [exact Hfm| |exact G]. intros i f Hi Ei. destruct (gr_data _ _ _ _ _ _ _ _ _ _ _ _ _ _ Hg i Hi) as (f' & E1 & (S1 & S2 & _) & _).
      assert (f' = f) by congruence. subst f'. split; [exact S1|]. rewrite Forall_forall in S2 |- *. intros c H. apply S2, Hin. apply in_seq in H. lia. }
    assert (Hr : round_ok n (fm, t)). { destruct Hlen as (f & E & L). exists f. rewrite Hfm. auto. }
    assert (Hrs : length rs = n). { destruct HF as (F1 & _). rewrite Hd in F1. unfold numeric in F1. rewrite map_length in F1. exact F1. }
    destruct (one_round XR PF (gradboost XR) XR
        (fun c x g => let* m := get (ncMissing XR (gbF XR g)) c in
          if m then Ok g
          else
            let* y := get (ncData XR (gbF XR g)) c in
            let* f := ncPut XR c (nsub XR y (nmul XR (gbLearn XR g) x)) (gbF XR g) in
            Ok (mkGB XR f (gbLearn XR g) (gbMean XR g))) (gbUpdate XR) (fun _ _ _ => eq_refl) n
        (fun g => full XR n (gbF XR g) /\ gbLearn XR g = Some l /\ gbMean XR g = gbMean XR gb)
        (fun g d => nth d (ncData XR (gbF XR g)) (nofZ XR 0)) (fun x v => nsub XR v (nmul XR (Some l : XR) x))
        (fun g c x => gb_step XR (Some l) (gbMean XR gb) n g c x) fm t gb Hr) as (arr & leaves & preds & gb' & Ep & Eo & (G1 & G2 & G3) & V1); [auto|].
    exists t, gb', g'. split; [|split; [|split; [exact G1|split; [exact G2|split; [exact G3|]]]]].
    - unfold boost_round. rewrite E0. cbn [bind]. rewrite Ep. cbn [bind]. unfold gbBoost. rewrite Eo. cbn [bind]. rewrite G2. reflexivity.
    - destruct G1 as (L1 & _ & _). apply nth_ext with (d := nofZ XR 0) (d' := nofZ XR 0).
      { unfold numeric. rewrite map_length, step_length. congruence. }
      intros d Hd'. rewrite L1 in Hd'. rewrite V1 by exact Hd'. rewrite Hd. change (nofZ XR 0) with (Some 0%R : XR).
      assert (Hn : forall ys, d < length ys -> nth d (numeric ys) (Some 0%R) = Some (nth d ys 0%R)).
      { intros ys H. unfold numeric. rewrite (nth_indep _ _ (Some 0%R)) by (rewrite map_length; exact H). apply map_nth. }
      rewrite !Hn by (rewrite ?step_length; lia). rewrite step_nth by lia. unfold leaf_words. cbn [flat_map]. rewrite app_nil_r.
      destruct (follow fm t d) as [q|] eqn:Eq; cbn [fold_left].
      + destruct (follow_terminal t d q N2 Eq) as (dd & tl & tr & tm & Ea & Te). rewrite Ea. cbn [node_pred].
        assert (Hdq : In d (filter (ends_at fm t q) cs)).
        { apply filter_In. split; [apply Hin; exact Hd'|]. unfold ends_at. rewrite Eq. destruct (path_dec q q); congruence. }
        destruct (N4 q dd tl tr tm Ea Te) as [(ds & Pd & Ed)|(_ & _ & Enil)]; [|rewrite Enil in Hdq; destruct Hdq].
        assert (Hds : Forall (fun c => c < n) ds).
        { eapply Permutation_Forall; [exact Pd|]. apply Forall_forall. intros c H. apply filter_In in H as [H _]. apply Hin, H. }
        assert (Kn : PropImpurity3.known (ncMissing XR (gbF XR gb)) ds = ds) by (destruct HF as (_ & F2 & F3); apply all_known; auto).
        unfold gbFindPredicted in Ed. rewrite Hd in Ed. rewrite num_mean_value in Ed.
        2:{ unfold within. destruct HF as (_ & F2 & _). rewrite Hrs, F2. eapply Forall_impl; [|exact Hds]. auto. }
        unfold kvals in Ed. rewrite Kn in Ed. destruct (length ds =? 0) eqn:El.
        { apply Nat.eqb_eq in El. destruct ds; [|discriminate]. apply Permutation_sym, Permutation_nil in Pd. rewrite Pd in Hdq. destruct Hdq. }
        cbn [bind] in Ed. injection Ed as <-. unfold parse0. destruct Hnum as (_ & _ & _ & R3). rewrite R3 by (apply num_mean; exact Hn0). cbn [nmul nsub XR lift2]. do 3 f_equal.
        rewrite (even_mean n cs _ rs ds He Pd). unfold leaf_mean, leaf_mates. rewrite Eq, Hrs. reflexivity.
      + unfold leaf_mean, leaf_mates. rewrite Eq. unfold mean. cbn. f_equal. unfold Rdiv. ring.
    - intros cs' T' C'. apply (growable_trainable gb). apply Hk. apply trainable_growable; auto.
  Qed.

  (** The residuals after the first [k] trees. *)
  Definition residuals (l : R) (rs : list R) (ts : list (node * XR)) (k : nat) : list R :=
    fold_left (fun rs t => step_down l fm t rs) (map fst (firstn k ts)) rs.

  (** Whole forests: any number of trees, grown one after the other on even samples. *)
  Lemma forest_residuals (l : R) sample rnd : forall nTrees lo gb g rs ts0,
    (forall i, lo <= i < lo + nTrees -> exists cs, sample i = Ok cs /\ evenly n cs /\ trainable cs g) ->
    full XR n (gbF XR gb) -> gbLearn XR gb = Some l -> ncData XR (gbF XR gb) = numeric rs -> num l -> Forall num rs ->
    exists ts gb' g', for_up nTrees lo (fun i '((ts, gb, g) : list (node * XR) * gradboost XR * gst) =>
        let* cases := sample i in
        let* (t, w, gb, g) := boost_round XR PF fmtF fm p (rnd i) cases gb g in
        Ok (ts ++ [(t, w)], gb, g)) (ts0, gb, g) = Ok (ts0 ++ ts, gb', g') /\
      length ts = nTrees /\ map snd ts = repeat (Some l : XR) nTrees /\ gbMean XR gb' = gbMean XR gb /\
      ncData XR (gbF XR gb') = numeric (residuals l rs ts nTrees).
  Proof.
    induction nTrees as [|k IH]; intros lo gb g rs ts0 Hs HF Hl Hd Nl Nr.
    - exists [], gb, g. cbn. rewrite app_nil_r. auto.
    - destruct (Hs lo) as (cs & Es & He & Ht); [lia|]. cbn [for_up]. rewrite Es. cbn [bind].
      destruct (one_boost (rnd lo) cs gb g l rs He Ht HF Hl Hd Nr) as (t & gb1 & g1 & E1 & D1 & F1 & L1 & M1 & T1). rewrite E1. cbn [bind].
      destruct (IH (S lo) gb1 g1 (step_down l fm t rs) (ts0 ++ [(t, Some l)])) as (ts & gb2 & g2 & E2 & N2 & W2 & M2 & D2); auto.
      2:{ apply num_step; assumption. }
      { intros i Hi. destruct (Hs i) as (cs' & Es' & He' & Ht'); [lia|]. exists cs'. split; [exact Es'|]. split; [exact He'|]. apply T1; [exact Ht'|].
        apply Forall_forall. intros c Hc. apply (even_in n cs' He'), Hc. }
      exists ((t, Some l) :: ts), gb2, g2. split; [etransitivity; [exact E2|rewrite <- app_assoc; reflexivity]|]. cbn [length map snd repeat]. split; [congruence|]. split; [f_equal; exact W2|].
      split; [congruence|]. rewrite D2. reflexivity.
  Qed.
End Training.

(** Boosting from the start: after any number of trees grown on even samples the residuals
    are those of the steps towards the averages of the leaves, starting from the deviations
    from the mean.  For learning rates from 0 to 2 no tree makes the training error larger,
    between 0 and 2 every tree with a leaf of average other than 0 makes it smaller. *)
Theorem C137_fit_never_worse : forall PF fmtF num fm p xs ms (l : R) sample rnd nTrees g,
  readable_numbers PF fmtF num -> num l -> Forall num xs ->
  let n := length xs in
  xs <> [] -> length ms = n -> fmData fm = pData p -> (exists f, nth_error (pData p) 0 = Some f /\ fLength f = n) ->
  (forall i, i < nTrees -> exists cs, sample i = Ok cs /\ evenly n cs /\ trainable p n cs g) ->
  exists gb ts gb' g', NewGradBoostTarget XR (mkNC XR (numeric xs) ms) (Some l) = Ok gb /\
    boosted_trees XR PF fmtF fm p sample rnd nTrees gb g = Ok (ts, gb', g') /\
    length ts = nTrees /\ map snd ts = repeat (Some l : XR) nTrees /\
    let rs := residuals fm l (map (fun x => x - mean xs)%R xs) ts in
    ncData XR (gbF XR gb') = numeric (rs nTrees) /\
    forall k, k < nTrees ->
      ((0 <= l <= 2)%R -> (squares (rs (S k)) <= squares (rs k))%R) /\
      forall t w, nth_error ts k = Some (t, w) -> (exists d, d < n /\ leaf_mean fm t (rs k) d <> 0%R) ->
        ((0 < l < 2)%R -> (squares (rs (S k)) < squares (rs k))%R) /\
        ((l < 0 \/ 2 < l)%R -> (squares (rs k) < squares (rs (S k)))%R).
Proof.
  intros PF fmtF num fm p xs ms l sample rnd nTrees g HPF Nl Nx n Hne Hms Hfm Hlen Hs.
  destruct (new_gradboost XR (mkNC XR (numeric xs) ms) (Some l)) as (gb & E & E1 & E2 & F & Hv).
  { cbn. unfold numeric. rewrite map_length. auto. }
  cbn [ncData] in F, Hv, E2. unfold numeric in F at 1. rewrite map_length in F. fold n in F.
  assert (Em : float_mean XR (numeric xs) = Some (mean xs)).
  { unfold float_mean, mean. unfold numeric. rewrite map_length.
    assert (G : forall ys s, fold_left (nadd XR) (map Some ys) (Some s) = Some (s + Rsum ys)%R).
    { induction ys as [|y ys IH]; intros s; cbn [map fold_left Rsum]; [f_equal; ring|]. cbn [nadd XR lift2]. rewrite IH. f_equal. ring. }
    change (nofZ XR 0) with (Some 0%R). rewrite G. rewrite Rplus_0_l. cbn [nofZ ndiv XR]. rewrite <- INR_IZR_INZ. apply xdiv_some.
    apply not_0_INR. destruct xs; [congruence|discriminate]. }
  set (rs0 := map (fun x => x - mean xs)%R xs).
  assert (Hd : ncData XR (gbF XR gb) = numeric rs0).
  { destruct F as (F1 & _). apply nth_ext with (d := nofZ XR 0) (d' := nofZ XR 0); [unfold numeric, rs0; rewrite !map_length; exact F1|].
    intros d H. rewrite F1 in H. rewrite Hv by (unfold numeric; rewrite map_length; exact H). rewrite Em. change (nofZ XR 0) with (Some 0%R : XR).
    unfold numeric, rs0. rewrite map_map. rewrite (nth_indep (map Some xs) _ (Some 0%R)) by (rewrite map_length; exact H). rewrite map_nth.
    rewrite (nth_indep (map (fun x => Some (x - mean xs)%R) xs) _ (Some (0 - mean xs)%R)) by (rewrite map_length; exact H).
    rewrite (map_nth (fun x => Some (x - mean xs)%R) xs 0%R d). reflexivity. }
  destruct (forest_residuals PF fmtF fm p n num HPF Hfm Hlen l sample rnd nTrees 0 gb g rs0 []) as (ts & gb' & g' & Ef & N & W & _ & D); auto.
  { intros i Hi. apply Hs. lia. }
  { unfold rs0. apply Forall_forall. intros r Hr. apply in_map_iff in Hr as (x & <- & Hx). destruct HPF as (N0 & N1 & N2 & _).
    assert (Ns : num (Rsum xs)). { clear - Nx N0 N1. induction Nx as [|x xs H _ IH]; [exact N0|]. cbn. apply N1; assumption. }
    rewrite Forall_forall in Nx. apply N1; [apply Nx, Hx|]. unfold mean. destruct xs; [congruence|]. apply N2, Ns. }
  exists gb, ts, gb', g'. split; [exact E|]. split; [exact Ef|]. split; [exact N|]. split; [exact W|]. intros rs. split; [exact D|].
  intros k Hk. destruct (nth_error ts k) as [[t w]|] eqn:Et.
  2:{ apply nth_error_None in Et. lia. }
  assert (Es : rs (S k) = step_down l fm t (rs k)).
  { unfold rs, residuals. rewrite (firstn_S_snoc ts k (t, w) Et), map_app, fold_left_app. reflexivity. }
  assert (Hlk : length (rs k) = n).
  { assert (G : forall us zs, length (fold_left (fun rs t => step_down l fm t rs) us zs) = length zs).
    { induction us as [|u us IH]; intros zs; cbn; [reflexivity|]. rewrite IH. apply step_length. }
    unfold rs, residuals. rewrite G. unfold rs0. apply map_length. }
  pose proof (C137_error_account l fm t (rs k)) as Ha. rewrite Es, Ha.
  set (S2 := Rsum (map (fun d => leaf_mean fm t (rs k) d * leaf_mean fm t (rs k) d)%R (seq 0 (length (rs k))))).
  assert (H0 : (0 <= S2)%R) by (apply Rsum_nonneg; intros; apply Rle_0_sqr).
  split; [intros Hr; assert (0 <= l * (2 - l) * S2)%R by (apply Rmult_le_pos; [apply Rmult_le_pos; lra|exact H0]); lra|]. intros t' w' Et' (d & Hdn & Hd0). injection Et' as <- <-.
  assert (Hp : (0 < S2)%R).
  { apply (Rsum_pos (fun d => leaf_mean fm t (rs k) d * leaf_mean fm t (rs k) d)%R _ d); [intros; apply Rle_0_sqr|apply in_seq; lia|].
    apply Rsqr_pos_lt in Hd0. exact Hd0. }
  split; intros Hr.
  - assert (0 < l * (2 - l) * S2)%R by (apply Rmult_lt_0_compat; [apply Rmult_lt_0_compat; lra|exact Hp]). lra.
  - assert (0 < - (l * (2 - l)))%R by (destruct Hr; nra).
    assert (0 < - (l * (2 - l)) * S2)%R by (apply Rmult_lt_0_compat; assumption). lra.
Qed.
Print Assumptions C137_fit_never_worse.

(** Without bagging (-nobag and no missing target value, see C74) a tree trains on every
    case once. *)
Lemma all_even n cs : Permutation (seq 0 n) cs -> evenly n cs.
Proof.
  intros H. exists 1. split; [lia|]. intros c. rewrite <- (proj1 (Permutation_count_occ Nat.eq_dec _ _) H c). destruct (c <? n) eqn:E.
  - apply Nat.ltb_lt in E. apply (proj1 (NoDup_count_occ' Nat.eq_dec _) (seq_NoDup n 0)). apply in_seq. lia.
  - apply Nat.ltb_ge in E. apply count_occ_not_In. rewrite in_seq. lia.
Qed.

(** ** GrowRandomForest samples with replacement, which can make the fit worse for any
    learning rate: two cases of values 0 and 2, a sample with the first case twice and a
    single leaf; the training error grows from 2 to 2 + 2 l^2. *)
Definition two_fm : fmatrix := mkFM [FNum (mkNum [f1; f2] [false; false] "N:a" false)] [("N:a", 0)] ["p"; "q"].
Definition two_p : params := mkP (fmData two_fm) 1 2 false false false false 0 false.
Theorem C137_bagging_refuted : forall PF fmtF (l : R) rnd,
  PF (fmtF (Some (-1)%R)) = Some (Some (-1)%R) ->
  exists draw gb tree gb', NewGradBoostTarget XR (mkNC XR (numeric [0; 2]%R) [false; false]) (Some l) = Ok gb /\
    ncData XR (gbF XR gb) = numeric [-1; 1]%R /\ squares [-1; 1]%R = 2%R /\
    GrowRandomForest XR PF fmtF two_fm two_p draw rnd 2 1 gb [0] (mkAl [f0; f0] [0; 0]%Z (mkSums XR (Some 0%R) (Some 0%R) (Some 0%R) (Some 0%R) (Some 0%R) (Some 0%R)) 0) None
      = Ok ([(tree, Some l)], Some 1%R, gb') /\
    ncData XR (gbF XR gb') = numeric [-1 + l; 1 + l]%R /\ squares [-1 + l; 1 + l]%R = (2 + 2 * (l * l))%R.
Proof.
  intros PF fmtF l rnd HPF. exists (fun _ _ => 0).
  exists (mkGB XR (mkNC XR (numeric [-1; 1]%R) [false; false]) (Some l) (Some 1%R)).
  exists (Node (mkNd CNil 0 (fmtF (Some (-1)%R)) None) Nil Nil Nil).
  exists (mkGB XR (mkNC XR (numeric [-1 + l; 1 + l]%R) [false; false]) (Some l) (Some 1%R)).
  split.
  { unfold NewGradBoostTarget, numeric. cbn -[xdiv]. rewrite xdiv_some by lra. cbn. do 3 f_equal; [f_equal|]; repeat (f_equal; try lra). }
  split; [reflexivity|]. split; [unfold squares; cbn; lra|]. split.
  { unfold GrowRandomForest, boosted_trees. cbn [for_up].
    assert (Em : gbFindPredicted XR fmtF (mkGB XR (mkNC XR (numeric [-1; 1]%R) [false; false]) (Some l) (Some 1%R)) [0; 0] = Ok (fmtF (Some (-1)%R))).
    { unfold gbFindPredicted. cbn [gbF ncData ncMissing]. rewrite num_mean_value by (repeat constructor). cbn. unfold mean. cbn. do 3 f_equal. lra. }
    set (gb := mkGB XR _ _ _) in *. set (g := mkG XR _ _ _ _ _ _ _ _).
    assert (Eb : boost_round XR PF fmtF two_fm two_p (rnd 0) [0; 0] gb g =
      Ok (Node (mkNd CNil 0 (fmtF (Some (-1)%R)) None) Nil Nil Nil, Some l,
          mkGB XR (mkNC XR (numeric [-1 + l; 1 + l]%R) [false; false]) (Some l) (Some 1%R), g)).
    { unfold boost_round, Grow. cbn [length grow_node newNode]. unfold grow_visit. cbn -[gbFindPredicted gbBoost gb g]. rewrite Em.
      cbn -[gbBoost gb g]. unfold gb, gbBoost. cbn -[parse0]. unfold parse0. rewrite HPF. cbn. repeat (f_equal; try lra). }
    cbn [get nth_error fmData two_fm bind]. change (SampleWithReplacment (fun _ => 0) 2 _) with (@Ok (list nat) [0; 0]). cbn [bind]. rewrite Eb. reflexivity. }
  split; [reflexivity|]. unfold squares. cbn. lra.
Qed.
Print Assumptions C137_bagging_refuted.

(** ** Cases that meet the hypotheses *)

(** Rational numbers, written as their place in a list of them all. *)
Definition rational (x : R) : Prop := exists (z : Z) (p : BinNums.positive), x = (IZR z / IZR (Zpos p))%R.
Definition fraction (k : nat) : R :=
  let (a, k) := Cantor.of_nat k in let (b, c) := Cantor.of_nat k in (IZR (Z.of_nat a - Z.of_nat b) / IZR (Zpos (Pos.of_succ_nat c)))%R.
Fixpoint tally (k : nat) : string := match k with 0 => EmptyString | S k => String Ascii.zero (tally k) end.
Definition place (x : R) : nat :=
  match ClassicalDedekindReals.sig_forall_dec (fun k => x <> fraction k)
          (fun k => match Req_EM_T x (fraction k) with Specif.left e => Specif.right (fun n => n e) | Specif.right e => Specif.left e end) with
  | Specif.inleft (exist _ k _) => k
  | Specif.inright _ => 0
  end.
Definition writeQ (x : XR) : string := match x with Some x => tally (place x) | None => EmptyString end.
Definition readQ (s : string) : option XR := Some (Some (fraction (String.length s))).

Lemma fraction_all x : rational x -> exists k, x = fraction k.
Proof.
  intros (z & p & ->). exists (Cantor.to_nat (Z.to_nat z, Cantor.to_nat (Z.to_nat (- z), Pos.to_nat p - 1))). unfold fraction.
  rewrite !Cantor.cancel_of_to. replace (Z.of_nat (Z.to_nat z) - Z.of_nat (Z.to_nat (- z)))%Z with z by lia.
  replace (Pos.of_succ_nat (Pos.to_nat p - 1)) with p by lia. reflexivity.
Qed.
Lemma place_right x : rational x -> fraction (place x) = x.
Proof.
  intros H. unfold place. destruct (ClassicalDedekindReals.sig_forall_dec _ _) as [[k Hk]|Hk].
  - destruct (Req_EM_T x (fraction k)) as [E|E]; [symmetry; exact E|contradiction].
  - destruct (fraction_all x H) as (k & E). destruct (Hk k E).
Qed.
Example C137_rational_example : readable_numbers readQ writeQ rational.
Proof.
  assert (P : forall p, IZR (Zpos p) <> 0%R) by (intros p; apply not_0_IZR; discriminate).
  split; [exists 0%Z, 1%positive; lra|]. split; [|split].
  - intros a b (z & p & ->) (y & q & ->). split; [|split].
    + exists (z * Zpos q + y * Zpos p)%Z, (p * q)%positive. rewrite Pos2Z.inj_mul, plus_IZR, !mult_IZR. field. auto.
    + exists (z * Zpos q - y * Zpos p)%Z, (p * q)%positive. rewrite Pos2Z.inj_mul, minus_IZR, !mult_IZR. field. auto.
    + exists (z * y)%Z, (p * q)%positive. rewrite Pos2Z.inj_mul, !mult_IZR. field. auto.
  - intros a k (z & p & ->). exists z, (p * Pos.of_succ_nat k)%positive. rewrite Pos2Z.inj_mul, mult_IZR, INR_IZR_INZ.
    replace (Z.of_nat (S k)) with (Zpos (Pos.of_succ_nat k)) by lia. field. auto.
  - intros x Hx. unfold readQ, writeQ. rewrite <- (place_right x Hx) at 2. do 3 f_equal. generalize (place x). clear.
    induction n as [|n IH]; cbn; congruence.
Qed.

(** Nine cases with one numerical column; every tree sees every case once, or twice. *)
Definition nine_fm : fmatrix := mkFM [FNum (PropSearch.plain PropGrow2.band)] [("", 0)] (repeat "" 9).
Definition nine_p (vet : bool) : params := mkP (fmData nine_fm) 1 1 false vet false false 0 false.
Definition nine_start (A : arith) : gstate A (sums A) (numcol A) :=
  let z := nofZ A 0 in
  mkG A (sums A) (numcol A) [0] [] (mkAl (repeat f0 18) (repeat 0%Z 18) (mkSums A z z z z z z) 0) (mkNC A (repeat z 9) (repeat false 9)) None None.
Example C137_trainable_example : forall vet,
  (exists f, nth_error (pData (nine_p vet)) 0 = Some f /\ fLength f = 9) /\ fmData nine_fm = pData (nine_p vet) /\
  Forall (fun cs => evenly 9 cs /\ trainable (nine_p vet) 9 cs (nine_start XR)) [seq 0 9; rev (seq 0 9) ++ seq 0 9].
Proof.
  intros vet. split; [eexists; split; reflexivity|]. split; [reflexivity|].
  assert (H : forall cs, Forall (fun c => c < 9) cs -> length cs <= 18 -> trainable (nine_p vet) 9 cs (nine_start XR)).
  { intros cs Hc Hl. constructor; try discriminate; auto.
    - intros i [<-|[]]. eexists. split; [reflexivity|]. split; [apply PropGrow2.plain_searchable; [reflexivity|exact Hc]|]. split; [|discriminate].
      apply PropGrow2.plain_faithful; [reflexivity|reflexivity|reflexivity|exact Hc].
    - split; cbn; lia. }
  assert (S9 : Forall (fun c => c < 9) (seq 0 9)) by (apply Forall_forall; intros c Hc; apply in_seq in Hc; lia).
  constructor; [|constructor; [|constructor]]; split.
  - apply all_even. reflexivity.
  - apply H; [exact S9|cbn; lia].
  - exists 2. split; [lia|]. intros c. do 9 (destruct c as [|c]; [reflexivity|]). reflexivity.
  - apply H; [|cbn; lia]. apply Forall_app. split; [apply Forall_rev; exact S9|exact S9].
Qed.

(** Two rounds in float64 with learning rate 1/2, targets 4 (five times) and -5 (four
    times): every tree separates the two, a quarter of the deviation is left. *)
Definition half64 : f64 := fdiv f1 f2.
Definition few : list (string * f64) := [("4", f_of_Z 4); ("-5", f_of_Z (-5)); ("2", f2); ("-2.5", fdiv (f_of_Z (-5)) f2)].
Definition fmt_few (x : f64) : string := match List.find (fun e => feqb (snd e) x) few with Some (s, _) => s | None => "?" end.
Definition parse_few (s : string) : option f64 := match List.find (fun e => (fst e =? s)%string) few with Some (_, x) => Some x | None => None end.
Example C137_run_example :
  match (let* gb := NewGradBoostTarget F64 (mkNC F64 (map f_of_Z [4; 4; 4; 4; 4; -5; -5; -5; -5]%Z) (repeat false 9)) half64 in
         boosted_trees F64 parse_few fmt_few nine_fm (nine_p false) (fun _ => Ok (seq 0 9)) (fun _ _ => 0) 2 gb (nine_start F64)) with
  | Ok (ts, gb, _) => Some (map (fun t => PropGrow2.shape (Ok (fst t, 0))) ts, map snd ts, ncData F64 (gbF F64 gb))
  | _ => None
  end = Some ([Some ([[]], [([DL], "4"); ([DR], "-5")]); Some ([[]], [([DL], "2"); ([DR], "-2.5")])], [half64; half64],
              map (fun z => fdiv (f_of_Z z) (f_of_Z 4)) [4; 4; 4; 4; 4; -5; -5; -5; -5]%Z).
Proof. vm_compute. reflexivity. Qed.
