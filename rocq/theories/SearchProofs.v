(** Proofs about the searches for the best split of one feature. *)
From Verif Require Import Go GoLemmas F64 F64Order ModelFeature ModelSplit SplitSpec SplitProofs
  ModelSort SortSpec SortProofs ModelSearch SearchSpec.
Local Open Scope nat_scope.
Local Open Scope list_scope.

Lemma ordered_F64 : ordered F64.
Proof. split; [exact flt_irrefl|exact flt_false_trans]. Qed.

Lemma get_lt {B} (l : list B) i d : i < length l -> get l i = Ok (nth i l d).
Proof. intros. apply get_default; auto. Qed.

Lemma getZ_of_nat {B} (l : list B) i : getZ l (Z.of_nat i) = get l i.
Proof.
  unfold getZ. destruct (Z.ltb_spec (Z.of_nat i) 0); [lia|]. rewrite Nat2Z.id. reflexivity.
Qed.

(** ** Loading and sorting *)

Lemma upd_prefix {B} (a : list B) x y b : upd (a ++ y :: b) (length a) x = a ++ x :: b.
Proof. apply upd_mid. Qed.

Lemma load_ok f cases vals :
  Forall (fun c => c < length (nData f)) cases -> length cases <= length vals ->
  load (nData f) cases vals = Ok (map (nvalue f) cases ++ skipn (length cases) vals).
Proof.
  intros Hc Hl. unfold load.
  destruct (@foreach_total nat (nat * list f64)
    (fun p '((i, vals) : nat * list f64) =>
       let* x := get (nData f) p in let* vals := set vals i x in Ok (S i, vals))
    (fun pre post '((i, v) : nat * list f64) => pre ++ post = cases /\ i = length pre /\
        v = map (nvalue f) pre ++ skipn (length pre) vals)
    cases [] (0, vals)) as ([i v] & E & E1 & E2 & E3).
  - intros pre a post [i v] (E1 & E2 & E3).
    assert (Ha : a < length (nData f)).
    { rewrite Forall_forall in Hc. apply Hc. rewrite <- E1, in_app_iff. cbn. auto. }
    rewrite (get_lt (nData f) a S754_nan Ha). cbn [bind].
    assert (Hlen : length pre < length vals).
    { rewrite <- E1, app_length in Hl. cbn in Hl. lia. }
    rewrite set_ok by (subst; rewrite app_length, map_length, skipn_length; lia).
    cbn [bind]. apply yields_ok. rewrite <- app_assoc. cbn. repeat split; auto.
    + rewrite app_length. cbn. lia.
    + subst v i. rewrite map_app, app_length. cbn [map length].
      destruct (skipn (length pre) vals) as [|y b] eqn:Es.
      { apply (f_equal (@length _)) in Es. rewrite skipn_length in Es. cbn in Es. lia. }
      pose proof (upd_prefix (map (nvalue f) pre) (nth a (nData f) S754_nan) y b) as U.
      rewrite map_length in U. rewrite U.
      rewrite <- app_assoc. cbn. do 2 f_equal.
      replace (length pre + 1) with (S (length pre)) by lia.
      clear - Es. revert Es. generalize (length pre). intros n. revert n.
      induction vals as [|v vs IH]; intros [|n]; cbn; intros E; try discriminate.
      * inversion E; auto.
      * apply IH; auto.
  - cbn. auto.
  - rewrite E. cbn [bind]. cbn in *. rewrite app_nil_r in E1. subst; auto.
Qed.

Lemma combine_fst_prefix {B C} (l : list B) (m : list C) :
  length l <= length m -> map fst (combine l m) = l.
Proof.
  revert m; induction l as [|a l IH]; intros [|b m]; cbn; intros; auto; try lia.
  f_equal. apply IH. lia.
Qed.
Lemma combine_snd_prefix {B C} (l : list B) (m : list C) :
  length l <= length m -> map snd (combine l m) = firstn (length l) m.
Proof.
  revert m; induction l as [|a l IH]; intros [|b m]; cbn; intros; auto; try lia.
  f_equal. apply IH. lia.
Qed.
Lemma combine_map_app {B C} (g : B -> C) l rest : combine l (map g l ++ rest) = map (fun c => (c, g c)) l.
Proof. induction l; cbn; congruence. Qed.

Lemma strongly_nth (l : list f64) d i j : ascending l -> i < j -> j < length l ->
  fleb (nth i l d) (nth j l d) = true.
Proof.
  intros H. revert i j. induction H as [|a l Hs IH Hf]; cbn; intros i j Hij Hj; [lia|].
  destruct i, j; try lia.
  - rewrite Forall_forall in Hf. apply Hf. apply nth_In. lia.
  - apply IH; lia.
Qed.

(** Sorting a loaded list: the cases in ascending order of their values. *)
Lemma load_sort f cases vals :
  Forall (fun c => c < length (nData f) /\ nn (nvalue f c)) cases -> length cases <= length vals ->
  exists cs vs,
    (let* vals := load (nData f) cases vals in SortBy cases vals) = Ok (cs, vs) /\
    Permutation cases cs /\ length vs = length vals /\
    (forall i, i < length cs -> get vs i = Ok (nvalue f (nth i cs 0))) /\
    (forall i j, i <= j -> j < length cs -> fleb (nvalue f (nth i cs 0)) (nvalue f (nth j cs 0)) = true).
Proof.
  intros Hc Hl.
  rewrite load_ok; [|eapply Forall_impl; [|exact Hc]; cbn; tauto|auto]. cbn [bind].
  set (w := map (nvalue f) cases ++ skipn (length cases) vals).
  assert (Hw : length w = length vals).
  { unfold w. rewrite app_length, map_length, skipn_length. lia. }
  assert (Hwl : length cases <= length w) by lia.
  destruct (SortBy_sorts cases w Hwl) as (cs & vs & E & P & As).
  { unfold w. rewrite firstn_app_exact by (rewrite map_length; auto).
    rewrite Forall_map. eapply Forall_impl; [|exact Hc]. cbn. tauto. }
  destruct (SortBy_total cases w Hwl) as (cs' & vs' & E' & L1 & L2 & _ & _).
  rewrite E in E'. inversion E'; subst cs' vs'; clear E'.
  exists cs, vs. split; auto.
  assert (Pc : Permutation cases cs).
  { apply (Permutation_map fst) in P. rewrite !combine_fst_prefix in P by lia. auto. }
  split; auto. split; [lia|].
  assert (Hcomb : combine cs vs = map (fun c => (c, nvalue f c)) cs).
  { unfold w in P. rewrite combine_map_app in P.
    assert (F : Forall (fun p => snd p = nvalue f (fst p)) (combine cs vs)).
    { eapply Permutation_Forall; [exact P|]. rewrite Forall_map. apply Forall_forall. auto. }
    assert (Hl2 : length cs <= length vs) by lia.
    clear - F Hl2. revert vs F Hl2. induction cs as [|c cs IH]; intros [|v vs]; cbn; intros F Hl; auto; try lia.
    inversion F; subst. cbn in *. subst v. f_equal. apply IH; auto. lia. }
  assert (Hvs : firstn (length cs) vs = map (nvalue f) cs).
  { rewrite <- combine_snd_prefix by lia. rewrite Hcomb, map_map. reflexivity. }
  assert (Hget : forall i, i < length cs -> get vs i = Ok (nvalue f (nth i cs 0))).
  { intros i Hi. rewrite (get_lt vs i S754_nan) by lia. f_equal.
    rewrite <- (firstn_skipn (length cs) vs) at 1. rewrite Hvs, app_nth1 by (rewrite map_length; auto).
    rewrite (nth_indep _ S754_nan (nvalue f 0)) by (rewrite map_length; auto). apply map_nth. }
  split; auto. intros i j Hij Hj.
  assert (Nj : nn (nvalue f (nth j cs 0))).
  { assert (In (nth j cs 0) cases) by (eapply Permutation_in; [symmetry; exact Pc|apply nth_In; auto]).
    rewrite Forall_forall in Hc. apply Hc. auto. }
  destruct (Nat.eq_dec i j) as [->|Hne]; [apply fle_refl; auto|].
  assert (As' : ascending (map (nvalue f) cs)).
  { rewrite <- L1, Hvs in As. auto. }
  pose proof (strongly_nth _ (nvalue f 0) i j As') as Hs.
  rewrite !map_nth in Hs. apply Hs; [lia|rewrite map_length; lia].
Qed.

(** ** The scan over the gaps of a sorted list *)
Section Num.
  Variable A : arith.
  Variable St : Type.
  Variable T : target A St.
  Variables (ok : nat -> Prop) (imp : list nat -> A) (cost : list nat -> list nat -> A)
            (ready : St -> Prop) (holds : list nat -> list nat -> St -> Prop).
  Hypothesis Hon : honest T ok imp cost ready holds.
  Hypothesis Hord : ordered A.
  Variable f : numF.
  Variable cs : list nat.
  Variable vs : list f64.
  Variable parent : A.
  Let V (i : nat) : f64 := nvalue f (nth i cs 0).
  Let G (p : nat) : A := gain A parent cost (firstn p cs) (skipn p cs).
  Hypothesis Hok : Forall ok cs.
  Hypothesis Hget : forall i, i < length cs -> get vs i = Ok (V i).

  (** Position p is too close to position q to be separated from it. *)
  Definition near (q p : nat) : bool := fleb (V p) (fadd (V q) f1e_7).
  (** Cut p is evaluated with q as the last position on its left considered. *)
  Definition jump (q p : nat) : Prop :=
    q < p /\ near q p = false /\ forall j, q < j < p -> near q j = true.

  Definition best_at (lo i : nat) (dec : A) (splitf : f64) : Prop :=
    (dec = least A /\ splitf = f0) \/
    exists q p, lo <= S q /\ lo <= p < i /\ jump q p /\ dec = G p /\ nltb A (least A) dec = true /\
      splitf = fdiv (fadd (V q) (V p)) f2.

  Definition num_inv (lo i : nat) (s : nat * Z * A * f64 * St) : Prop :=
    let '(ls, lasti, dec, splitf, tg) := s in
    ready tg /\
    (ls = 0 \/ (0 < ls < i /\ holds (firstn ls cs) (skipn ls cs) tg)) /\
    (exists q, lasti = Z.of_nat q /\ lo <= S q /\ q < i /\ forall j, q < j < i -> near q j = true) /\
    best_at lo i dec splitf /\
    nltb A dec (least A) = false /\
    (forall p, lo <= p < i -> (forall j, lo <= S j -> j < p -> near j p = false) -> nltb A dec (G p) = false).

  Lemma Forall_firstn {B} (P : B -> Prop) n l : Forall P l -> Forall P (firstn n l).
  Proof. intros H. rewrite <- (firstn_skipn n l), Forall_app in H. tauto. Qed.
  Lemma Forall_skipn {B} (P : B -> Prop) n l : Forall P l -> Forall P (skipn n l).
  Proof. intros H. rewrite <- (firstn_skipn n l), Forall_app in H. tauto. Qed.

  Lemma slice_mid (l : list nat) a b : a <= b -> b <= length l ->
    slice l a b = Ok (firstn (b - a) (skipn a l)) /\
    firstn b l = firstn a l ++ firstn (b - a) (skipn a l) /\
    skipn a l = firstn (b - a) (skipn a l) ++ skipn b l.
  Proof.
    intros Ha Hb. split; [apply slice_ok; auto|].
    assert (E : skipn b l = skipn (b - a) (skipn a l)).
    { revert a b Ha Hb. induction l as [|x l IH]; intros [|a] [|b] Ha Hb; cbn in *; auto; try lia.
      apply IH; lia. }
    split; [|rewrite E; symmetry; apply firstn_skipn].
    revert a b Ha Hb E. induction l as [|x l IH]; intros [|a] [|b] Ha Hb E; cbn in *; auto; try lia.
    f_equal. apply IH; auto; lia.
  Qed.

  Lemma num_step_ok lo i s : 1 <= lo -> lo <= i -> i < length cs -> num_inv lo i s ->
    yields (num_step A St T cs vs parent i s) (num_inv lo (S i)).
  Proof.
    destruct s as [[[[ls lasti] dec] splitf] tg].
    intros Hlo Hi Hlen (Hr & Hls & (q & -> & Hq1 & Hq2 & Hq3) & Hb & Hle & Hmax).
    unfold num_step. rewrite Hget by auto. cbn [bind]. rewrite getZ_of_nat, Hget by lia. cbn [bind].
    destruct (fleb (V i) (fadd (V q) f1e_7)) eqn:En.
    - apply yields_ok. split; [auto|]. split.
      { destruct Hls as [Hls|[Hls Hh]]; auto. right. split; auto. lia. }
      split.
      { exists q. repeat split; auto; try lia. intros j Hj.
        destruct (Nat.eq_dec j i) as [->|]; [exact En|apply Hq3; lia]. }
      split; [|split; [auto|]].
      { destruct Hb as [Hb|(q' & p & B1 & B2 & B3)]; [left; auto|]. right. exists q', p.
        split; auto. split; [lia|auto]. }
      { intros p Hp Hfar. destruct (Nat.eq_dec p i) as [->|].
        - specialize (Hfar q Hq1 Hq2). unfold near in Hfar. rewrite Hfar in En. discriminate.
        - apply Hmax; auto. lia. }
    - destruct (slice_mid cs 0 i) as (S1 & _ & _); [lia|lia|].
      rewrite S1. cbn [bind]. cbn [skipn]. rewrite Nat.sub_0_r.
      destruct (slice_mid cs i (length cs)) as (S2 & _ & _); [lia|lia|].
      rewrite S2. cbn [bind].
      rewrite <- (skipn_length i cs), firstn_all.
      assert (O1 : Forall ok (firstn i cs)) by (apply Forall_firstn; auto).
      assert (O2 : Forall ok (skipn i cs)) by (apply Forall_skipn; auto).
      assert (Step : exists tg',
        (if ls =? 0 then tSplit T (firstn i cs) (skipn i cs) None tg
         else let* mm := slice cs ls i in tUpdate T (firstn i cs) (skipn i cs) None mm tg)
        = Ok (cost (firstn i cs) (skipn i cs), tg') /\ ready tg' /\ holds (firstn i cs) (skipn i cs) tg').
      { destruct Hls as [->|[Hls Hh]].
        - cbn. apply (h_split T ok imp cost ready holds Hon); auto.
        - destruct (Nat.eqb_spec ls 0); [lia|].
          destruct (slice_mid cs ls i) as (S3 & S4 & S5); [lia|lia|].
          rewrite S3. cbn [bind].
          eapply (h_update T ok imp cost ready holds Hon); eauto.
          + rewrite S4 at 1. reflexivity.
          + rewrite S5 at 1. reflexivity. }
      destruct Step as (tg' & -> & Hr' & Hh'). cbn [bind].
      change (decrease A parent (cost (firstn i cs) (skipn i cs))) with (G i).
      assert (Hj : jump q i) by (repeat split; auto).
      destruct (nltb A dec (G i)) eqn:Ed; apply yields_ok.
      + split; [auto|]. split; [right; split; [lia|auto]|]. split.
        { exists i. repeat split; auto; try lia. }
        split.
        { right. exists q, i. repeat split; auto; try lia.
          destruct Hb as [[-> _]|(q' & p & _ & _ & _ & _ & Hlt & _)]; auto.
            destruct (nltb A (least A) (G i)) eqn:E; auto.
            pose proof (proj2 Hord (G i) (least A) dec E Hlt). congruence. }
        split.
        { apply (proj2 Hord (least A) dec (G i)); auto. }
        intros p Hp Hfar. destruct (Nat.eq_dec p i) as [->|].
        { apply (proj1 Hord). }
        { apply (proj2 Hord (G p) dec (G i)); auto. apply Hmax; auto. lia. }
      + split; [auto|]. split; [right; split; [lia|auto]|]. split.
        { exists i. repeat split; auto; try lia. }
        split.
        { destruct Hb as [Hb|(q' & p & B1 & B2 & B3)]; [left; auto|]. right. exists q', p.
          split; auto. split; [lia|auto]. }
        split; auto.
        intros p Hp Hfar. destruct (Nat.eq_dec p i) as [->|]; auto. apply Hmax; auto. lia.
  Qed.

  Lemma num_scan_ok lo n tg : 1 <= lo -> lo + n <= length cs -> ready tg ->
    yields (for_up n lo (num_step A St T cs vs parent) (0, (Z.of_nat lo - 1)%Z, least A, f0, tg))
      (num_inv lo (lo + n)).
  Proof.
    intros Hlo Hn Hr. apply for_up_total.
    - intros i s Hi. apply num_step_ok; auto; lia.
    - split; auto. split; [auto|]. split.
      { exists (lo - 1). repeat split; try lia. }
      split; [left; auto|]. split; [apply (proj1 Hord)|]. intros p Hp. lia.
  Qed.
End Num.

(** ** BestNumSplit *)
Section BestNum.
  Variable A : arith.
  Variable St : Type.
  Variable T : target A St.
  Variables (ok : nat -> Prop) (imp : list nat -> A) (cost : list nat -> list nat -> A)
            (ready : St -> Prop) (holds : list nat -> list nat -> St -> Prop).
  Hypothesis Hon : honest T ok imp cost ready holds.
  Hypothesis Hord : ordered A.
  Variable rnd : nat -> nat.

  (** What is known of the outcome of a numerical search. *)
  Definition num_outcome (f : numF) (cases : list nat) (parent : A) (leaf : nat) (rs : bool)
      (r : found A St) : Prop :=
    (length cases < 2 * leaf /\ fCode r = CNum f0 /\ fDec r = least A /\ fConst r = false) \/
    (2 * leaf <= length cases /\ fCode r = CNil /\ fDec r = least A /\ fConst r = true /\
     exists c, In c cases /\ (forall d, In d cases -> fleb (nvalue f c) (nvalue f d) = true) /\
       (exists d, In d cases /\ (forall c, In c cases -> fleb (nvalue f c) (nvalue f d) = true) /\
          fleb (nvalue f d) (fadd (nvalue f c) f1e_7) = true)) \/
    (2 * leaf <= length cases /\ fConst r = false /\
     exists cs lo stop x, Permutation cases cs /\
       (forall i j, i <= j -> j < length cs -> fleb (nvalue f (nth i cs 0)) (nvalue f (nth j cs 0)) = true) /\
       leaf <= lo /\ stop <= length cases - leaf /\ (rs = false -> lo = leaf /\ stop = length cases - leaf) /\
       fCode r = CNum x /\
       best_at A cost f cs parent lo stop (fDec r) x /\
       nltb A (fDec r) (least A) = false /\
       (forall p, lo <= p < stop -> (forall j, lo <= S j -> j < p -> near f cs j p = false) ->
          nltb A (fDec r) (gain A parent cost (firstn p cs) (skipn p cs)) = false)).

  Lemma BestNumSplit_ok f cases parent leaf rs al :
    1 <= leaf -> Forall ok cases ->
    Forall (fun c => c < length (nData f) /\ nn (nvalue f c)) cases ->
    length cases <= length (aVals al) -> ready (aTgt al) ->
    exists r, BestNumSplit A St T rnd f cases parent leaf rs al = Ok r /\
      Permutation cases (fCases r) /\
      length (aVals (fAl r)) = length (aVals al) /\ aCat (fAl r) = aCat al /\ ready (aTgt (fAl r)) /\
      num_outcome f cases parent leaf rs r.
  Proof.
    intros Hleaf Hok Hv Hl Hr. unfold BestNumSplit.
    destruct (Nat.leb_spec (2 * leaf) (length cases)) as [Hn|Hn].
    2:{ eexists. split; [reflexivity|]. cbn. repeat split; auto. left. auto. }
    destruct (load_sort f cases (aVals al) Hv Hl) as (cs & vs & E & P & L & Hget & Hs).
    apply bind_ok in E as (w & -> & E). cbn [bind]. rewrite E. cbn [bind aTgt aDraw aCat aVals].
    pose proof (Permutation_length P) as PL.
    rewrite (Hget 0) by lia. cbn [bind].
    replace (Z.of_nat (length cases) - 1)%Z with (Z.of_nat (length cases - 1)) by lia.
    rewrite getZ_of_nat, Hget by lia. cbn [bind].
    destruct (fleb (nvalue f (nth (length cases - 1) cs 0)) (fadd (nvalue f (nth 0 cs 0)) f1e_7)) eqn:Ec.
    { eexists. split; [reflexivity|]. cbn. repeat split; auto. right. left. repeat split; auto.
      assert (Nth : forall d, In d cases -> exists i, i < length cs /\ d = nth i cs 0).
      { intros d Hd. apply (Permutation_in _ P) in Hd. apply (In_nth _ _ 0) in Hd.
        destruct Hd as (i & Hi & <-). eauto. }
      assert (Inn : forall i, i < length cs -> In (nth i cs 0) cases).
      { intros i Hi. eapply Permutation_in; [symmetry; exact P|]. apply nth_In; auto. }
      exists (nth 0 cs 0). split; [apply Inn; lia|]. split.
      { intros d Hd. destruct (Nth d Hd) as (i & Hi & ->). apply Hs; lia. }
      exists (nth (length cases - 1) cs 0). split; [apply Inn; lia|]. split; auto.
      intros d Hd. destruct (Nth d Hd) as (i & Hi & ->). apply Hs; lia. }
    assert (Hd : exists lo stop d,
      (if rs && (leaf <? length cases - leaf)
       then let* k := (if length cases - leaf - leaf =? 0 then Panic
                       else Ok (rnd (aDraw al) mod (length cases - leaf - leaf))) in
            Ok (leaf + k, leaf + k + 1, S (aDraw al))
       else Ok (leaf, length cases - leaf, aDraw al)) = Ok (lo, stop, d) /\
      leaf <= lo /\ lo <= stop /\ stop <= length cases - leaf /\
      (rs = false -> lo = leaf /\ stop = length cases - leaf)).
    { destruct rs; cbn [andb].
      - destruct (Nat.ltb_spec leaf (length cases - leaf)) as [H|H].
        + destruct (Nat.eqb_spec (length cases - leaf - leaf) 0); [lia|]. cbn [bind].
          do 3 eexists. split; [reflexivity|].
          pose proof (Nat.mod_upper_bound (rnd (aDraw al)) (length cases - leaf - leaf) ltac:(lia)).
          repeat split; try lia; try discriminate.
        + do 3 eexists. split; [reflexivity|]. repeat split; lia.
      - do 3 eexists. split; [reflexivity|]. repeat split; lia. }
    destruct Hd as (lo & stop & d & -> & Hlo & Hls & Hst & Hrs). cbn [bind].
    assert (Hok' : Forall ok cs) by (eapply Permutation_Forall; eauto).
    destruct (num_scan_ok A St T ok imp cost ready holds Hon Hord f cs vs parent Hok' Hget
               lo (stop - lo) (aTgt al)) as ([[[[ls li] dec] x] tg] & E1 & Hr' & _ & _ & Hb & Hle & Hmax);
      [lia|lia|auto|].
    change (minImp A) with (least A). rewrite E1. cbn [bind].
    eexists. split; [reflexivity|]. cbn. repeat split; auto.
    replace (lo + (stop - lo)) with stop in * by lia.
    right. right. repeat split; auto. exists cs, lo, stop, x. repeat split; auto; apply Hrs; auto.
  Qed.
End BestNum.

(** ** Rules and filters *)

(** A downward closed predicate cuts a prefix off a list. *)
Lemma filter_prefix (P : nat -> bool) l :
  (forall i j, i <= j -> j < length l -> P (nth j l 0) = true -> P (nth i l 0) = true) ->
  filter P l = firstn (length (filter P l)) l /\
  filter (fun c => negb (P c)) l = skipn (length (filter P l)) l.
Proof.
  induction l as [|a l IH]; intros H; cbn; auto.
  destruct (P a) eqn:Ea; cbn.
  - destruct IH as [I1 I2].
    { intros i j Hij Hj. apply (H (S i) (S j)); cbn; lia. }
    split; [f_equal|]; auto.
  - assert (E : forall x, In x l -> P x = false).
    { intros x Hx. apply (In_nth _ _ 0) in Hx as (j & Hj & <-).
      destruct (P (nth j l 0)) eqn:E; auto. specialize (H 0 (S j)). cbn in H.
      rewrite H in Ea; auto; lia. }
    rewrite (@filter_false _ P l) by (apply Forall_forall; auto).
    rewrite (@filter_true _ (fun c => negb (P c)) l)
      by (apply Forall_forall; intros x Hx; rewrite (E x Hx); auto).
    auto.
Qed.

Lemma filter_at (P : nat -> bool) l p : p <= length l ->
  (forall i, i < p -> P (nth i l 0) = true) ->
  (forall i, p <= i < length l -> P (nth i l 0) = false) ->
  filter P l = firstn p l /\ filter (fun c => negb (P c)) l = skipn p l.
Proof.
  intros Hp H1 H2. rewrite <- (firstn_skipn p l) at 1 3. rewrite !filter_app.
  assert (F1 : Forall (fun x => P x = true) (firstn p l)).
  { apply Forall_forall. intros x Hx. apply (In_nth _ _ 0) in Hx as (i & Hi & <-).
    rewrite firstn_length in Hi. rewrite <- (firstn_skipn p l) in H1.
    specialize (H1 i). rewrite app_nth1 in H1 by (rewrite firstn_length; lia). apply H1. lia. }
  assert (F2 : Forall (fun x => P x = false) (skipn p l)).
  { apply Forall_forall. intros x Hx. apply (In_nth _ _ 0) in Hx as (i & Hi & <-).
    rewrite skipn_length in Hi. specialize (H2 (p + i)).
    rewrite <- (firstn_skipn p l) in H2 at 2.
    rewrite app_nth2 in H2 by (rewrite firstn_length; lia).
    rewrite firstn_length, Nat.min_l in H2 by lia.
    replace (p + i - p) with i in H2 by lia. apply H2. lia. }
  rewrite (@filter_true _ _ _ F1), (@filter_false _ _ _ F2).
  rewrite (@filter_false _ (fun c => negb (P c)) (firstn p l))
    by (eapply Forall_impl; [|exact F1]; cbn; intros a ->; auto).
  rewrite (@filter_true _ (fun c => negb (P c)) (skipn p l))
    by (eapply Forall_impl; [|exact F2]; cbn; intros a ->; auto).
  rewrite app_nil_r. auto.
Qed.

Lemma gain_perm A St (T : target A St) ok imp cost ready holds parent l r l' r' :
  honest T ok imp cost ready holds -> Permutation l l' -> Permutation r r' ->
  gain A parent cost l r = gain A parent cost l' r'.
Proof. intros H P1 P2. unfold gain. rewrite (h_perm _ _ _ _ _ _ H l r l' r' P1 P2). reflexivity. Qed.
