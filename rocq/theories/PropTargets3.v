(** C110: splits of transduction trees (transduction.go).  C111: targets that look up a label
    (NPtarget.go, transduction.go, dentropytarget.go).  C112: Neyman-Pearson impurity.
    C113: Mode of a numerical feature. *)
From Verif Require Import Go GoLemmas F64 F64Order Exact ModelFeature ModelImpurity ModelSearch ModelTargets
  FeatureSpec FeatureProofs ImpuritySpec ImpurityProofs PropImpurity PropImpurity3 PropBoost PropAda ModelTargets2
  PropDensity PropNewton ModelTargets3.
From Coq Require Import Permutation.
Local Open Scope string_scope.
Local Open Scope nat_scope.
Local Open Scope list_scope.

(** ** C110 *)

(** The density term of a part of a split: the product of the positive spans over the
    squared number of cases. *)
Definition positive_part (x : R) : R := if Rlt_dec 0 x then x else 1%R.
Definition density (spans : list (list nat -> R)) (cases : list nat) : R :=
  (Rprod (map (fun s => positive_part (s cases)) spans) / (INR (length cases) * INR (length cases)))%R.

(** [fs] compute the exact spans [spans]. *)
Definition computes (fs : list (list nat -> res XR)) (spans : list (list nat -> R)) (cases : list nat) : Prop :=
  Forall2 (fun f s => f cases = Ok (Some (s cases))) fs spans.

Lemma trans_density_value fs spans cases : cases <> [] -> computes fs spans cases ->
  TransDensity XR fs cases = Ok (Some (density spans cases)).
Proof.
  intros Hne H.
  assert (Ht : (INR (length cases) <> 0)%R) by (apply not_0_INR; destruct cases; [congruence|discriminate]).
  unfold TransDensity, density. cbn [ndiv nofZ XR]. unfold num. cbn [nofZ XR].
  rewrite mult_IZR, <- !INR_IZR_INZ, xdiv_some by (apply Rmult_integral_contrapositive; auto).
  replace (Rprod (map (fun s => positive_part (s cases)) spans) / (INR (length cases) * INR (length cases)))%R
    with (1 / (INR (length cases) * INR (length cases)) * Rprod (map (fun s => positive_part (s cases)) spans))%R by (field; auto).
  generalize (1 / (INR (length cases) * INR (length cases)))%R as e. clear Ht Hne.
  unfold computes in H. induction H as [|f s fs spans H1 H IH]; intros e; cbn [map foreach Rprod].
  - do 2 f_equal. lra.
  - rewrite H1. cbn [bind nltb XR xcmp nmul lift2]. unfold positive_part, Rltb. destruct (Rlt_dec 0 (s cases)).
    + etransitivity; [apply IH|]. do 2 f_equal. unfold positive_part. lra.
    + etransitivity; [apply IH|]. do 2 f_equal. unfold positive_part. lra.
Qed.

Lemma average_plus (f g : list nat -> R) (a : R) ps : Rsum (map (fun p => INR (length p)) ps) <> 0%R ->
  weighted_average (fun p => f p + a * g p)%R ps = (weighted_average f ps + a * weighted_average g ps)%R.
Proof.
  intros H. unfold weighted_average.
  assert (E : Rsum (map (fun p => INR (length p) * (f p + a * g p))%R ps) =
    (Rsum (map (fun p => INR (length p) * f p) ps) + a * Rsum (map (fun p => INR (length p) * g p) ps))%R).
  { clear H. induction ps as [|p ps IH]; cbn [map Rsum]; [lra|]. rewrite IH. lra. }
  rewrite E. field. exact H.
Qed.

(** The supervised target's own split impurity is the average of [g], as for all the
    targets of C43, C47 and C48. *)
Theorem C110_split_score : forall sup supsplit g fs spans (alpha : R) l r m k,
  l <> [] -> r <> [] ->
  (forall p c, In p (parts l r m) -> length c = length (kL k) -> exists c', sup p c = Ok (Some (g p), c')) ->
  (exists k', supsplit l r m k = Ok (Some (weighted_average g (parts l r m)), k')) ->
  length (kR k) = length (kL k) -> length (kM k) = length (kL k) ->
  (forall p, In p (parts l r m) -> computes fs spans p) ->
  forall moved, exists k', TransUpdate XR sup supsplit fs (Some alpha) l r m k moved =
    Ok (Some (weighted_average g (parts l r m) + alpha * weighted_average (density spans) (parts l r m))%R, k').
Proof.
  intros sup supsplit g fs spans alpha l r m k Hl Hr Hs (k0 & E0) Kr Km Hf moved. unfold TransUpdate, TransSplitImpurity.
  assert (Hsum : Rsum (map (fun p : list nat => INR (length p)) (parts l r m)) <> 0%R).
  { pose proof (len_pos l Hl). pose proof (len_pos r Hr). unfold parts. cbn [map Rsum].
    assert (G : forall ps : list (list nat), (0 <= Rsum (map (fun p : list nat => INR (length p)) ps))%R).
    { induction ps as [|p ps IH]; cbn [map Rsum]; [lra|]. pose proof (pos_INR (length p)). lra. }
    specialize (G (match m with Some (c :: m') => [c :: m'] | _ => [] end)). lra. }
  assert (Hne : forall p, In p (parts l r m) -> p <> []).
  { unfold parts. intros p [<-|[<-|Hp]]; auto. destruct m as [[|c mm]|]; cbn in Hp; intuition (subst; discriminate). }
  destruct (nleb XR (Some alpha) (nofZ XR 0) && nleb XR (nofZ XR 0) (Some alpha)) eqn:Ea.
  - exists k0. rewrite E0. do 3 f_equal. apply andb_prop in Ea as [E1 E2]. cbn in E1, E2. unfold Rleb in E1, E2.
    destruct (Rle_dec alpha 0); [|discriminate]. destruct (Rle_dec 0 alpha); [|discriminate].
    replace alpha with 0%R by lra. lra.
  - rewrite <- average_plus by assumption. apply split_average; auto. intros p c Hp Hc.
    destruct (Hs p c Hp Hc) as (c' & E). exists c'. unfold TransImpurity. rewrite E. cbn [bind]. rewrite Ea.
    rewrite (trans_density_value fs spans p); auto.
Qed.

(** A feature that never has a positive span (C91: every numerical one) leaves only the
    sizes of the two sides: the term is the same for all splits into as many cases, and
    smallest for the most even one. *)
Theorem C110_only_sizes_refuted : forall spans l r, l <> [] -> r <> [] ->
  (forall s p, In s spans -> In p [l; r] -> (s p <= 0)%R) ->
  weighted_average (density spans) (parts l r None) =
    ((1 / INR (length l) + 1 / INR (length r)) / (INR (length l) + INR (length r)))%R.
Proof.
  intros spans l r Hl Hr H. pose proof (len_pos l Hl). pose proof (len_pos r Hr).
  assert (E : forall p, In p [l; r] -> density spans p = (1 / (INR (length p) * INR (length p)))%R).
  { intros p Hp. unfold density. f_equal. induction spans as [|s spans IH]; cbn [map Rprod]; [reflexivity|].
    rewrite IH by (intros; apply H; auto; right; auto). unfold positive_part.
    destruct (Rlt_dec 0 (s p)); [|lra]. pose proof (H s p (or_introl eq_refl) Hp). lra. }
  unfold weighted_average, parts. cbn [map Rsum]. rewrite !E by (cbn; auto). field. repeat split; lra.
Qed.
Corollary C110_blind_to_the_cases_refuted : forall spans l r l' r', l <> [] -> r <> [] ->
  length l' = length l -> length r' = length r ->
  (forall s p, In s spans -> In p [l; r; l'; r'] -> (s p <= 0)%R) ->
  weighted_average (density spans) (parts l r None) = weighted_average (density spans) (parts l' r' None).
Proof.
  intros spans l r l' r' Hl Hr L1 L2 H.
  rewrite (C110_only_sizes_refuted spans l r), (C110_only_sizes_refuted spans l' r'); try rewrite L1, L2; auto.
  - destruct l', l; cbn in L1; congruence.
  - destruct r', r; cbn in L2; congruence.
  - intros; apply H; auto. cbn in *; tauto.
  - intros; apply H; auto. cbn in *; tauto.
Qed.

(** A split of four cases of two labels, with one feature that has two categories on the
    left and one on the right. *)
Example C110_ex : exists (sup : impurity XR) (supsplit : list nat -> list nat -> option (list nat) -> counters -> res (XR * counters)) g fs spans (k : counters), let l := [0; 1] in let r := [2; 3] in
  (forall p c, In p (parts l r None) -> length c = length (kL k) -> exists c', sup p c = Ok (Some (g p), c')) /\
  (exists k', supsplit l r None k = Ok (Some (weighted_average g (parts l r None)), k')) /\
  (forall p, In p (parts l r None) -> computes fs spans p) /\
  weighted_average (density spans) (parts l r None) = (3 / 8)%R.
Proof.
  exists (fun p c => Ok (Some 1%R : XR, c)), (fun l r m k => Ok (Some (weighted_average (fun _ => 1%R) (parts l r m)) : XR, k)), (fun _ => 1%R),
    [fun p => Ok (Some (if hd O p =? O then 2%R else 1%R) : XR)], [fun p => if hd 0 p =? 0 then 2%R else 1%R], (mkK [] [] []).
  cbv zeta. split; [intros; eexists; reflexivity|]. split; [eexists; reflexivity|]. split.
  - intros p Hp. repeat constructor.
  - unfold weighted_average, density, parts, positive_part. cbn [map Rsum Rprod length hd Nat.eqb INR].
    destruct (Rlt_dec 0 2); [|lra]. destruct (Rlt_dec 0 1); [|lra]. field.
Qed.

(** ** C111 *)

(** The label exists: nothing changes and its own number is used. *)
Theorem C111_known_label : forall f pos, cm_ok (cMap f) -> In pos (cmBack (cMap f)) ->
  exists n, NewNPTarget f pos = (n, f) /\ NewTransTarget f pos = (n, f) /\ nth_error (cmBack (cMap f)) n = Some pos.
Proof.
  intros f pos Hf Hp. unfold NewNPTarget, NewTransTarget. destruct (CatToNum (cMap f) pos) as [cm n] eqn:E.
  destruct (CatToNum_ok _ _ _ _ Hf E) as (_ & H1 & H2 & _). specialize (H2 Hp). subst cm. exists n.
  destruct f; auto.
Qed.

(** The label does not exist: the target gets one more category, which no case has. *)
Theorem C111_unknown_label_refuted : forall f pos, cm_ok (cMap f) -> ~ In pos (cmBack (cMap f)) ->
  let (n, f') := NewNPTarget f pos in
  NewTransTarget f pos = (n, f') /\ NCats (cMap f') = S (NCats (cMap f)) /\ n = NCats (cMap f) /\
  cData f' = cData f /\ cMissing f' = cMissing f /\
  forall cases, labelled (cData f) (NCats (cMap f)) cases -> occurs (labels (cData f') cases) n = 0.
Proof.
  intros f pos Hf Hp. unfold NewNPTarget, NewTransTarget. destruct (CatToNum (cMap f) pos) as [cm n] eqn:E.
  destruct (CatToNum_ok _ _ _ _ Hf E) as (_ & _ & _ & H2). destruct (H2 Hp) as [H3 H4]. unfold NCats, with_names. cbn [cMap cData cMissing].
  split; [reflexivity|]. split; [rewrite H3, app_length; cbn; lia|]. split; [exact H4|]. split; [reflexivity|]. split; [reflexivity|].
  intros cases Hl. apply count_occ_not_In. intros Hi. apply in_map_iff in Hi as (i & Ei & Hi). unfold labelled in Hl.
  rewrite Forall_forall in Hl. apply Hl in Hi as [_ Hi]. unfold NCats in Hi. lia.
Qed.

(** The scan of ImpFromCounts is the scan of FindPredicted together with the two totals. *)
Lemma np_scan_parts (A : arith) posi (alpha : A) counter :
  np_scan A posi alpha counter =
    (fst (fold_left (fun '((mi, mc) : nat * A) '((cat, count) : nat * Z) =>
        let cc := num A count in
        let cc := if cat =? posi then ndiv A cc alpha else cc in
        if nltb A mc cc then (cat, cc) else (mi, mc)) (indexed 0 counter) (0, nofZ A 0)),
     (fold_right Z.add 0%Z (map snd (filter (fun e => fst e =? posi) (indexed 0 counter))),
      fold_right Z.add 0%Z (map snd (filter (fun e => negb (fst e =? posi)) (indexed 0 counter))))).
Proof.
  unfold np_scan. generalize (0, nofZ A 0) as acc.
  assert (G : forall (l : list (nat * Z)) tp tn (acc : nat * A),
    fold_left (fun '((tp, tn, (mi, mc)) : Z * Z * (nat * A)) '((cat, count) : nat * Z) =>
        let cc := num A count in
        let '(tp, tn, cc) :=
          if cat =? posi then ((tp + count)%Z, tn, ndiv A cc alpha)
          else (tp, (tn + count)%Z, cc) in
        if nltb A mc cc then (tp, tn, (cat, cc)) else (tp, tn, (mi, mc))) l (tp, tn, acc) =
    ((tp + fold_right Z.add 0%Z (map snd (filter (fun e => (fst e =? posi)%nat) l)))%Z,
     (tn + fold_right Z.add 0%Z (map snd (filter (fun e => negb (fst e =? posi)%nat) l)))%Z,
     fold_left (fun '((mi, mc) : nat * A) '((cat, count) : nat * Z) =>
        let cc := num A count in
        let cc := if cat =? posi then ndiv A cc alpha else cc in
        if nltb A mc cc then (cat, cc) else (mi, mc)) l acc)).
  { induction l as [|[cat count] l IH]; intros tp tn [mi mc]; cbn [fold_left filter map fold_right].
    - rewrite !Z.add_0_r. reflexivity.
    - cbn [fst]. destruct (cat =? posi); cbn [negb map fold_right snd]; destruct (nltb A mc _); rewrite IH, ?Z.add_assoc; reflexivity. }
  intros acc. rewrite G. destruct (fold_left _ _ acc) as [mi mc]. cbn [fst]. rewrite !Z.add_0_l. reflexivity.
Qed.

Definition total_at (keep : nat -> bool) (n : nat -> nat) (l : list nat) : Z :=
  fold_right Z.add 0%Z (map snd (filter (fun e : nat * Z => keep (fst e)) (map (fun c => (c, Z.of_nat (n c))) l))).
Lemma total_at_one n posi : forall k s,
  total_at (fun c => c =? posi) n (seq s k) = if (s <=? posi) && (posi <? s + k) then Z.of_nat (n posi) else 0%Z.
Proof.
  unfold total_at. induction k as [|k IH]; intros s; cbn [seq map filter].
  - rewrite Nat.add_0_r. destruct (Nat.leb_spec s posi), (Nat.ltb_spec posi s); cbn; auto; lia.
  - cbn [fst]. destruct (Nat.eqb_spec s posi) as [->|Hs]; cbn [map fold_right snd]; rewrite IH.
    + replace (S posi <=? posi) with false by (symmetry; apply Nat.leb_gt; lia).
      rewrite Nat.leb_refl. replace (posi <? posi + S k) with true by (symmetry; apply Nat.ltb_lt; lia). cbn. lia.
    + destruct (Nat.leb_spec (S s) posi), (Nat.leb_spec s posi), (Nat.ltb_spec posi (S s + k)), (Nat.ltb_spec posi (s + S k)); cbn; auto; lia.
Qed.
Lemma total_at_both keep n l : (total_at keep n l + total_at (fun c => negb (keep c)) n l)%Z = Z.of_nat (list_sum (map n l)).
Proof.
  unfold total_at. induction l as [|c l IH]; [reflexivity|]. cbn [map filter fst list_sum fold_right].
  change (fold_right Nat.add 0 (map n l)) with (list_sum (map n l)).
  destruct (keep c); cbn [negb map fold_right snd]; lia.
Qed.

(** With an unknown label there is no impurity: every set of cases counts as perfect,
    whatever the two parameters are, so no split is ever an improvement. *)
Theorem C111_unknown_label_blind_refuted : forall f pos alpha kappa cases counter, cm_ok (cMap f) ->
  ~ In pos (cmBack (cMap f)) -> 0 < NCats (cMap f) ->
  labelled (cData f) (NCats (cMap f)) cases -> cases <> [] ->
  let (n, f') := NewNPTarget f pos in
  length counter = NCats (cMap f') ->
  exists counter', NPImpurity F64 n alpha kappa (cData f') cases counter = Ok (f0, counter').
Proof.
  intros f pos alpha kappa cases counter Hf Hp Hk Hl Hne.
  pose proof (C111_unknown_label_refuted f pos Hf Hp) as H. destruct (NewNPTarget f pos) as [n f'].
  destruct H as (_ & H1 & -> & -> & _ & H2). specialize (H2 cases Hl). rewrite H1. intros Hc.
  assert (Hl' : labelled (cData f) (length counter) cases).
  { rewrite Hc. unfold labelled in *. eapply Forall_impl; [|exact Hl]. cbn. intros i [? ?]. lia. }
  unfold NPImpurity. rewrite CountPerCat_ok by assumption. cbn [bind]. exists (counts (cData f) (length counter) cases).
  unfold NPFromCounts. rewrite np_scan_parts.
  set (posi := NCats (cMap f)) in *.
  assert (Ei : indexed 0 (counts (cData f) (length counter) cases) =
    map (fun c => (c, Z.of_nat (occurs (labels (cData f) cases) c))) (seq 0 (length counter))).
  { unfold counts. apply indexed_map_seq. }
  rewrite Ei.
  set (n := occurs (labels (cData f) cases)) in *.
  assert (T : fold_right Z.add 0%Z (map snd (filter (fun e => fst e =? posi) (map (fun c => (c, Z.of_nat (n c))) (seq 0 (length counter))))) = 0%Z).
  { change (total_at (fun c => c =? posi) n (seq 0 (length counter)) = 0%Z). rewrite total_at_one.
    rewrite H2. destruct (_ && _); reflexivity. }
  rewrite T.
  assert (G : forall l acc, fst acc <> posi -> not_neg (snd acc) ->
    fst (fold_left (fun '((mi, mc) : nat * F64) '((cat, count) : nat * Z) =>
        let cc := num F64 count in
        let cc := if cat =? posi then ndiv F64 cc alpha else cc in
        if nltb F64 mc cc then (cat, cc) else (mi, mc)) (map (fun c => (c, Z.of_nat (n c))) l) acc) <> posi).
  { induction l as [|c l IH]; intros [mi mc] A1 A2; cbn [map fold_left]; [exact A1|]. cbn [fst snd] in A1, A2. apply IH.
    all: destruct (Nat.eqb_spec c posi) as [->|Hcp].
    1,3: rewrite H2; replace (nltb F64 mc (ndiv F64 (num F64 (Z.of_nat 0)) alpha)) with false;
      [assumption|destruct alpha as [[]|[]| |[] ? ?]; destruct mc as [[]|[]| |[] ? ?]; cbn in A2; try contradiction; reflexivity].
    all: destruct (nltb F64 mc (num F64 (Z.of_nat (n c)))); cbn [fst snd]; auto.
    apply f_of_Z_not_neg. lia. }
  match goal with |- context [posi =? fst ?X] => assert (E : (posi =? fst X) = false) end.
  { apply Nat.eqb_neq. intros E. symmetry in E. revert E. apply G; [cbn; lia|exact I]. }
  rewrite E. cbn [bind]. f_equal. f_equal. change (fdiv f0 (f_of_Z (Z.of_nat (length cases))) = f0).
  destruct (of_nat_positive (length cases)) as [(m & e & ->)| ->]; [destruct cases; [congruence|cbn; lia]| |]; reflexivity.
Qed.

(** Disutility entropy: what a leaf predicts is not a category but the share of the cost
    that its cases labelled True carry. *)
Definition cost_of (costs : list R) (data : list nat) (i : nat) : R := nth (nth i data 0%nat) costs 0%R.
Theorem C111_share_of_true : forall f costs cases, cm_ok (cMap f) -> length costs = NCats (cMap f) ->
  Forall (fun x => 0 <= x)%R costs -> labelled (cData f) (NCats (cMap f)) cases ->
  let total := Rsum (map (cost_of costs (cData f)) cases) in
  (0 < total)%R ->
  let is_true i := match nth_error (cmBack (cMap f)) (nth i (cData f) 0) with Some s => (s =? "True")%string | None => false end in
  let share := (Rsum (map (cost_of costs (cData f)) (filter is_true cases)) / total)%R in
  exists f', DEntropyPredicted XR f (exact costs) cases = Ok (Some share, f') /\ (0 <= share <= 1)%R /\
    (In "True" (cmBack (cMap f)) -> f' = f) /\
    (~ In "True" (cmBack (cMap f)) -> share = 0%R /\ NCats (cMap f') = S (NCats (cMap f))).
Proof.
  intros f costs cases Hf Lc Hc Hl total Ht is_true share.
  unfold DEntropyPredicted. destruct (CatToNum (cMap f) "True") as [cm t] eqn:E.
  destruct (CatToNum_ok _ _ _ _ Hf E) as (Hok' & H1 & H2 & H3).
  assert (Hi : forall i, In i cases -> is_true i = (nth i (cData f) 0 =? t)).
  { intros i Hi. unfold labelled in Hl. rewrite Forall_forall in Hl. apply Hl in Hi as [_ Hi]. unfold is_true, NCats in *.
    destruct (nth_error (cmBack (cMap f)) (nth i (cData f) 0)) as [s|] eqn:Es; [|apply nth_error_None in Es; lia].
    destruct (CatToNum_extends _ _ _ _ E) as [ext Hext].
    assert (Es' : nth_error (cmBack cm) (nth i (cData f) 0) = Some s) by (rewrite Hext, nth_error_app1; auto).
    destruct (String.eqb_spec s "True") as [->|Hs]; symmetry.
    - apply Nat.eqb_eq. pose proof (cm_ok_nodup _ Hok') as ND. apply (proj1 (NoDup_nth_error _) ND); [apply nth_error_Some; congruence|congruence].
    - apply Nat.eqb_neq. intros Et. rewrite Et in Es'. congruence. }
  assert (F : filter is_true cases = filter (fun i => nth i (cData f) 0 =? t) cases) by (apply filter_ext_in; exact Hi).
  assert (G : forall l x y, Forall (fun i => In i cases) l ->
    foreach l (fun i '((count, total) : XR * XR) =>
        let* ti := get (cData f) i in
        let* cost := get (exact costs) ti in
        let count := if ti =? t then nadd XR count cost else count in
        Ok (count, nadd XR total cost)) (Some x, Some y) =
    Ok (Some (x + Rsum (map (cost_of costs (cData f)) (filter (fun i => nth i (cData f) 0%nat =? t) l)))%R,
        Some (y + Rsum (map (cost_of costs (cData f)) l))%R)).
  { induction l as [|i l IH]; intros x y Hin; cbn [foreach filter map Rsum].
    - do 3 f_equal; [lra|f_equal; lra].
    - inversion Hin as [|? ? Ha Hb]; subst. assert (Hli := Ha). unfold labelled in Hl. rewrite Forall_forall in Hl. apply Hl in Hli as [L1 L2].
      rewrite (get_nth _ _ (nth_error_nth' _ 0 L1)). cbn [bind].
      assert (Eg : get (exact costs) (nth i (cData f) 0) = Ok (Some (cost_of costs (cData f) i))).
      { unfold exact, cost_of. apply get_nth. rewrite nth_error_map, (nth_error_nth' costs 0%R) by lia. reflexivity. }
      match goal with |- context [bind ?X _] => assert (EX : X = _) by exact Eg; rewrite EX; clear EX end. cbn [bind].
      destruct (nth i (cData f) 0 =? t) eqn:Eb; cbn [nadd XR lift2 map Rsum]; etransitivity; try apply IH; auto; do 3 f_equal; try lra; f_equal; lra. }
  change (nofZ XR 0) with (Some 0%R : XR).
  match goal with |- context [bind ?X _] => assert (EX : X = _) by (apply (G cases 0%R 0%R); apply Forall_forall; auto); rewrite EX; clear EX end.
  cbn [bind ndiv XR]. rewrite !Rplus_0_l. fold total. rewrite xdiv_some by lra.
  exists (with_names f cm). unfold share. rewrite F. split; [reflexivity|].
  assert (Hnn : forall l, (0 <= Rsum (map (cost_of costs (cData f)) l))%R).
  { induction l as [|i l IH]; cbn [map Rsum]; [lra|]. enough (0 <= cost_of costs (cData f) i)%R by lra. unfold cost_of.
    destruct (Nat.lt_ge_cases (nth i (cData f) 0) (length costs)); [|rewrite nth_overflow by lia; lra].
    rewrite Forall_forall in Hc. apply Hc, nth_In. auto. }
  assert (Hle : (Rsum (map (cost_of costs (cData f)) (filter (fun i => (nth i (cData f) 0 =? t)%nat) cases)) <= total)%R).
  { unfold total. clear - Hnn. induction cases as [|i l IH]; cbn [filter map Rsum]; [lra|].
    pose proof (Hnn [i]) as Hi. cbn [map Rsum] in Hi. destruct (nth i (cData f) 0 =? t); cbn [map Rsum]; lra. }
  split; [split; [apply Rmult_le_pos; [apply Hnn|left; apply Rinv_0_lt_compat; auto]|]|split].
  - apply Rmult_le_reg_r with total; auto. unfold Rdiv. rewrite Rmult_assoc, Rinv_l by lra. lra.
  - intros Hin. specialize (H2 Hin). subst cm. destruct f; reflexivity.
  - intros Hin. destruct (H3 Hin) as [H4 H5]. split; [|unfold NCats, with_names; cbn; rewrite H4, app_length; cbn; lia].
    replace (filter (fun i => nth i (cData f) 0 =? t) cases) with (@nil nat); [cbn; lra|].
    symmetry. rewrite <- F. clear - Hin. induction cases as [|i l IH]; [reflexivity|]. cbn [filter].
    unfold is_true at 1. destruct (nth_error (cmBack (cMap f)) (nth i (cData f) 0)) as [s|] eqn:Es; [|exact IH].
    destruct (String.eqb_spec s "True"); [|exact IH]. subst s. exfalso. apply Hin. eapply nth_error_In; eauto.
Qed.

(** With the costs a new target has, before SetCosts, every leaf predicts NaN. *)
Theorem C111_no_costs_refuted : forall f cases, labelled (cData f) (NCats (cMap f)) cases ->
  exists f', DEntropyPredicted F64 f (NewCosts F64 f) cases = Ok (S754_nan, f').
Proof.
  intros f cases Hl. unfold DEntropyPredicted. destruct (CatToNum (cMap f) "True") as [cm t].
  assert (G : foreach cases (fun i '((count, total) : F64 * F64) =>
        let* ti := get (cData f) i in
        let* cost := get (NewCosts F64 f) ti in
        let count := if ti =? t then nadd F64 count cost else count in
        Ok (count, nadd F64 total cost)) (f0, f0) = Ok (f0, f0)).
  { induction Hl as [|i l [H1 H2] Hl IH]; [reflexivity|]. cbn [foreach].
    rewrite (get_nth _ _ (nth_error_nth' _ 0 H1)). cbn [bind].
    assert (Eg : get (NewCosts F64 f) (nth i (cData f) 0) = Ok f0).
    { unfold NewCosts. apply get_nth. rewrite nth_error_repeat by lia. reflexivity. }
    match goal with |- context [bind ?X _] => assert (EX : X = _) by exact Eg; rewrite EX; clear EX end. cbn [bind].
    change (nadd F64 f0 f0) with f0. destruct (nth i (cData f) 0 =? t); exact IH. }
  match goal with |- context [bind ?X _] => assert (EX : X = _) by exact G; rewrite EX; clear EX end. cbn [bind].
  eexists. reflexivity.
Qed.

(** Two categories, a, b; the positive label was misspelt. *)
Definition ex_ab : catF := mkCat (mkCM [("a", 0); ("b", 1)] ["a"; "b"]) [0; 1; 0; 1] [false; false; false; false] "t" false false.
Lemma ex_ab_ok : cm_ok (cMap ex_ab).
Proof.
  split. intros v n. cbn [cMap ex_ab cmMap cmBack assoc].
  destruct (String.eqb_spec v "a") as [->|H1]; [|destruct (String.eqb_spec v "b") as [->|H2]].
  - destruct n as [|[|[|n]]]; cbn; split; congruence.
  - destruct n as [|[|[|n]]]; cbn; split; congruence.
  - destruct n as [|[|[|n]]]; cbn; split; congruence.
Qed.
Example C111_ex : In "a" (cmBack (cMap ex_ab)) /\ ~ In "c" (cmBack (cMap ex_ab)) /\ ~ In "True" (cmBack (cMap ex_ab)) /\
  labelled (cData ex_ab) (NCats (cMap ex_ab)) [0; 1; 2] /\
  NPImpurity F64 (fst (NewNPTarget ex_ab "b")) (f_of_Z 1) (f_of_Z 1) (cData ex_ab) [0; 1; 2] [0%Z; 0%Z] = Ok (fdiv (f_of_Z 1) (f_of_Z 3), [2%Z; 1%Z]) /\
  NPImpurity F64 (fst (NewNPTarget ex_ab "c")) (f_of_Z 1) (f_of_Z 1) (cData ex_ab) [0; 1; 2] [0%Z; 0%Z; 0%Z] = Ok (f0, [2%Z; 1%Z; 0%Z]).
Proof.
  split; [cbn; auto|]. split; [cbn; intuition discriminate|]. split; [cbn; intuition discriminate|].
  split; [repeat constructor|]. vm_compute. auto.
Qed.

(** ** C112 *)

(** The count of a category, with the positive one divided by [alpha]. *)
Definition corrected (posi : nat) (alpha : R) (ls : list nat) (c : nat) : R :=
  if c =? posi then (INR (occurs ls c) / alpha)%R else INR (occurs ls c).
(** When the leaf predicts the positive label: [kappa] times what the share of the others is
    above [alpha]; otherwise the share of the positive label. *)
Definition np_impurity (posi : nat) (alpha kappa : R) (ls : list nat) (m : nat) : R :=
  if posi =? m then (kappa * Rmax (1 - share ls posi - alpha) 0)%R else share ls posi.

Lemma np_predicted_value posi alpha data k cases : 0 < k -> (0 < alpha)%R -> labelled data k cases ->
  exists m, NPPredicted XR posi (Some alpha) data k cases = Ok m /\ first_max (corrected posi alpha (labels data cases)) k m /\
    forall acc, acc = (0, nofZ XR 0) ->
    fst (fold_left (fun '((mi, mc) : nat * XR) '((cat, count) : nat * Z) =>
        let cc := num XR count in
        let cc := if cat =? posi then ndiv XR cc (Some alpha) else cc in
        if nltb XR mc cc then (cat, cc) else (mi, mc)) (indexed 0 (counts data k cases)) acc) = m.
Proof.
  intros Hk Ha Hl. unfold NPPredicted. rewrite CountPerCat_ok by (rewrite repeat_length; assumption). rewrite repeat_length. cbn [bind].
  set (v := fun c => Some (corrected posi alpha (labels data cases) c) : xr).
  assert (F : forall m (x : xr), fold_left (fun '((mi, mc) : nat * XR) '((cat, count) : nat * Z) =>
        let cc := num XR count in
        let cc := if cat =? posi then ndiv XR cc (Some alpha) else cc in
        if nltb XR mc cc then (cat, cc) else (mi, mc)) (indexed 0 (counts data k cases)) (m, x) = scan xr (nltb XR) v 0 k m x).
  { intros m x. rewrite (fold_scan (nltb XR) v); [rewrite counts_length; reflexivity|].
    intros c t m' x' Hin. unfold counts in Hin. rewrite indexed_map_seq in Hin. apply in_map_iff in Hin.
    destruct Hin as (c' & E & Hc). inversion E; subst; clear E. unfold v, corrected, num. cbn [nofZ XR]. rewrite IZR_of_nat.
    destruct (c =? posi); [cbn [ndiv XR]; rewrite xdiv_some by lra|]; reflexivity. }
  rewrite F. destruct (scan xr (nltb XR) v 0 k 0 (nofZ XR 0)) as [m x] eqn:E. exists m. split; [reflexivity|]. split.
  - apply x_scan_max in E; auto.
    + destruct E as (H1 & H2 & H3). split; [exact H1|split].
      * intros c Hcc. specialize (H2 c Hcc). cbn in H2. apply Rltb_false in H2. exact H2.
      * intros c Hcc. specialize (H3 c Hcc). cbn in H3. apply Rltb_true in H3. exact H3.
    + eexists; reflexivity.
    + intros; eexists; reflexivity.
    + intros c Hcc. cbn. apply Rltb_false. unfold corrected.
      destruct (c =? posi); [apply Rmult_le_pos; [apply pos_INR|left; apply Rinv_0_lt_compat; auto]|apply pos_INR].
  - intros acc ->. rewrite F, E. reflexivity.
Qed.

(** The impurity judges a set of cases by the very label that a leaf with these cases
    predicts; it is never negative, and 0 for cases of one label. *)
Theorem C112_judges_its_prediction : forall posi alpha kappa data k cases counter,
  posi < k -> (0 < alpha)%R -> (0 <= kappa)%R -> length counter = k -> labelled data k cases -> cases <> [] ->
  exists m counter', NPPredicted XR posi (Some alpha) data k cases = Ok m /\
    first_max (corrected posi alpha (labels data cases)) k m /\
    NPImpurity XR posi (Some alpha) (Some kappa) data cases counter =
      Ok (Some (np_impurity posi alpha kappa (labels data cases) m), counter') /\
    (0 <= np_impurity posi alpha kappa (labels data cases) m)%R /\
    (pure (labels data cases) -> np_impurity posi alpha kappa (labels data cases) m = 0%R).
Proof.
  intros posi alpha kappa data k cases counter Hp Ha Hka Hc Hl Hne.
  pose proof (len_pos cases Hne) as Hlen.
  destruct (np_predicted_value posi alpha data k cases ltac:(lia) Ha Hl) as (m & E1 & E2 & E3).
  exists m, (counts data k cases). split; [exact E1|]. split; [exact E2|].
  assert (Hb : Forall (fun c => c < k) (labels data cases)) by (apply labels_bound; assumption).
  assert (Hs : (0 <= share (labels data cases) posi)%R).
  { unfold share. rewrite labels_length. apply Rmult_le_pos; [apply pos_INR|left; apply Rinv_0_lt_compat; auto]. }
  split; [|split].
  - unfold NPImpurity. rewrite CountPerCat_ok by (rewrite Hc; assumption). rewrite Hc. cbn [bind].
    unfold NPFromCounts. rewrite np_scan_parts. rewrite E3 by reflexivity. cbn [bind].
    assert (Ei : indexed 0 (counts data k cases) = map (fun c => (c, Z.of_nat (occurs (labels data cases) c))) (seq 0 k)) by (apply indexed_map_seq).
    rewrite Ei. set (n := occurs (labels data cases)) in *.
    assert (T1 := total_at_one n posi k 0). assert (T2 := total_at_both (fun c => c =? posi) n (seq 0 k)).
    unfold n in T2 at 3. rewrite (list_sum_occurs k) in T2 by assumption. rewrite labels_length in T2.
    replace (_ && _) with true in T1 by (symmetry; apply andb_true_intro; split; [apply Nat.leb_le; lia|apply Nat.ltb_lt; lia]).
    match goal with |- context [nsub XR (ndiv XR (num XR ?a) _) _] => change a with (total_at (fun c => negb (c =? posi)) n (seq 0 k)) end.
    match goal with |- context [ndiv XR (num XR (fold_right ?a1 ?a2 ?a3)) _] => change (fold_right a1 a2 a3) with (total_at (fun c => (c =? posi)) n (seq 0 k)) end.
    replace (total_at (fun c => negb (c =? posi)) n (seq 0 k)) with (Z.of_nat (length cases) - Z.of_nat (n posi))%Z by lia.
    rewrite T1. do 3 f_equal. unfold np_impurity, num, max0. cbn [nofZ ndiv nsub nmul nnan nltb XR]. rewrite minus_IZR, !IZR_of_nat.
    rewrite !xdiv_some by lra. unfold share. rewrite labels_length. fold n.
    replace (1 - INR (n posi) / INR (length cases) - alpha)%R with ((INR (length cases) - INR (n posi)) / INR (length cases) - alpha)%R by (field; lra).
    destruct (posi =? m); [|reflexivity]. cbn [lift2 xcmp]. unfold Rltb.
    destruct (Rlt_dec 0 _) as [H|H]; f_equal; f_equal.
    + rewrite Rmax_left by lra. reflexivity.
    + rewrite Rmax_right by lra. reflexivity.
  - unfold np_impurity. destruct (posi =? m); [|exact Hs]. apply Rmult_le_pos; auto. apply Rmax_r.
  - intros Hpure. unfold np_impurity.
    assert (Hd : (exists c, c < k /\ forall c', occurs (labels data cases) c' = if c' =? c then length cases else 0)).
    { destruct (labels data cases) as [|c ls] eqn:El.
      { rewrite <- (labels_length data cases), El in Hlen. cbn in Hlen. lra. }
      exists c. split; [inversion Hb; auto|]. intros c'. rewrite <- (labels_length data cases), El. unfold occurs.
      destruct (Nat.eqb_spec c' c) as [->|Hcc].
      - assert (A : forall l, (forall a, In a l -> a = c) -> count_occ Nat.eq_dec l c = length l).
        { induction l as [|a l IH]; intros H; [reflexivity|]. rewrite (H a) by (left; auto). cbn. destruct (Nat.eq_dec c c); [|congruence].
          rewrite IH; auto. intros; apply H; right; auto. }
        apply A. intros a Hin. apply Hpure; auto. left; auto.
      - apply count_occ_not_In. intros Hin. apply Hcc. apply Hpure; auto. left; auto. }
    destruct Hd as (c & Hck & Hd). unfold share. rewrite labels_length, Hd.
    assert (Em : m = c).
    { destruct E2 as (M1 & M2 & M3). specialize (M2 c Hck). unfold corrected in M2. rewrite !Hd, Nat.eqb_refl in M2.
      destruct (Nat.eqb_spec m c); auto. exfalso. assert (0 < INR (length cases) / alpha)%R by (apply Rdiv_lt_0_compat; auto).
      cbn [INR] in M2. unfold Rdiv in M2. rewrite Rmult_0_l in M2. fold (INR (length cases) / alpha)%R in M2.
      destruct (c =? posi), (m =? posi); lra. }
    subst m. destruct (Nat.eqb_spec posi c) as [->|Hpc].
    + rewrite Rmax_right; [ring|]. replace (INR (length cases) / INR (length cases))%R with 1%R by (field; lra). lra.
    + cbn. lra.
Qed.

(** The label a leaf with these cases predicts. *)
Definition np_label (posi : nat) (alpha : R) (data : list nat) (k : nat) (cases : list nat) : nat :=
  match NPPredicted XR posi (Some alpha) data k cases with Ok m => m | _ => 0 end.
Theorem C112_split_score : forall posi alpha kappa data l r m k,
  posi < length (kL k) -> (0 < alpha)%R -> (0 <= kappa)%R -> l <> [] -> r <> [] ->
  length (kR k) = length (kL k) -> length (kM k) = length (kL k) ->
  (forall p, In p (parts l r m) -> labelled data (length (kL k)) p) ->
  let value p := np_impurity posi alpha kappa (labels data p) (np_label posi alpha data (length (kL k)) p) in
  exists k', SplitImpurity XR (NPImpurity XR posi (Some alpha) (Some kappa) data) l r m k =
      Ok (Some (weighted_average value (parts l r m)), k') /\
    (0 <= weighted_average value (parts l r m))%R.
Proof.
  intros posi alpha kappa data l r m k Hp Ha Hka Hl Hr Kr Km Hlab value.
  assert (Hne : forall p, In p (parts l r m) -> p <> []).
  { unfold parts. intros p [<-|[<-|Hi]]; auto. destruct m as [[|c mm]|]; cbn in Hi; intuition (subst; discriminate). }
  assert (V : forall p c, In p (parts l r m) -> length c = length (kL k) ->
    (exists c', NPImpurity XR posi (Some alpha) (Some kappa) data p c = Ok (Some (value p), c')) /\ (0 <= value p)%R).
  { intros p c Hi Hc. destruct (C112_judges_its_prediction posi alpha kappa data (length (kL k)) p c) as (mi & c' & E1 & _ & E2 & E3 & _); auto.
    unfold value, np_label. rewrite E1. split; eauto. }
  destruct (split_average (NPImpurity XR posi (Some alpha) (Some kappa) data) value l r m k) as (k' & E); auto.
  { intros p c Hi Hc. apply V; auto. }
  exists k'. split; [exact E|]. unfold weighted_average.
  assert (G : forall ps : list (list nat), (forall p, In p ps -> In p (parts l r m)) ->
    (0 <= Rsum (map (fun p => INR (length p) * value p)%R ps) /\ 0 <= Rsum (map (fun p : list nat => INR (length p)) ps))%R).
  { induction ps as [|p ps IH]; cbn [map Rsum]; intros H; [lra|]. destruct IH; [intros; apply H; right; auto|].
    pose proof (pos_INR (length p)). destruct (V p (kL k)) as [_ Vp]; auto; [apply H; left; auto|].
    pose proof (Rmult_le_pos _ _ H2 Vp). lra. }
  destruct (G (parts l r m)) as [G1 G2]; auto. destruct G2 as [G2|G2].
  - apply Rmult_le_pos; auto. left. apply Rinv_0_lt_compat. auto.
  - rewrite <- G2. unfold Rdiv. rewrite Rinv_0. lra.
Qed.

(** A mixture may be perfect: with a share of negatives up to alpha the cases count as
    pure, so that no split of them is better ... *)
Theorem C112_mixture_tolerated_refuted : forall posi alpha kappa ls, (1 - share ls posi <= alpha)%R ->
  np_impurity posi alpha kappa ls posi = 0%R.
Proof. intros posi alpha kappa ls H. unfold np_impurity. rewrite Nat.eqb_refl, Rmax_right by lra. ring. Qed.
(** ... and a split can be worse than the cases together. *)
Definition half : f64 := fdiv f1 f2.
Theorem C112_split_may_increase_refuted :
  ~ (forall posi alpha kappa data k l r c kk p s c' k',
       posi < k -> fltb f0 alpha = true -> fltb f0 kappa = true -> l <> [] -> r <> [] -> labelled data k (l ++ r) ->
       length c = k -> length (kL kk) = k -> length (kR kk) = k ->
       NPImpurity F64 posi alpha kappa data (l ++ r) c = Ok (p, c') ->
       SplitImpurity F64 (NPImpurity F64 posi alpha kappa data) l r None kk = Ok (s, k') ->
       fleb s p = true).
Proof.
  intros H. specialize (H 1 half f1 [0; 0; 1; 1] 2 [0; 1; 2] [3] [0%Z; 0%Z] (mkK [0%Z; 0%Z] [0%Z; 0%Z] [])).
  specialize (H f0 (fdiv (fadd (fmul (f_of_Z 3) (fdiv (f_of_Z 1) (f_of_Z 3))) f0) (f_of_Z 4)) [2%Z; 2%Z] (mkK [2%Z; 1%Z] [0%Z; 1%Z] [])).
  assert (X : fleb (fdiv (fadd (fmul (f_of_Z 3) (fdiv (f_of_Z 1) (f_of_Z 3))) f0) (f_of_Z 4)) f0 = true); [|vm_compute in X; discriminate].
  apply H; try (vm_compute; reflexivity); try discriminate; auto.
  repeat constructor; cbn; lia.
Qed.
Example C112_ex : labelled [0; 0; 1; 1] 2 [0; 1; 2] /\ NPPredicted F64 1 half [0; 0; 1; 1] 2 [0; 1; 2] = Ok 0.
Proof. split; [repeat constructor; cbn; lia|vm_compute; reflexivity]. Qed.

(** ** C113 *)

(** How many of the values equal [x] (NaN equals nothing). *)
Definition equals (xs : list f64) (x : f64) : nat := length (filter (fun y => feqb y x) xs).
(** The known values of the cases. *)
Definition known_values (data : list f64) (missing : list bool) (cases : list nat) : list f64 :=
  map (fun i => nth i data f0) (known missing cases).

Lemma feqb_sym x y : feqb x y = feqb y x.
Proof.
  destruct (feqb x y) eqn:E1, (feqb y x) eqn:E2; auto; [apply feqb_iff in E1|apply feqb_iff in E2]; [apply feqb_false in E2|apply feqb_false in E1];
    exfalso; unfold lexeq in *; intuition.
Qed.
Lemma feqb_trans x y z : feqb x y = true -> feqb y z = true -> feqb x z = true.
Proof. intros H1 H2. apply feqb_iff in H1, H2. apply feqb_iff. unfold lexeq in *. intuition congruence. Qed.
Lemma feqb_same x y z : feqb x y = true -> feqb z x = feqb z y.
Proof.
  intros H. destruct (feqb z x) eqn:E1, (feqb z y) eqn:E2; auto.
  - rewrite (feqb_trans z x y) in E2; congruence.
  - rewrite feqb_sym in H. rewrite (feqb_trans z y x) in E1; congruence.
Qed.
Lemma feqb_refl x : nn x -> feqb x x = true.
Proof. intros H. apply feqb_iff. unfold lexeq. auto. Qed.
Lemma feqb_nn x y : feqb x y = true -> nn x /\ nn y.
Proof. intros H. apply feqb_iff in H. tauto. Qed.

(** What an entry of the map counts: a NaN only itself. *)
Definition weight (xs : list f64) (x : f64) : nat := if is_nan x then 1 else equals xs x.
Record tallied (xs : list f64) (es : list (f64 * nat)) : Prop := {
  tal_value : forall k v, In (k, v) es -> v = weight xs k /\ In k xs;
  tal_all : forall x, In x xs -> exists k v, In (k, v) es /\ (feqb k x = true \/ is_nan x = true);
  tal_apart : ForallOrdPairs (fun a b : f64 * nat => feqb (fst a) (fst b) = false) es
}.

Lemma count_in_cases x es :
  (exists pre k v post, es = pre ++ (k, v) :: post /\ feqb k x = true /\ (forall e, In e pre -> feqb (fst e) x = false) /\
     count_in x es = pre ++ (k, v + 1) :: post) \/
  ((forall e, In e es -> feqb (fst e) x = false) /\ count_in x es = es ++ [(x, 1)]).
Proof.
  induction es as [|[k v] es IH]; cbn [count_in].
  - right. split; [intros ? []|reflexivity].
  - destruct (feqb k x) eqn:E.
    + left. exists [], k, v, es. repeat split; auto. intros ? [].
    + destruct IH as [(pre & k' & v' & post & -> & H1 & H2 & ->)|[H1 ->]].
      * left. exists ((k, v) :: pre), k', v', post. repeat split; auto. intros e [<-|He]; auto.
      * right. split; [|reflexivity]. intros e [<-|He]; auto.
Qed.

Lemma apart_app_one (es : list (f64 * nat)) e : ForallOrdPairs (fun a b : f64 * nat => feqb (fst a) (fst b) = false) es ->
  (forall a, In a es -> feqb (fst a) (fst e) = false) ->
  ForallOrdPairs (fun a b : f64 * nat => feqb (fst a) (fst b) = false) (es ++ [e]).
Proof.
  induction 1 as [|a l H1 H2 IH]; intros H; cbn [app].
  - constructor; constructor.
  - constructor; [|apply IH; intros; apply H; right; auto]. apply Forall_app. split; auto. constructor; [|constructor]. apply H. left; auto.
Qed.
Lemma apart_keys (es es' : list (f64 * nat)) : map fst es = map fst es' ->
  ForallOrdPairs (fun a b : f64 * nat => feqb (fst a) (fst b) = false) es ->
  ForallOrdPairs (fun a b : f64 * nat => feqb (fst a) (fst b) = false) es'.
Proof.
  intros E H. revert es' E. induction H as [|a l H1 H2 IH]; intros [|a' l'] E; cbn in E; try discriminate; constructor; injection E as Ea El; auto.
  rewrite Forall_forall in *. intros b Hb. apply (in_map fst) in Hb. rewrite <- El in Hb.
  apply in_map_iff in Hb as (b' & Eb & Hb). rewrite <- Ea, <- Eb. apply H1; auto.
Qed.

Lemma equals_app xs x k : equals (xs ++ [x]) k = equals xs k + (if feqb x k then 1 else 0).
Proof. unfold equals. rewrite filter_app, app_length. cbn [filter]. destruct (feqb x k); reflexivity. Qed.

Lemma apart_mid pre (e : f64 * nat) post : ForallOrdPairs (fun a b : f64 * nat => feqb (fst a) (fst b) = false) (pre ++ e :: post) ->
  forall a, In a pre \/ In a post -> feqb (fst a) (fst e) = false.
Proof.
  induction pre as [|b pre IH]; cbn [app]; intros H a Ha; inversion H as [|? ? H1 H2]; subst.
  - destruct Ha as [[]|Ha]. rewrite Forall_forall in H1. rewrite feqb_sym. apply H1; auto.
  - destruct Ha as [[<-|Ha]|Ha].
    + rewrite Forall_forall in H1. apply H1. apply in_or_app. right. left. auto.
    + apply IH; auto.
    + apply IH; auto.
Qed.

Lemma nn_is_nan x : nn x <-> is_nan x = false.
Proof. destruct x; cbn; split; intros; auto; try discriminate; reflexivity. Qed.

Lemma tally_step xs es x : tallied xs es -> tallied (xs ++ [x]) (count_in x es).
Proof.
  intros [T1 T2 T3]. destruct (count_in_cases x es) as [(pre & k & v & post & -> & H1 & H2 & ->)|[H1 ->]].
  - pose proof (feqb_nn _ _ H1) as [N1 N2]. apply nn_is_nan in N1, N2.
    pose proof (apart_mid pre (k, v) post T3) as Ap. cbn [fst] in Ap.
    assert (Hoth : forall k' v', In (k', v') pre \/ In (k', v') post -> v' = weight (xs ++ [x]) k' /\ In k' (xs ++ [x])).
    { intros k' v' Hi. assert (Hin : In (k', v') (pre ++ (k, v) :: post)) by (apply in_or_app; cbn; tauto).
      destruct (T1 k' v' Hin) as [Hv Hk]. split; [|apply in_or_app; auto]. rewrite Hv. unfold weight. destruct (is_nan k'); auto.
      rewrite equals_app. replace (feqb x k') with false; [lia|]. symmetry. specialize (Ap (k', v') Hi). cbn [fst] in Ap.
      destruct (feqb x k') eqn:E; auto. rewrite feqb_sym in Ap. rewrite (feqb_trans k x k') in Ap; congruence. }
    destruct (T1 k v) as [Hv Hk]; [apply in_or_app; right; left; auto|].
    split.
    + intros k' v' Hi. apply in_app_or in Hi as [Hi|[E|Hi]]; [apply Hoth; auto| |apply Hoth; auto].
      inversion E; subst k' v'. split; [|apply in_or_app; auto]. rewrite Hv. unfold weight. rewrite N1, equals_app, feqb_sym, H1. lia.
    + intros y Hy. apply in_app_or in Hy as [Hy|[<-|[]]].
      * destruct (T2 y Hy) as (k' & v' & Hi & Ho). apply in_app_or in Hi as [Hi|[E|Hi]].
        -- exists k', v'. split; auto. apply in_or_app; auto.
        -- inversion E; subst k' v'. exists k, (v + 1). split; auto. apply in_or_app; right; left; auto.
        -- exists k', v'. split; auto. apply in_or_app; right; right; auto.
      * exists k, (v + 1). split; auto. apply in_or_app; right; left; auto.
    + eapply apart_keys; [|exact T3]. rewrite !map_app. reflexivity.
  - split.
    + intros k v Hi. apply in_app_or in Hi as [Hi|[E|[]]].
      * destruct (T1 k v Hi) as [Hv Hk]. split; [|apply in_or_app; auto]. rewrite Hv. unfold weight. destruct (is_nan k); auto.
        rewrite equals_app. specialize (H1 (k, v) Hi). cbn [fst] in H1. rewrite feqb_sym, H1. lia.
      * inversion E; subst k v. split; [|apply in_or_app; right; left; auto]. unfold weight. destruct (is_nan x) eqn:N; auto.
        rewrite equals_app, feqb_refl by (apply nn_is_nan; auto). enough (equals xs x = 0) by lia. unfold equals.
        assert (A : filter (fun y => feqb y x) xs = []); [|rewrite A; auto].
        assert (B : forall y, In y xs -> feqb y x = false).
        { intros y Hy. destruct (feqb y x) eqn:E'; auto. destruct (T2 y Hy) as (k' & v' & Hi & [Ho|Ho]).
          - specialize (H1 (k', v') Hi). cbn [fst] in H1. rewrite (feqb_trans k' y x) in H1; congruence.
          - apply feqb_nn in E' as [E' _]. apply nn_is_nan in E'. congruence. }
        clear - B. induction xs as [|y xs IH]; [reflexivity|]. cbn [filter]. rewrite B by (left; auto). apply IH. intros; apply B; right; auto.
    + intros y Hy. apply in_app_or in Hy as [Hy|[<-|[]]].
      * destruct (T2 y Hy) as (k' & v' & Hi & Ho). exists k', v'. split; auto. apply in_or_app; auto.
      * exists x, 1. split; [apply in_or_app; right; left; auto|]. destruct (is_nan x) eqn:N; auto. left. apply feqb_refl, nn_is_nan, N.
    + apply apart_app_one; auto.
Qed.

Lemma num_counts_ok data missing cases : Forall (fun i => i < length data /\ i < length missing) cases ->
  exists es, num_counts data missing cases = Ok es /\ tallied (known_values data missing cases) es.
Proof.
  intros H. unfold num_counts, known_values.
  assert (G : forall done rest es, Forall (fun i => i < length data /\ i < length missing) rest ->
    tallied (map (fun i => nth i data f0) (known missing done)) es ->
    exists es', foreach rest (fun i counts =>
      let* m := get missing i in
      if m then Ok counts else let* x := get data i in Ok (count_in x counts)) es = Ok es' /\
      tallied (map (fun i => nth i data f0) (known missing (done ++ rest))) es').
  { intros done rest. revert done. induction rest as [|i rest IH]; intros done es Hr T.
    - exists es. rewrite app_nil_r. split; auto.
    - inversion Hr as [|? ? [H1 H2] H3]; subst. cbn [foreach]. rewrite (get_nth _ _ (nth_error_nth' _ true H2)). cbn [bind].
      assert (Ea : done ++ i :: rest = (done ++ [i]) ++ rest) by (rewrite <- app_assoc; reflexivity). rewrite Ea.
      assert (Ek : known missing (done ++ [i]) = known missing done ++ (if nth i missing true then [] else [i])).
      { unfold known. rewrite filter_app. cbn [filter]. destruct (nth i missing true); reflexivity. }
      destruct (nth i missing true) eqn:Em.
      + cbn [bind]. apply IH; auto. rewrite Ek, app_nil_r. auto.
      + rewrite (get_nth _ _ (nth_error_nth' _ f0 H1)). cbn [bind]. apply IH; auto. rewrite Ek, map_app. apply tally_step; auto. }
  apply (G [] cases []); auto. split; [intros ? ? []|intros ? []|constructor].
Qed.

Lemma num_mode_max es : es <> [] -> (forall k v, In (k, v) es -> 0 < v) ->
  exists v, In (num_mode es, v) es /\ forall k' v', In (k', v') es -> v' <= v.
Proof.
  intros Hne Hpos. unfold num_mode.
  assert (G : forall es (acc : f64 * nat),
    let e := fold_left (fun (acc : f64 * nat) (e : f64 * nat) => if snd acc <? snd e then e else acc) es acc in
    (In e es \/ e = acc) /\ snd acc <= snd e /\ forall e', In e' es -> snd e' <= snd e).
  { clear. induction es as [|a es IH]; intros acc; cbn [fold_left].
    - cbn. intuition.
    - cbv zeta. destruct (IH (if snd acc <? snd a then a else acc)) as (H1 & H2 & H3).
      destruct (Nat.ltb_spec (snd acc) (snd a)) as [Hl|Hl].
      + split; [destruct H1 as [H1|H1]; left; [right|left]; auto|]. split; [lia|]. intros e' [<-|He]; auto.
      + split; [destruct H1 as [H1|H1]; [left; right|right]; auto|]. split; [lia|]. intros e' [<-|He]; auto. lia. }
  destruct (G es (f0, 0)) as ([H1|H1] & H2 & H3).
  - destruct (fold_left _ es (f0, 0)) as [k v] eqn:E. exists v. cbn [fst]. split; auto. intros k' v' Hi. apply (H3 (k', v') Hi).
  - exfalso. destruct es as [|[k v] es]; [congruence|]. specialize (H3 (k, v) (or_introl eq_refl)). cbn [fold_left] in *.
    rewrite H1 in H3. cbn in H3. specialize (Hpos k v (or_introl eq_refl)). lia.
Qed.

Lemma weight_pos xs k : In k xs -> 0 < weight xs k.
Proof.
  intros H. unfold weight. destruct (is_nan k) eqn:N; [lia|]. unfold equals.
  assert (A : In k (filter (fun y => feqb y k) xs)) by (apply filter_In; split; auto; apply feqb_refl, nn_is_nan, N).
  destruct (filter _ xs); [destruct A|cbn; lia].
Qed.
Lemma equals_same xs x y : feqb x y = true -> equals xs x = equals xs y.
Proof. intros H. unfold equals. f_equal. apply filter_ext. intros z. apply feqb_same. exact H. Qed.

(** A value that occurs more often than every other one is the answer, whatever order the
    map is read in; a NaN counts as occurring once. *)
Theorem C113_clear_winner : forall data missing cases x, Forall (fun i => i < length data /\ i < length missing) cases ->
  let xs := known_values data missing cases in
  In x xs -> is_nan x = false ->
  (forall y, In y xs -> feqb y x = false -> weight xs y < equals xs x) ->
  exists es, num_counts data missing cases = Ok es /\ forall es', Permutation es es' -> feqb (num_mode es') x = true.
Proof.
  intros data missing cases x H xs Hx Nx Hbest. destruct (num_counts_ok data missing cases H) as (es & E & T). fold xs in T.
  exists es. split; auto. intros es' P. destruct T as [T1 T2 _].
  assert (T1' : forall k v, In (k, v) es' -> v = weight xs k /\ In k xs).
  { intros k v Hi. apply T1. eapply Permutation_in; [apply Permutation_sym; exact P|exact Hi]. }
  destruct (T2 x Hx) as (k & v & Hi & [Hk|Hk]); [|congruence].
  assert (Hi' : In (k, v) es') by (eapply Permutation_in; eauto).
  destruct (num_mode_max es') as (w & Hw & Hmax).
  - intros ->. destruct Hi'.
  - intros k' v' Hi''. destruct (T1' k' v' Hi'') as [-> Hin]. apply weight_pos; auto.
  - destruct (T1' _ _ Hw) as [Ew Hin]. destruct (feqb (num_mode es') x) eqn:Em; auto. exfalso.
    specialize (Hbest _ Hin Em). rewrite <- Ew in Hbest. specialize (Hmax k v Hi'). destruct (T1' _ _ Hi') as [Ev _].
    unfold weight in Ev. destruct (is_nan k) eqn:Nk; [apply feqb_nn in Hk as [Hk _]; apply nn_is_nan in Hk; congruence|].
    rewrite (equals_same xs k x Hk) in Ev. lia.
Qed.

(** Two values that occur equally often: the answer depends on the order of the map, which
    Go leaves open. *)
Theorem C113_ties_refuted : forall data missing cases x y, Forall (fun i => i < length data /\ i < length missing) cases ->
  let xs := known_values data missing cases in
  In x xs -> In y xs -> is_nan x = false -> is_nan y = false -> feqb x y = false -> equals xs x = equals xs y ->
  (forall z, In z xs -> weight xs z <= equals xs x) ->
  exists es es1 es2, num_counts data missing cases = Ok es /\ Permutation es es1 /\ Permutation es es2 /\
    feqb (num_mode es1) x = true /\ feqb (num_mode es2) y = true.
Proof.
  intros data missing cases x y H xs Hx Hy Nx Ny Hxy Heq Hmax.
  destruct (num_counts_ok data missing cases H) as (es & E & T). fold xs in T.
  assert (G : forall z, In z xs -> is_nan z = false -> equals xs z = equals xs x ->
    exists es', Permutation es es' /\ feqb (num_mode es') z = true).
  { intros z Hz Nz Ez. destruct T as [T1 T2 _]. destruct (T2 z Hz) as (k & v & Hi & [Hk|Hk]); [|congruence].
    apply in_split in Hi as (pre & post & ->). exists ((k, v) :: pre ++ post). split; [apply Permutation_sym, Permutation_middle|].
    assert (Hv : v = equals xs x).
    { destruct (T1 k v) as [-> _]; [apply in_or_app; right; left; auto|]. unfold weight.
      destruct (is_nan k) eqn:Nk; [apply feqb_nn in Hk as [Hk _]; apply nn_is_nan in Hk; congruence|]. rewrite (equals_same xs k z Hk). auto. }
    enough (num_mode ((k, v) :: pre ++ post) = k) by congruence. unfold num_mode. cbn [fold_left snd].
    assert (0 < v).
    { rewrite Hv, <- Ez. pose proof (weight_pos xs z Hz) as W. unfold weight in W. rewrite Nz in W. auto. }
    destruct (Nat.ltb_spec 0 v) as [_|Hl]; [|lia].
    assert (B : forall e, In e (pre ++ post) -> snd e <= v).
    { intros [k' v'] Hi. destruct (T1 k' v') as [-> Hin]; [apply in_app_or in Hi; apply in_or_app; cbn; tauto|]. rewrite Hv. apply Hmax; auto. }
    clear - B. assert (A : forall l, (forall e, In e l -> snd e <= v) ->
      fold_left (fun (acc : f64 * nat) (e : f64 * nat) => if snd acc <? snd e then e else acc) l (k, v) = (k, v)).
    { induction l as [|a l IH]; intros Hl; [reflexivity|]. cbn [fold_left snd].
      destruct (Nat.ltb_spec v (snd a)) as [Hlt|_]; [specialize (Hl a (or_introl eq_refl)); lia|]. apply IH. intros; apply Hl; right; auto. }
    rewrite A; auto. }
  destruct (G x Hx Nx eq_refl) as (es1 & P1 & M1). destruct (G y Hy Ny (eq_sym Heq)) as (es2 & P2 & M2).
  exists es, es1, es2. repeat split; auto.
Qed.

(** However many NaN there are, a value that occurs twice beats them; and without a known
    case the answer is 0. *)
Theorem C113_nan_and_empty_refuted : forall data missing cases, Forall (fun i => i < length data /\ i < length missing) cases ->
  let xs := known_values data missing cases in
  (forall x, In x xs -> is_nan x = false -> 2 <= equals xs x ->
     (forall y, In y xs -> is_nan y = true \/ feqb y x = true) ->
     exists es, num_counts data missing cases = Ok es /\ forall es', Permutation es es' -> feqb (num_mode es') x = true) /\
  (xs = [] -> exists es, num_counts data missing cases = Ok es /\ num_mode es = f0).
Proof.
  intros data missing cases H xs. split.
  - intros x Hx Nx H2 Hall. apply C113_clear_winner; auto. fold xs. intros y Hy Hne. destruct (Hall y Hy) as [N|N]; [|congruence].
    unfold weight. rewrite N. lia.
  - intros Hxs. destruct (num_counts_ok data missing cases H) as (es & E & [T1 _ _]). exists es. split; auto.
    destruct es as [|[k v] es]; [reflexivity|]. destruct (T1 k v (or_introl eq_refl)) as [_ Hin]. fold xs in Hin. rewrite Hxs in Hin. destruct Hin.
Qed.

Example C113_ex : let data := [f1; f2; S754_nan; f2; S754_nan; S754_nan] in let missing := repeat false 6 in
  num_counts data missing (seq 0 6) = Ok [(f1, 1); (f2, 2); (S754_nan, 1); (S754_nan, 1); (S754_nan, 1)] /\
  equals (known_values data missing (seq 0 6)) f2 = 2 /\ weight (known_values data missing (seq 0 6)) S754_nan = 1 /\
  num_mode [(f1, 1); (f2, 2); (S754_nan, 1); (S754_nan, 1); (S754_nan, 1)] = f2.
Proof. vm_compute. auto. Qed.

Print Assumptions C110_split_score.
Print Assumptions C110_only_sizes_refuted.
Print Assumptions C110_blind_to_the_cases_refuted.
Print Assumptions C111_known_label.
Print Assumptions C111_unknown_label_refuted.
Print Assumptions C111_unknown_label_blind_refuted.
Print Assumptions C111_share_of_true.
Print Assumptions C111_no_costs_refuted.
Print Assumptions C112_judges_its_prediction.
Print Assumptions C112_split_score.
Print Assumptions C112_mixture_tolerated_refuted.
Print Assumptions C112_split_may_increase_refuted.
Print Assumptions C113_clear_winner.
Print Assumptions C113_ties_refuted.
Print Assumptions C113_nan_and_empty_refuted.
