(** C46 (disutility entropy), C48 (regret), C49 (predicted categories). *)
From Verif Require Import Go GoLemmas F64 F64Order Exact ModelFeature FeatureSpec FeatureProofs ModelImpurity ImpuritySpec ImpurityProofs PropImpurity.
Local Open Scope nat_scope.
Local Open Scope list_scope.

(** ** C46 *)

(** Entropy with every class weighted by its cost. *)
Definition cost_entropy (cost : nat -> R) (ls : list nat) (k : nat) : R :=
  (- Rsum (map (fun c => cost c * plogp (share ls c)) (seq 0 k)))%R.

Lemma get_costs (costs : list R) c : c < length costs ->
  get (map (fun x => Some x : xr) costs) c = Ok (Some (nth c costs 0%R)).
Proof.
  intros H. apply get_nth. rewrite nth_error_map. rewrite (nth_error_nth' costs 0%R) by assumption. reflexivity.
Qed.

Lemma dentropy_from_counts costs data k cases : length costs = k -> labelled data k cases -> cases <> [] ->
  DEntropyFromCounts XR xlog (map (fun x => Some x) costs) cases (counts data k cases)
  = Ok (Some (cost_entropy (fun c => nth c costs 0%R) (labels data cases) k)).
Proof.
  intros Hk Hl Hne. pose proof (len_pos cases Hne) as Hp. unfold DEntropyFromCounts.
  set (ls := labels data cases). assert (Hls : length ls = length cases) by apply labels_length.
  change (nofZ XR 0) with (Some 0%R).
  rewrite (sum_loop (fun c _ => - (nth c costs 0%R * plogp (share ls c)))%R).
  - do 2 f_equal. unfold counts. rewrite indexed_map_seq, map_map. cbn.
    unfold cost_entropy. rewrite Rplus_0_l.
    rewrite (Rsum_ext (fun x => - (nth x costs 0 * plogp (share ls x)))%R
                      (fun x => (-1) * (nth x costs 0 * plogp (share ls x)))%R) by (intros; ring).
    rewrite Rsum_scal. fold ls. ring.
  - intros c t x Hin. unfold counts in Hin. rewrite indexed_map_seq in Hin.
    apply in_map_iff in Hin. destruct Hin as (c' & E & Hc). inversion E; subst; clear E.
    apply in_seq in Hc. fold ls.
    assert (Hsh : share ls c = (INR (occurs ls c) / INR (length cases))%R) by (unfold share; rewrite Hls; reflexivity).
    destruct (Z.ltb_spec 0 (Z.of_nat (occurs ls c))) as [Hpos|Hz].
    + rewrite get_costs by lia. cbn [bind]. unfold num. cbn [nofZ ndiv XR]. rewrite !IZR_of_nat.
      rewrite xdiv_some by lra. rewrite <- Hsh.
      assert (Ho : (0 < INR (occurs ls c))%R) by (apply lt_0_INR; lia).
      assert (Hs : (0 < share ls c)%R) by (rewrite Hsh; apply Rdiv_lt_0_compat; lra).
      unfold xlog. destruct (Rlt_dec 0 (share ls c)); [|contradiction].
      cbn [nsub nmul XR lift2]. unfold plogp. destruct (Req_EM_T (share ls c) 0); [lra|].
      do 2 f_equal. ring.
    + assert (E0 : occurs ls c = 0) by lia. rewrite E0 in Hsh. cbn in Hsh.
      assert (Hs : share ls c = 0%R) by (rewrite Hsh; unfold Rdiv; ring).
      rewrite Hs. unfold plogp. destruct (Req_EM_T 0 0); [|congruence]. do 2 f_equal. ring.
Qed.

(** What the two computations give: Impurity is the plain entropy, ImpFromCounts
    the entropy weighted with the costs ... *)
Theorem C46_values_of_both_computations : forall costs data k cases counter,
  length costs = k -> length counter = k -> labelled data k cases -> cases <> [] ->
  exists counter',
    DEntropyImpurity XR xlog data cases counter = Ok (Some (entropy (labels data cases) k), counter')
    /\ DEntropyFromCounts XR xlog (map (fun x => Some x) costs) cases counter'
       = Ok (Some (cost_entropy (fun c => nth c costs 0%R) (labels data cases) k)).
Proof.
  intros costs data k cases counter Hk Hc Hl Hne. exists (counts data k cases). split.
  - exact (entropy_value data k cases counter Hc Hl Hne).
  - apply dentropy_from_counts; assumption.
Qed.

(** ... so they agree when every category that occurs has cost one ... *)
Theorem C46_consistent_for_unit_costs_partial : forall costs data k cases counter,
  length costs = k -> length counter = k -> labelled data k cases -> cases <> [] ->
  (forall c, In c (labels data cases) -> nth c costs 0%R = 1%R) ->
  exists v counter',
    DEntropyImpurity XR xlog data cases counter = Ok (Some v, counter')
    /\ DEntropyFromCounts XR xlog (map (fun x => Some x) costs) cases counter' = Ok (Some v).
Proof.
  intros costs data k cases counter Hk Hc Hl Hne H1.
  destruct (C46_values_of_both_computations costs data k cases counter Hk Hc Hl Hne) as (c' & E1 & E2).
  exists (entropy (labels data cases) k), c'. split; [exact E1|]. rewrite E2. do 2 f_equal.
  unfold cost_entropy, entropy. f_equal. apply Rsum_ext. intros c _.
  destruct (in_dec Nat.eq_dec c (labels data cases)) as [Hi|Hi].
  - rewrite H1 by assumption. ring.
  - assert (occurs (labels data cases) c = 0) as E0 by (apply count_occ_not_In; assumption).
    unfold share. rewrite E0. cbn. unfold plogp.
    destruct (Req_EM_T _ 0); [ring|]. exfalso. apply n. unfold Rdiv. ring.
Qed.

(** ... but not in general: one case each of two categories with costs 2 and 1. *)
Theorem C46_consistent_refuted :
  ~ (forall costs data k cases counter,
       length costs = k -> length counter = k -> labelled data k cases -> cases <> [] ->
       exists v counter',
         DEntropyImpurity XR xlog data cases counter = Ok (Some v, counter')
         /\ DEntropyFromCounts XR xlog (map (fun x => Some x) costs) cases counter' = Ok (Some v)).
Proof.
  intros H.
  set (costs := [2; 1]%R). set (data := [0; 1]). set (cases := [0; 1]). set (z := [0; 0]%Z).
  assert (Hl : labelled data 2 cases) by (repeat constructor; cbn; lia).
  destruct (H costs data 2 cases z eq_refl eq_refl Hl ltac:(discriminate)) as (v & c & E1 & E2).
  destruct (C46_values_of_both_computations costs data 2 cases z eq_refl eq_refl Hl ltac:(discriminate)) as (c' & F1 & F2).
  assert (E : cost_entropy (fun c => nth c costs 0%R) (labels data cases) 2 = entropy (labels data cases) 2).
  { rewrite F1 in E1. assert (c' = c) by congruence. subst c'. congruence. }
  clear - E.
  unfold cost_entropy, entropy in E. cbn [seq map Rsum] in E.
  change (nth 0 costs 0%R) with 2%R in E. change (nth 1 costs 0%R) with 1%R in E.
  assert (S0 : share (labels data cases) 0 = (/ 2)%R) by (unfold share; cbn; lra).
  assert (S1 : share (labels data cases) 1 = (/ 2)%R) by (unfold share; cbn; lra).
  rewrite S0, S1 in E. unfold plogp in E. destruct (Req_EM_T (/ 2) 0); [lra|].
  rewrite ln_Rinv in E by lra. pose proof ln_lt_2. lra.
Qed.

(** ** C48 *)

Lemma regret_mode_value costs k (ns : nat -> nat) : length costs = k -> 0 < k ->
  Forall (fun x => 0 <= x)%R costs ->
  exists mi, regret_mode XR (map (fun x => Some x) costs) (map (fun c => Z.of_nat (ns c)) (seq 0 k)) = Ok mi
    /\ first_max (fun c => INR (ns c) * nth c costs 0%R)%R k mi.
Proof.
  intros Hk Hp Hc. unfold regret_mode.
  set (v := fun c => Some (INR (ns c) * nth c costs 0%R)%R : xr).
  assert (Hlen : length (map (fun c => Z.of_nat (ns c)) (seq 0 k)) = k) by (rewrite map_length, seq_length; reflexivity).
  rewrite (scan_loop xr (nltb XR) v).
  - cbn [bind]. rewrite Hlen.
    destruct (scan xr (nltb XR) v 0 k 0 (nofZ XR 0)) as [mi x] eqn:E. exists mi. split; [reflexivity|].
    apply x_scan_max in E; auto.
    + destruct E as (H1 & H2 & H3). split; [exact H1|split].
      * intros c Hcc. specialize (H2 c Hcc). cbn in H2. apply Rltb_false in H2. exact H2.
      * intros c Hcc. specialize (H3 c Hcc). cbn in H3. apply Rltb_true in H3. exact H3.
    + eexists; reflexivity.
    + intros; eexists; reflexivity.
    + intros c Hcc. cbn. apply Rltb_false. apply Rmult_le_pos; [apply pos_INR|].
      rewrite Forall_forall in Hc. apply Hc, nth_In. lia.
  - intros i t m x Hin. rewrite indexed_map_seq in Hin. apply in_map_iff in Hin.
    destruct Hin as (c' & E & Hcc). inversion E; subst; clear E. apply in_seq in Hcc.
    rewrite get_costs by lia. cbn [bind]. unfold num, v. cbn [nmul nofZ XR lift2].
    rewrite IZR_of_nat. reflexivity.
Qed.

(** The two-component loop of ImpFromCounts. *)
Lemma regret_loop costs k (ns : nat -> nat) mi : length costs = k ->
  forall n s t x, s + n <= k ->
  foreach (map (fun c => (c, Z.of_nat (ns c))) (seq s n))
    (fun '((cat, count) : nat * Z) '((t, e) : Z * xr) =>
      let t := (t + count)%Z in
      if cat =? mi then Ok (t, e)
      else let* cost := get (map (fun x => Some x : xr) costs) cat in
           Ok (t, nadd XR e (nmul XR cost (num XR count)))) (t, Some x)
  = Ok ((t + Z.of_nat (list_sum (map ns (seq s n))))%Z,
        Some (x + Rsum (map (fun c => INR (ns c) * (if c =? mi then 0 else nth c costs 0)) (seq s n)))%R).
Proof.
  intros Hk. induction n as [|n IH]; intros s t x Hs; cbn [seq map foreach].
  - cbn. rewrite Z.add_0_r. do 2 f_equal. f_equal. lra.
  - cbn [list_sum fold_right]. destruct (Nat.eqb_spec s mi) as [->|Hne].
    + cbn [bind]. rewrite IH by lia. cbn [Rsum].
      f_equal. f_equal; [unfold list_sum; lia|f_equal; lra].
    + rewrite get_costs by lia. cbn [bind]. unfold num. cbn [nadd nmul nofZ XR lift2].
      rewrite IH by lia. cbn [Rsum]. rewrite IZR_of_nat.
      f_equal. f_equal; [unfold list_sum; lia|f_equal; lra].
Qed.

Lemma sum_by_label (g : nat -> R) k ls : Forall (fun c => c < k) ls ->
  Rsum (map (fun c => INR (occurs ls c) * g c)%R (seq 0 k)) = Rsum (map g ls).
Proof.
  induction ls as [|a ls IH]; intros H.
  - cbn [map Rsum]. apply Rsum_all_zero. intros; cbn. ring.
  - inversion H as [|? ? Ha Hls]; subst. cbn [map Rsum]. rewrite <- IH by assumption.
    rewrite (Rsum_ext (fun c => INR (occurs (a :: ls) c) * g c)%R
              (fun c => (if c =? a then g a else 0) + INR (occurs ls c) * g c)%R).
    + rewrite Rsum_plus. f_equal. rewrite (Rsum_single _ k a Ha).
      * rewrite Nat.eqb_refl. reflexivity.
      * intros j _ Hj. apply Nat.eqb_neq in Hj. rewrite Hj. reflexivity.
    + intros c _. unfold occurs. cbn. destruct (Nat.eq_dec a c) as [->|Hn].
      * rewrite Nat.eqb_refl. change (count_occ Nat.eq_dec ls c) with (occurs ls c).
        replace (INR (S (occurs ls c))) with (INR (occurs ls c) + 1)%R by (rewrite S_INR; reflexivity). ring.
      * destruct (Nat.eqb_spec c a); [congruence|]. ring.
Qed.

Lemma list_sum_occurs k ls : Forall (fun c => c < k) ls ->
  list_sum (map (occurs ls) (seq 0 k)) = length ls.
Proof.
  intros H. apply INR_eq. rewrite <- (sum_occurs ls k H).
  generalize (seq 0 k). intros l. induction l as [|a l IH]; [reflexivity|].
  change (list_sum (map (occurs ls) (a :: l))) with (occurs ls a + list_sum (map (occurs ls) l)).
  rewrite plus_INR, IH. reflexivity.
Qed.

(** The impurity is half of the average misclassification cost, where the
    prediction is the category with the largest total cost. *)
Theorem C48_regret_is_half_the_average_cost : forall costs data k cases counter,
  length costs = k -> length counter = k -> Forall (fun x => 0 <= x)%R costs ->
  labelled data k cases -> cases <> [] ->
  exists mi counter',
    RegretPredicted XR (map (fun x => Some x) costs) data k cases = Ok mi
    /\ first_max (fun c => INR (occurs (labels data cases) c) * nth c costs 0%R)%R k mi
    /\ RegretImpurity XR (map (fun x => Some x) costs) data cases counter
       = Ok (Some (average_cost (fun c => nth c costs 0%R) mi (labels data cases) / 2)%R, counter').
Proof.
  intros costs data k cases counter Hk Hc Hnn Hl Hne. pose proof (len_pos cases Hne) as Hp.
  assert (Hb : Forall (fun c => c < k) (labels data cases)) by (apply labels_bound; assumption).
  assert (Hk0 : 0 < k).
  { destruct cases as [|i cs]; [congruence|]. inversion Hb; lia. }
  destruct (regret_mode_value costs k (occurs (labels data cases)) Hk Hk0 Hnn) as (mi & Em & Hm).
  exists mi, (counts data k cases). split; [|split; [exact Hm|]].
  - unfold RegretPredicted. rewrite CountPerCat_ok by (rewrite repeat_length; assumption).
    rewrite repeat_length. cbn [bind]. exact Em.
  - unfold RegretImpurity. rewrite CountPerCat_ok by (rewrite Hc; assumption). rewrite Hc. cbn [bind].
    unfold RegretFromCounts. unfold counts at 1. rewrite Em. cbn [bind].
    unfold counts at 1. rewrite indexed_map_seq. change (nofZ XR 0) with (Some 0%R).
    rewrite (regret_loop costs k (occurs (labels data cases)) mi Hk) by lia. cbn [bind].
    do 3 f_equal. unfold num. cbn [nofZ ndiv XR].
    rewrite plus_IZR, !IZR_of_nat, list_sum_occurs, labels_length by assumption.
    rewrite xdiv_some by lra. f_equal.
    rewrite sum_by_label by assumption. unfold average_cost. rewrite labels_length. field. lra.
Qed.

Theorem C48_regret_is_average_cost_refuted :
  ~ (forall costs data k cases counter,
       length costs = k -> length counter = k -> Forall (fun x => 0 <= x)%R costs ->
       labelled data k cases -> cases <> [] ->
       exists mi counter',
         RegretPredicted XR (map (fun x => Some x) costs) data k cases = Ok mi
         /\ RegretImpurity XR (map (fun x => Some x) costs) data cases counter
            = Ok (Some (average_cost (fun c => nth c costs 0%R) mi (labels data cases)), counter')).
Proof.
  intros H.
  set (costs := [1; 1]%R). set (data := [0; 1]). set (cases := [0; 1]). set (z := [0; 0]%Z).
  assert (Hl : labelled data 2 cases) by (repeat constructor; cbn; lia).
  assert (Hn : Forall (fun x => 0 <= x)%R costs) by (repeat constructor; lra).
  destruct (H costs data 2 cases z eq_refl eq_refl Hn Hl ltac:(discriminate)) as (m & c & E1 & E2).
  destruct (C48_regret_is_half_the_average_cost costs data 2 cases z eq_refl eq_refl Hn Hl ltac:(discriminate))
    as (m' & c' & F1 & F2 & F3).
  rewrite F1 in E1. inversion E1; subst m. rewrite F3 in E2. assert (E := f_equal (fun r => match r with Ok (Some x, _) => x | _ => 0%R end) E2). clear - E F2.
  destruct F2 as (Hm & _). unfold average_cost in E. cbn in E.
  destruct m' as [|[|]]; cbn in E; [| |lia]; replace (1 + 1)%R with 2%R in E by lra; lra.
Qed.

(** ** C49 *)

(** The cases with a known target value. *)
Definition known (ms : list bool) (cases : list nat) : list nat :=
  filter (fun i => negb (nth i ms true)) cases.

(** Lowest numbered category with the largest float64 weight. *)
Definition first_fmax (v : nat -> f64) (k m : nat) : Prop :=
  m < k /\ (forall c, c < k -> fleb (v c) (v m) = true) /\ (forall c, c < m -> fltb (v c) (v m) = true).

Lemma mode_counts_known f cases k : k = NCats (cMap f) ->
  Forall (fun i => i < length (cMissing f)) cases ->
  labelled (cData f) k (known (cMissing f) cases) ->
  mode_counts f cases = Ok (map (occurs (labels (cData f) (known (cMissing f) cases))) (seq 0 k)).
Proof.
  intros -> Hi Hl. unfold mode_counts. set (n := NCats (cMap f)) in *.
  assert (G : forall cs pre, Forall (fun i => i < length (cMissing f)) cs ->
     labelled (cData f) n (known (cMissing f) cs) ->
     foreach cs (fun i counts =>
        let* m := get (cMissing f) i in
        if m then Ok counts
        else let* c := get (cData f) i in let* n := get counts c in set counts c (n + 1))
       (map (occurs pre) (seq 0 n))
     = Ok (map (occurs (pre ++ labels (cData f) (known (cMissing f) cs))) (seq 0 n))).
  { induction cs as [|i cs IH]; intros pre Hc Hlab.
    - cbn. rewrite app_nil_r. reflexivity.
    - inversion Hc as [|? ? Hc1 Hc2]; subst. cbn [foreach].
      rewrite (get_nth _ _ (nth_error_nth' (cMissing f) true Hc1)). cbn [bind].
      cbn [known filter] in *. destruct (nth i (cMissing f) true) eqn:Em; cbn [negb] in *.
      + cbn [bind]. apply IH; assumption.
      + inversion Hlab as [|? ? [L1 L2] L3]; subst.
        rewrite (get_nth _ _ (nth_error_nth' (cData f) 0 L1)). cbn [bind].
        rewrite (get_nth _ _ (nth_map_seq (occurs pre) n _ L2)). cbn [bind].
        unfold set. rewrite map_length, seq_length. destruct (Nat.ltb_spec (nth i (cData f) 0) n); [|lia].
        rewrite upd_map_seq0.
        replace (map (fun j => if j =? nth i (cData f) 0 then occurs pre (nth i (cData f) 0) + 1 else occurs pre j) (seq 0 n))
          with (map (occurs (pre ++ [nth i (cData f) 0])) (seq 0 n)).
        * cbn [bind]. rewrite IH by assumption. rewrite <- app_assoc. reflexivity.
        * apply map_ext. intros j. rewrite occurs_app. cbn [occurs count_occ].
          destruct (Nat.eq_dec (nth i (cData f) 0) j) as [<-|Hne].
          -- rewrite Nat.eqb_refl. unfold occurs. cbn.
             destruct (Nat.eq_dec (nth i (cData f) 0) (nth i (cData f) 0)); [lia|congruence].
          -- destruct (Nat.eqb_spec j (nth i (cData f) 0)); [congruence|].
             unfold occurs. cbn. destruct (Nat.eq_dec (nth i (cData f) 0) j); [congruence|lia]. }
  specialize (G cases [] Hi Hl). cbn [app] in G. rewrite <- G.
  replace (repeat 0 n) with (map (occurs []) (seq 0 n)); [reflexivity|].
  assert (R : forall n s, map (occurs []) (seq s n) = repeat 0 n).
  { clear. induction n as [|n IH]; intros s; cbn; [reflexivity|]. f_equal. apply IH. }
  apply R.
Qed.

(** The plain categorical target (Modei, Mode, FindPredicted). *)
Theorem C49_plain_majority : forall f cases,
  0 < NCats (cMap f) ->
  Forall (fun i => i < length (cMissing f)) cases ->
  labelled (cData f) (NCats (cMap f)) (known (cMissing f) cases) ->
  exists k, cModei f cases = Ok k /\ k < NCats (cMap f)
    /\ is_mode k (labels (cData f) (known (cMissing f) cases))
    /\ (exists name, nth_error (cmBack (cMap f)) k = Some name /\ cFindPredicted f cases = Ok name).
Proof.
  intros f cases Hn Hi Hl. unfold cFindPredicted, cMode, cModei.
  rewrite (mode_counts_known f cases _ eq_refl Hi Hl). cbn [bind].
  set (ls := labels (cData f) (known (cMissing f) cases)). set (n := NCats (cMap f)) in *.
  assert (Hb : forall j, n <= j -> occurs ls j = 0).
  { intros j Hj. apply count_occ_not_In. intros Hin.
    pose proof (labels_bound _ _ _ Hl) as Hlb. rewrite Forall_forall in Hlb. apply Hlb in Hin. lia. }
  set (k := argmax_from 0 (map (occurs ls) (seq 0 n)) 0 0).
  assert (Hk : k < n /\ is_mode k ls).
  { destruct (argmax_from_ok (map (occurs ls) (seq 0 n)) 0 0 0) as [[E H]|(i & v & E & H1 & H2 & H3 & H4)];
      fold k in E; rewrite E.
    - split; [assumption|]. intros j. change (count_occ Nat.eq_dec ls) with (occurs ls).
      assert (Z : forall j, occurs ls j = 0).
      { intros j'. destruct (lt_dec j' n) as [Hj|Hj]; [|apply Hb; lia].
        specialize (H j' _ (nth_map_seq _ n _ Hj)). lia. }
      rewrite !Z. lia.
    - cbn [Nat.add]. assert (Hin : i < n).
      { apply nth_error_some_lt in H1. rewrite map_length, seq_length in H1. exact H1. }
      rewrite (nth_map_seq _ n _ Hin) in H1. inversion H1; subst v.
      split; [assumption|]. intros j. change (count_occ Nat.eq_dec ls) with (occurs ls).
      destruct (lt_dec j n) as [Hj|Hj].
      + split; [apply (H3 j), nth_map_seq, Hj|]. intros Hji. apply (H4 j _ Hji), nth_map_seq, Hj.
      + rewrite (Hb j) by lia. lia. }
  destruct Hk as [Hk1 Hk2]. exists k. split; [reflexivity|]. split; [exact Hk1|]. split; [exact Hk2|].
  exists (nth k (cmBack (cMap f)) EmptyString).
  split; [apply nth_error_nth'; exact Hk1|]. apply get_nth, nth_error_nth'. exact Hk1.
Qed.

(** The scans of the weighted targets at float64. *)
Lemma f_scan_result v k m x : 0 < k -> (forall c, c < k -> fleb f0 (v c) = true) ->
  scan f64 fltb v 0 k 0 f0 = (m, x) -> first_fmax v k m.
Proof.
  intros Hk Hv E.
  assert (Hg : forall c, c < k -> nn (v c)).
  { intros c Hc. specialize (Hv c Hc). destruct (v c); first [discriminate | reflexivity]. }
  apply f_scan_max in E; auto; [|reflexivity|].
  - destruct E as (H1 & H2 & H3). split; [exact H1|split; [|exact H3]].
    intros c Hc. apply flt_not_le; auto.
  - intros c Hc. destruct (fltb (v c) f0) eqn:L; [|reflexivity].
    pose proof (flt_le_trans _ _ _ L (Hv c Hc)) as H. rewrite flt_irrefl in H. discriminate.
Qed.

Definition fcount (n : nat) : f64 := f_of_Z (Z.of_nat n).

(** Weighted random forest: missing target values are skipped. *)
Theorem C49_weighted_majority : forall f weights cases,
  let k := NCats (cMap f) in
  let ls := labels (cData f) (known (cMissing f) cases) in
  let v := fun c => fmul (fcount (occurs ls c)) (nth c weights f0) in
  0 < k -> k <= length weights ->
  Forall (fun i => i < length (cMissing f)) cases ->
  labelled (cData f) k (known (cMissing f) cases) ->
  (forall c, c < k -> fleb f0 (v c) = true) ->
  exists m, WRFPredicted F64 weights f cases = Ok m /\ first_fmax v k m.
Proof.
  intros f weights cases k ls v Hk Hw Hi Hl Hv. unfold WRFPredicted.
  rewrite (mode_counts_known f cases k eq_refl Hi Hl). fold ls. cbn [bind].
  rewrite (scan_loop f64 fltb v).
  - cbn [bind]. rewrite map_length, seq_length.
    change (nofZ F64 0) with f0.
    destruct (scan f64 fltb v 0 k 0 f0) as [m x] eqn:E. exists m. split; [reflexivity|].
    eapply f_scan_result; eauto.
  - intros c t m x Hin. rewrite indexed_map_seq in Hin. apply in_map_iff in Hin.
    destruct Hin as (c' & E & Hc). inversion E; subst; clear E. apply in_seq in Hc.
    assert (Eg : @get (car F64) weights c = Ok (nth c weights f0)) by (apply get_nth, nth_error_nth'; lia).
    rewrite Eg. reflexivity.
Qed.

Lemma fold_scan {T B} (lt : T -> T -> bool) (v : nat -> T) (body : nat * T -> nat * B -> nat * T) (l : list B) :
  forall k, (forall i t m x, In (i, t) (indexed k l) ->
       body (m, x) (i, t) = (if lt x (v i) then (i, v i) else (m, x))) ->
  forall m x, fold_left body (indexed k l) (m, x) = scan T lt v k (length l) m x.
Proof.
  induction l as [|a l IH]; intros k H m x; cbn [indexed fold_left length scan]; [reflexivity|].
  rewrite H by (left; reflexivity).
  destruct (lt x (v k)); apply IH; intros; apply H; right; assumption.
Qed.

(** Cost weighted targets; every case counts with its stored category, also
    the missing ones. *)
Theorem C49_regret_majority : forall costs data k cases,
  let v := fun c => fmul (fcount (occurs (labels data cases) c)) (nth c costs f0) in
  0 < k -> k <= length costs -> labelled data k cases ->
  (forall c, c < k -> fleb f0 (v c) = true) ->
  exists m, RegretPredicted F64 costs data k cases = Ok m /\ first_fmax v k m.
Proof.
  intros costs data k cases v Hk Hw Hl Hv. unfold RegretPredicted.
  rewrite CountPerCat_ok by (rewrite repeat_length; assumption). rewrite repeat_length. cbn [bind].
  unfold regret_mode. rewrite (scan_loop f64 fltb v).
  - cbn [bind]. rewrite counts_length. change (nofZ F64 0) with f0.
    destruct (scan f64 fltb v 0 k 0 f0) as [m x] eqn:E. exists m. split; [reflexivity|].
    eapply f_scan_result; eauto.
  - intros c t m x Hin. unfold counts in Hin. rewrite indexed_map_seq in Hin. apply in_map_iff in Hin.
    destruct Hin as (c' & E & Hc). inversion E; subst; clear E. apply in_seq in Hc.
    assert (Eg : @get (car F64) costs c = Ok (nth c costs f0)) by (apply get_nth, nth_error_nth'; lia).
    rewrite Eg. reflexivity.
Qed.

Theorem C49_neyman_pearson_majority : forall posi alpha data k cases,
  let v := fun c => let n := fcount (occurs (labels data cases) c) in if c =? posi then fdiv n alpha else n in
  0 < k -> labelled data k cases -> (forall c, c < k -> fleb f0 (v c) = true) ->
  exists m, NPPredicted F64 posi alpha data k cases = Ok m /\ first_fmax v k m.
Proof.
  intros posi alpha data k cases v Hk Hl Hv. unfold NPPredicted.
  rewrite CountPerCat_ok by (rewrite repeat_length; assumption). rewrite repeat_length. cbn [bind].
  rewrite (fold_scan fltb v).
  - rewrite counts_length. change (nofZ F64 0) with f0.
    destruct (scan f64 fltb v 0 k 0 f0) as [m x] eqn:E. exists m. split; [reflexivity|].
    eapply f_scan_result; eauto.
  - intros c t m x Hin. unfold counts in Hin. rewrite indexed_map_seq in Hin. apply in_map_iff in Hin.
    destruct Hin as (c' & E & Hc). inversion E; subst; clear E. unfold v, fcount.
    destruct (c =? posi); reflexivity.
Qed.

(** Transduction: as above with [beta] as weight of the unlabelled class; when no
    category has positive weight the answer is the unlabelled class. *)
Theorem C49_transduction_majority : forall unlabeled beta data k cases,
  let v := fun c => let n := fcount (occurs (labels data cases) c) in if c =? unlabeled then fmul beta n else n in
  labelled data k cases -> (forall c, c < k -> fleb f0 (v c) = true) ->
  exists m, TransPredicted F64 unlabeled beta data k cases = Ok m
    /\ ((m = unlabeled /\ forall c, c < k -> fleb (v c) f0 = true)
        \/ (fltb f0 (v m) = true /\ first_fmax v k m)).
Proof.
  intros unlabeled beta data k cases v Hl Hv. unfold TransPredicted.
  rewrite CountPerCat_ok by (rewrite repeat_length; assumption). rewrite repeat_length. cbn [bind].
  assert (Hg : forall c, c < k -> nn (v c)).
  { intros c Hc. specialize (Hv c Hc). destruct (v c); first [discriminate | reflexivity]. }
  rewrite (fold_scan fltb v).
  - rewrite counts_length. change (nofZ F64 0) with f0.
    destruct (scan f64 fltb v 0 k unlabeled f0) as [m x] eqn:E. exists m. split; [reflexivity|].
    apply (scan_spec f64 fltb nn f_le_trans f_le_lt_trans f_lt_asym (fun x _ => flt_irrefl x)) in E;
      [|reflexivity|intros; apply Hg; lia].
    destruct E as [(-> & _ & H)|(H1 & _ & H2 & H3 & H4)].
    + left. split; [reflexivity|]. intros c Hc. apply flt_not_le; [reflexivity|apply Hg; assumption|]. apply H; lia.
    + right. split; [exact H2|]. split; [lia|split].
      * intros c Hc. apply flt_not_le; auto; [apply Hg; lia|]. apply H3; lia.
      * intros c Hc. apply H4; lia.
  - intros c t m x Hin. unfold counts in Hin. rewrite indexed_map_seq in Hin. apply in_map_iff in Hin.
    destruct Hin as (c' & E & Hc). inversion E; subst; clear E. unfold v, fcount.
    destruct (c =? unlabeled); reflexivity.
Qed.

(** The boosting targets use the plain majority of the stored categories. *)
Theorem C49_boosting_majority : forall data k cases, 0 < k -> labelled data k cases ->
  count_mode (counts data k cases) < k /\ is_mode (count_mode (counts data k cases)) (labels data cases).
Proof.
  intros data k cases Hk Hl. set (ls := labels data cases).
  assert (Hb : forall j, k <= j -> occurs ls j = 0).
  { intros j Hj. apply count_occ_not_In. intros Hin.
    pose proof (labels_bound _ _ _ Hl) as Hlb. rewrite Forall_forall in Hlb. apply Hlb in Hin. lia. }
  assert (G : forall n s m x, let r := fst (fold_left (fun '((m, mc) : nat * Z) '((i, c) : nat * Z) =>
      if (mc <? c)%Z then (i, c) else (m, mc)) (map (fun c => (c, Z.of_nat (occurs ls c))) (seq s n)) (m, Z.of_nat x)) in
      (r = m /\ forall j, s <= j < s + n -> occurs ls j <= x)
      \/ (s <= r < s + n /\ x < occurs ls r /\ (forall j, s <= j < s + n -> occurs ls j <= occurs ls r)
          /\ (forall j, s <= j < r -> occurs ls j < occurs ls r))).
  { induction n as [|n IH]; intros s m x; cbn [seq map fold_left]; cbv zeta.
    - left. split; [reflexivity|]. intros; lia.
    - destruct (Z.ltb_spec (Z.of_nat x) (Z.of_nat (occurs ls s))) as [L|L].
      + specialize (IH (S s) s (occurs ls s)). cbv zeta in IH.
        destruct IH as [[E H]|(H1 & H2 & H3 & H4)].
        * right. rewrite E. split; [lia|]. split; [lia|]. split; [|intros; lia].
          intros j Hj. destruct (Nat.eq_dec j s) as [->|]; [lia|apply H; lia].
        * right. split; [lia|]. split; [lia|]. split.
          -- intros j Hj. destruct (Nat.eq_dec j s) as [->|]; [lia|apply H3; lia].
          -- intros j Hj. destruct (Nat.eq_dec j s) as [->|]; [lia|apply H4; lia].
      + specialize (IH (S s) m x). cbv zeta in IH.
        destruct IH as [[E H]|(H1 & H2 & H3 & H4)].
        * left. split; [exact E|]. intros j Hj. destruct (Nat.eq_dec j s) as [->|]; [lia|apply H; lia].
        * right. split; [lia|]. split; [lia|]. split.
          -- intros j Hj. destruct (Nat.eq_dec j s) as [->|]; [lia|apply H3; lia].
          -- intros j Hj. destruct (Nat.eq_dec j s) as [->|]; [lia|apply H4; lia]. }
  unfold count_mode, counts. rewrite indexed_map_seq. fold ls.
  specialize (G k 0 0 0). cbv zeta in G. change (Z.of_nat 0) with 0%Z in G.
  destruct G as [[E H]|(H1 & H2 & H3 & H4)].
  - rewrite E. split; [assumption|]. intros j. change (count_occ Nat.eq_dec ls) with (occurs ls).
    assert (Z : forall j, occurs ls j = 0).
    { intros j'. destruct (lt_dec j' k) as [Hj|Hj]; [|apply Hb; lia]. specialize (H j'). lia. }
    rewrite !Z. lia.
  - split; [lia|]. intros j. change (count_occ Nat.eq_dec ls) with (occurs ls).
    destruct (lt_dec j k) as [Hj|Hj].
    + split; [apply H3; lia|]. intros; apply H4; lia.
    + rewrite (Hb j) by lia. lia.
Qed.

(** A cost weighted target does not ignore missing target values: with labels
    NA, NA, b the answer is a (stored category 0), although b is the only label. *)
Theorem C49_missing_ignored_refuted :
  exists (f : catF) (costs : list f64) (cases : list nat),
    labels (cData f) (known (cMissing f) cases) = [1]
    /\ map (fun c => fltb f0 c) costs = [true; true]
    /\ RegretPredicted F64 costs (cData f) (NCats (cMap f)) cases = Ok 0
    /\ NPPredicted F64 1 (f_of_Z 1) (cData f) (NCats (cMap f)) cases = Ok 0
    /\ WRFPredicted F64 costs f cases = Ok 1
    /\ cModei f cases = Ok 1.
Proof.
  exists (mkCat (mkCM [("a", 0); ("b", 1)]%string ["a"; "b"]%string) [0; 0; 1] [true; true; false] "f"%string false true),
    [f_of_Z 1; f_of_Z 1], [0; 1; 2].
  vm_compute. repeat split.
Qed.

(** The comment at transduction.go:137-139 ("will only be predicted to be the
    unlabeled class if it has no labeled points") holds when the unlabelled class
    has no weight ... *)
Theorem C49_transduction_without_weight : forall unlabeled data k cases,
  labelled data k cases ->
  (exists i, In i cases /\ nth i data 0 <> unlabeled) ->
  exists m, TransPredicted XR unlabeled (Some 0%R) data k cases = Ok m /\ m <> unlabeled.
Proof.
  intros unlabeled data k cases Hl (i & Hi & Hu). unfold TransPredicted.
  rewrite CountPerCat_ok by (rewrite repeat_length; assumption). rewrite repeat_length. cbn [bind].
  set (ls := labels data cases).
  set (v := fun c => Some (if c =? unlabeled then 0 else INR (occurs ls c))%R : xr).
  rewrite (fold_scan (nltb XR) v).
  - rewrite counts_length. change (nofZ XR 0) with (Some 0%R : xr).
    destruct (scan xr (nltb XR) v 0 k unlabeled (Some 0%R)) as [m x] eqn:E. exists m.
    split; [change (scan (car XR)) with (scan xr); rewrite E; reflexivity|].
    apply (scan_spec xr (nltb XR) is_some x_le_trans x_le_lt_trans x_lt_asym x_lt_irrefl) in E;
      [|eexists; reflexivity|intros; eexists; reflexivity].
    set (c := nth i data 0) in *.
    assert (Hc : c < k) by (eapply labelled_get; eassumption).
    assert (Hpos : (0 < INR (occurs ls c))%R).
    { apply lt_0_INR. apply count_occ_In. apply in_map_iff. exists i. split; [reflexivity|assumption]. }
    apply Nat.eqb_neq in Hu.
    destruct E as [(-> & _ & H)|(H1 & _ & H2 & _ & _)].
    + exfalso. specialize (H c ltac:(lia)). unfold v in H. rewrite Hu in H. cbn in H.
      apply Rltb_false in H. lra.
    + intros ->. unfold v in H2. rewrite Nat.eqb_refl in H2. cbn in H2. apply Rltb_true in H2. lra.
  - intros c t m x Hin. unfold counts in Hin. rewrite indexed_map_seq in Hin. apply in_map_iff in Hin.
    destruct Hin as (c' & E & Hc). inversion E; subst; clear E. unfold v, num. fold ls.
    cbn [nofZ nmul XR lift2]. rewrite IZR_of_nat.
    destruct (c =? unlabeled); [rewrite Rmult_0_l|]; reflexivity.
Qed.

(** ... but not for a weight above that of the labelled cases. *)
Theorem C49_transduction_comment_refuted :
  exists unlabeled beta data k cases,
    (exists i, In i cases /\ nth i data 0 <> unlabeled)
    /\ TransPredicted F64 unlabeled beta data k cases = Ok unlabeled.
Proof.
  exists 0, (f_of_Z 1), [0; 0; 1], 2, [0; 1; 2]. split.
  - exists 2. split; [right; right; left; reflexivity|discriminate].
  - vm_compute. reflexivity.
Qed.

(** ** Concrete cases for the hypotheses *)
Example ex_plain : forall f,
  f = mkCat (mkCM [("a", 0); ("b", 1)]%string ["a"; "b"]%string) [0; 1; 1; 0; 0] [false; false; false; true; true]
        "f"%string false true ->
  cModei f [0; 1; 2; 3; 4] = Ok 1 /\ known (cMissing f) [0; 1; 2; 3; 4] = [0; 1; 2]
  /\ cFindPredicted f [0; 1; 2; 3; 4] = Ok "b"%string.
Proof. intros f ->. vm_compute. repeat split. Qed.

(** weights 3 and 1: two of category 1 lose against one of category 0 *)
Example ex_weighted : forall f,
  f = mkCat (mkCM [("a", 0); ("b", 1)]%string ["a"; "b"]%string) [0; 1; 1; 0; 0] [false; false; false; true; true]
        "f"%string false true ->
  WRFPredicted F64 [f_of_Z 3; f_of_Z 1] f [0; 1; 2; 3; 4] = Ok 0
  /\ fleb f0 (fmul (fcount 1) (f_of_Z 3)) = true /\ fleb f0 (fmul (fcount 2) (f_of_Z 1)) = true
  /\ RegretPredicted F64 [f_of_Z 3; f_of_Z 1] (cData f) 2 [1; 2; 0] = Ok 0
  /\ NPPredicted F64 0 (fdiv (f_of_Z 1) (f_of_Z 4)) (cData f) 2 [1; 2; 0] = Ok 0
  /\ TransPredicted F64 0 f0 (cData f) 2 [0; 3; 1] = Ok 1.
Proof. intros f ->. vm_compute. repeat split. Qed.

Print Assumptions C46_values_of_both_computations.
Print Assumptions C46_consistent_refuted.
Print Assumptions C48_regret_is_half_the_average_cost.
Print Assumptions C48_regret_is_average_cost_refuted.
Print Assumptions C49_plain_majority.
Print Assumptions C49_weighted_majority.
Print Assumptions C49_regret_majority.
Print Assumptions C49_neyman_pearson_majority.
Print Assumptions C49_transduction_majority.
Print Assumptions C49_boosting_majority.
Print Assumptions C49_missing_ignored_refuted.
Print Assumptions C49_transduction_without_weight.
Print Assumptions C49_transduction_comment_refuted.
