(** C121: costs and weights given by the names of the categories. *)
From Verif Require Import Go GoLemmas F64 F64Order Exact ModelFeature FeatureSpec FeatureProofs ModelImpurity
  ImpuritySpec ImpurityProofs PropImpurity PropImpurity3.
Local Open Scope string_scope.
Local Open Scope nat_scope.
Local Open Scope list_scope.

(** ** C121.  The claim in full: -cost, -dentropy, -adacost and -rfweights attach numbers to
    the names of the categories: how good a split is depends on the names of the cases and
    the numbers given for them, not on the numbers the reader happened to give the
    categories. *)

(** What a name costs; a name that is not listed costs nothing. *)
Definition price (costmap : list (string * R)) (n : string) : R :=
  match find (fun '(k, _) => String.eqb n k) costmap with Some (_, v) => v | None => 0%R end.
(** The map as the code gets it. *)
Definition given_costs (costmap : list (string * R)) : list (string * xr) := map (fun '(k, v) => (k, Some v)) costmap.

(** The cases are called [name] by a target with the names [back] and the data [data]. *)
Definition called (back : list string) (data : list nat) (name : nat -> string) (cases : list nat) : Prop :=
  forall i, In i cases -> exists c, nth_error data i = Some c /\ nth_error back c = Some (name i).
Definition times (names : list string) (n : string) : R := INR (count_occ string_dec names n).

(** Half the average cost of predicting the category that costs most. *)
Definition regret_of (p : string -> R) (names : list string) (r : R) : Prop :=
  exists m, (forall n, In n names -> times names n * p n <= times names m * p m)%R /\
            r = ((Rsum (map p names) - times names m * p m) / (2 * INR (length names)))%R.
(** The Gini index of the weighted names. *)
Definition weighted_gini (p : string -> R) (names : list string) : R :=
  (1 - Rsum (map (fun n => times names n * p n * p n) names) / (Rsum (map p names) * Rsum (map p names)))%R.
(** The entropy with every case weighted by its cost. *)
Definition priced_entropy (p : string -> R) (names : list string) : R :=
  (- Rsum (map (fun n => p n * ln (times names n / INR (length names))) names) / INR (length names))%R.
(** The cost of the cases not called [m]. *)
Definition boosted_cost (p : string -> R) (w : nat -> R) (name : nat -> string) (cases : list nat) (m : string) : R :=
  Rsum (map (fun i => if string_dec (name i) m then 0 else w i * p (name i))%R cases).

Lemma SetCosts_prices costmap back :
  SetCosts XR back (given_costs costmap) = map (fun x => Some x) (map (price costmap) back).
Proof.
  unfold SetCosts. rewrite map_map. apply map_ext. intros n. unfold price.
  induction costmap as [|[k v] l IH]; [reflexivity|]. cbn [given_costs map assoc find].
  destruct (String.eqb n k); [reflexivity|]. exact IH.
Qed.

Section Called.
  Variables (back : list string) (data : list nat) (name : nat -> string) (cases : list nat).
  Hypothesis Hback : NoDup back.
  Hypothesis Hcall : called back data name cases.

  Lemma called_labelled : labelled data (length back) cases.
  Proof.
    apply Forall_forall. intros i Hi. destruct (Hcall i Hi) as (c & E1 & E2).
    split; [eapply nth_error_some_lt; eauto|]. rewrite (nth_error_nth _ _ 0 E1). eapply nth_error_some_lt; eauto.
  Qed.
  Lemma called_name i : In i cases -> nth (nth i data 0) back "" = name i.
  Proof. intros Hi. destruct (Hcall i Hi) as (c & E1 & E2). rewrite (nth_error_nth _ _ 0 E1). apply nth_error_nth. exact E2. Qed.
  Lemma called_names : map (fun c => nth c back "") (labels data cases) = map name cases.
  Proof. unfold labels. rewrite map_map. apply map_ext_in. apply called_name. Qed.
  Lemma called_times c : c < length back -> INR (occurs (labels data cases) c) = times (map name cases) (nth c back "").
  Proof.
    intros Hc. unfold times. rewrite <- called_names. f_equal. pose proof (labels_bound data (length back) cases called_labelled) as Hb.
    unfold occurs. induction (labels data cases) as [|a l IH]; [reflexivity|]. inversion Hb as [|? ? Ha Hb']; subst.
    cbn [map count_occ]. rewrite IH by assumption. destruct (Nat.eq_dec a c) as [->|Hn].
    - destruct (string_dec (nth c back "") (nth c back "")); congruence.
    - destruct (string_dec (nth a back "") (nth c back "")) as [E|]; [|reflexivity].
      exfalso. apply Hn. apply (proj1 (NoDup_nth back "") Hback); assumption.
  Qed.
  (** A sum over the categories, weighted with how often they occur, is one over the cases. *)
  Lemma called_sum (g : string -> R) :
    Rsum (map (fun c => INR (occurs (labels data cases) c) * g (nth c back ""))%R (seq 0 (length back))) = Rsum (map g (map name cases)).
  Proof.
    rewrite <- called_names, map_map.
    exact (sum_by_label (fun c => g (nth c back "")) (length back) _ (labels_bound data (length back) cases called_labelled)).
  Qed.
  Lemma price_nth costmap c : c < length back -> nth c (map (price costmap) back) 0%R = price costmap (nth c back "").
  Proof. intros Hc. rewrite (nth_indep _ 0%R (price costmap "")) by (rewrite map_length; exact Hc). apply map_nth. Qed.
End Called.

(** -cost: half the average cost of the names, however they are numbered. *)
Theorem C121_regret_by_name : forall back data name cases costmap counter,
  NoDup back -> called back data name cases -> cases <> [] -> length counter = length back ->
  (forall n, 0 <= price costmap n)%R ->
  exists r counter', RegretImpurity XR (SetCosts XR back (given_costs costmap)) data cases counter = Ok (Some r, counter') /\
    regret_of (price costmap) (map name cases) r.
Proof.
  intros back data name cases costmap counter Hb Hcall Hne Hl Hp.
  rewrite SetCosts_prices.
  destruct (C48_regret_is_half_the_average_cost (map (price costmap) back) data (length back) cases counter) as (mi & c' & _ & Hm & E).
  { apply map_length. } { exact Hl. } { apply Forall_forall. intros x Hx. apply in_map_iff in Hx as (n & <- & _). apply Hp. }
  { apply (called_labelled _ _ _ _ Hcall). } { exact Hne. }
  rewrite E. eexists _, _. split; [reflexivity|]. exists (nth mi back "").
  destruct Hm as (Hm1 & Hm2 & _).
  pose proof (labels_bound data (length back) cases (called_labelled _ _ _ _ Hcall)) as Hlb.
  assert (Pp : forall c, c < length back -> nth c (map (price costmap) back) 0%R = price costmap (nth c back "")) by (intros; apply price_nth; auto).
  split.
  - intros n Hn. apply in_map_iff in Hn as (i & <- & Hi). destruct (Hcall i Hi) as (c & E1 & E2).
    pose proof (nth_error_some_lt _ _ E2) as Hc. specialize (Hm2 c Hc). rewrite !Pp in Hm2 by assumption.
    rewrite !(called_times back data name cases Hb Hcall) in Hm2 by assumption. rewrite (nth_error_nth _ _ "" E2) in Hm2. exact Hm2.
  - unfold average_cost. rewrite labels_length, map_length.
    assert (S1 : Rsum (map (fun c => if c =? mi then 0 else nth c (map (price costmap) back) 0)%R (labels data cases))
               = (Rsum (map (price costmap) (map name cases)) - times (map name cases) (nth mi back "") * price costmap (nth mi back ""))%R).
    { rewrite <- (sum_by_label (fun c => if c =? mi then 0 else nth c (map (price costmap) back) 0)%R (length back)) by assumption.
      rewrite <- (called_sum back data name cases Hcall), <- (called_times back data name cases Hb Hcall) by assumption.
      assert (S2 : Rsum (map (fun c => (if c =? mi then INR (occurs (labels data cases) mi) * price costmap (nth mi back "") else 0))%R (seq 0 (length back)))
                  = (INR (occurs (labels data cases) mi) * price costmap (nth mi back ""))%R).
      { rewrite (Rsum_single _ (length back) mi Hm1); [rewrite Nat.eqb_refl; reflexivity|].
        intros j _ Hj. apply Nat.eqb_neq in Hj. rewrite Hj. reflexivity. }
      rewrite <- S2. apply Rplus_eq_reg_r with (r := Rsum (map (fun c => (if c =? mi then INR (occurs (labels data cases) mi) * price costmap (nth mi back "") else 0))%R (seq 0 (length back)))).
      rewrite <- Rsum_plus. unfold Rminus. rewrite Rplus_assoc, Rplus_opp_l, Rplus_0_r. apply Rsum_ext.
      intros c Hc. apply in_seq in Hc. rewrite Pp by lia. destruct (Nat.eqb_spec c mi) as [->|]; ring. }
    rewrite S1. pose proof (len_pos cases Hne). field. lra.
Qed.

(** -rfweights *)
Theorem C121_weighted_gini_by_name : forall back data name cases weights counter,
  NoDup back -> called back data name cases -> length counter = length back ->
  Rsum (map (price weights) (map name cases)) <> 0%R ->
  exists counter', WRFImpurity XR (SetCosts XR back (given_costs weights)) data cases counter
    = Ok (Some (weighted_gini (price weights) (map name cases)), counter').
Proof.
  intros back data name cases weights counter Hb Hcall Hl Hz.
  rewrite SetCosts_prices. set (ws := map (price weights) back).
  unfold WRFImpurity. rewrite CountPerCat_ok by (rewrite Hl; apply (called_labelled _ _ _ _ Hcall)). cbn [bind]. rewrite Hl.
  assert (L : forall n s t e, s + n <= length back ->
    foreach (map (fun c => (c, Z.of_nat (occurs (labels data cases) c))) (seq s n))
      (fun '((i, v) : nat * Z) '((total, e) : XR * XR) =>
         let* w := get (map (fun x => Some x) ws) i in
         Ok (nadd XR total (nmul XR (ModelImpurity.num XR v) w), nsub XR e (nmul XR (nmul XR (ModelImpurity.num XR (v * v)) w) w))) (Some t, Some e)
    = Ok (Some (t + Rsum (map (fun c => INR (occurs (labels data cases) c) * price weights (nth c back "")) (seq s n)))%R,
          Some (e - Rsum (map (fun c => INR (occurs (labels data cases) c) *
                    (times (map name cases) (nth c back "") * price weights (nth c back "") * price weights (nth c back ""))) (seq s n)))%R)).
  { induction n as [|n IH]; intros s t e Hs; cbn [seq map foreach Rsum].
    - rewrite Rplus_0_r, Rminus_0_r. reflexivity.
    - rewrite (get_costs ws) by (unfold ws; rewrite map_length; lia). cbn [bind].
      unfold ModelImpurity.num. cbn [nofZ nmul nadd nsub XR lift2].
      rewrite IH by lia. unfold ws. rewrite price_nth by lia. rewrite mult_IZR, !IZR_of_nat.
      rewrite <- (called_times back data name cases Hb Hcall) by lia.
      f_equal. f_equal; f_equal; ring. }
  assert (V : WRFFromCounts XR (map (fun x => Some x) ws) cases (counts data (length back) cases)
              = Ok (Some (weighted_gini (price weights) (map name cases)))).
  { unfold WRFFromCounts, counts. rewrite indexed_map_seq.
    refine (eq_trans (f_equal (fun m => bind m _) (L (length back) 0 0%R 0%R (le_n _))) _). cbn [bind].
    rewrite (called_sum back data name cases Hcall), (called_sum back data name cases Hcall
      (fun n => times (map name cases) n * price weights n * price weights n)%R).
    unfold ModelImpurity.num. cbn [nmul nadd ndiv nofZ XR lift2]. rewrite !Rplus_0_l.
    rewrite xdiv_some by (intros Z; apply Rmult_integral in Z; tauto). cbn [lift2].
    unfold weighted_gini. do 2 f_equal. field. exact Hz. }
  rewrite V. eexists. reflexivity.
Qed.

(** -dentropy, where splits are tried from counts (C46) *)
Theorem C121_entropy_by_name : forall back data name cases costmap counter,
  NoDup back -> called back data name cases -> cases <> [] -> length counter = length back ->
  exists e0 counter', DEntropyImpurity XR xlog data cases counter = Ok (e0, counter') /\
    DEntropyFromCounts XR xlog (SetCosts XR back (given_costs costmap)) cases counter'
      = Ok (Some (priced_entropy (price costmap) (map name cases))).
Proof.
  intros back data name cases costmap counter Hb Hcall Hne Hl. rewrite SetCosts_prices.
  destruct (C46_values_of_both_computations (map (price costmap) back) data (length back) cases counter) as (c' & E1 & E2).
  { apply map_length. } { exact Hl. } { apply (called_labelled _ _ _ _ Hcall). } { exact Hne. }
  exists (Some (entropy (labels data cases) (length back))), c'. split; [exact E1|]. rewrite E2. do 2 f_equal.
  pose proof (len_pos cases Hne) as Hp.
  unfold cost_entropy, priced_entropy. rewrite map_length.
  rewrite <- (called_sum back data name cases Hcall). 
  set (S1 := Rsum (map (fun c => INR _ * _)%R _)).
  replace (- S1 / INR (length cases))%R with (- (/ INR (length cases) * S1))%R by (field; lra).
  unfold S1. rewrite <- Rsum_scal. f_equal. apply Rsum_ext. intros c Hc. apply in_seq in Hc. rewrite price_nth by lia. unfold share. rewrite labels_length.
  rewrite (called_times back data name cases Hb Hcall) by lia. unfold plogp.
  destruct (Req_EM_T _ 0) as [Z|Z].
  - assert (times (map name cases) (nth c back "") = 0)%R as ->; [|ring].
    apply Rmult_integral in Z as [Z|Z]; [exact Z|]. apply Rinv_neq_0_compat in Z; [tauto|lra].
  - unfold Rdiv. ring.
Qed.

(** -adacost: the costs of the cases that do not have the most frequent name. *)
Theorem C121_boosted_cost_by_name : forall back data name cases costmap ws counter,
  NoDup back -> called back data name cases -> cases <> [] -> length counter = length back ->
  (forall i, In i cases -> i < length ws) ->
  exists m counter', In m back /\ (forall n, times (map name cases) n <= times (map name cases) m)%R /\
    AdaCostImpurity XR (map (fun w => Some w) ws) (SetCosts XR back (given_costs costmap)) data cases counter
      = Ok (Some (boosted_cost (price costmap) (fun i => nth i ws 0%R) name cases m), counter').
Proof.
  intros back data name cases costmap ws counter Hb Hcall Hne Hl Hw. rewrite SetCosts_prices.
  pose proof (called_labelled _ _ _ _ Hcall) as Hlab.
  assert (H0 : 0 < length back).
  { destruct cases as [|i cs]; [congruence|]. inversion Hlab; lia. }
  destruct (C49_boosting_majority data (length back) cases H0 Hlab) as [Hm Hmode].
  unfold AdaCostImpurity. rewrite CountPerCat_ok by (rewrite Hl; exact Hlab). cbn [bind]. rewrite Hl.
  set (mi := count_mode (counts data (length back) cases)) in *.
  exists (nth mi back ""), (counts data (length back) cases). split; [apply nth_In; exact Hm|]. split.
  - intros n. destruct (in_dec string_dec n (map name cases)) as [Hn|Hn].
    + apply in_map_iff in Hn as (i & <- & Hi). destruct (Hcall i Hi) as (c & E1 & E2).
      pose proof (nth_error_some_lt _ _ E2) as Hc. rewrite <- (nth_error_nth _ _ "" E2).
      rewrite <- !(called_times back data name cases Hb Hcall) by assumption. apply le_INR. apply (Hmode c).
    + unfold times at 1. rewrite (proj1 (count_occ_not_In string_dec _ n) Hn). apply pos_INR.
  - assert (V : AdaCostFromCounts XR (map (fun w => Some w) ws) (map (fun x => Some x) (map (price costmap) back)) data cases (counts data (length back) cases)
      = Ok (Some (boosted_cost (price costmap) (fun i => nth i ws 0%R) name cases (nth mi back "")))).
    { unfold AdaCostFromCounts. fold mi. unfold boosted_cost.
      assert (G : forall cs (e : R), (forall i, In i cs -> In i cases) ->
        foreach cs (fun c (e : XR) =>
          let* cat := get data c in
          if cat =? mi then Ok e
          else let* w := get (map (fun w => Some w) ws) c in
               let* cost := get (map (fun x => Some x) (map (price costmap) back)) cat in
               Ok (nadd XR e (nmul XR w cost))) (Some e)
        = Ok (Some (e + Rsum (map (fun i => if string_dec (name i) (nth mi back "") then 0 else nth i ws 0 * price costmap (name i))%R cs)))%R).
      { induction cs as [|i cs IH]; intros e Hcs; cbn [foreach map Rsum]; [rewrite Rplus_0_r; reflexivity|].
        destruct (Hcall i (Hcs i (or_introl eq_refl))) as (c & E1 & E2).
        pose proof (nth_error_some_lt _ _ E2) as Hc. rewrite (get_nth _ _ E1). cbn [bind].
        assert (Hcs' : forall j, In j cs -> In j cases) by (intros; apply Hcs; right; assumption).
        destruct (Nat.eqb_spec c mi) as [->|Hn].
        - destruct (string_dec (name i) (nth mi back "")) as [_|Hx]; [|exfalso; apply Hx; symmetry; apply nth_error_nth; exact E2].
          cbn [bind]. rewrite IH by assumption. do 2 f_equal. ring.
        - destruct (string_dec (name i) (nth mi back "")) as [E|_].
          { exfalso. apply Hn. rewrite <- (nth_error_nth _ _ "" E2) in E. apply (proj1 (NoDup_nth back "") Hb); assumption. }
          rewrite (get_costs ws) by (apply Hw, Hcs; left; reflexivity). cbn [bind].
          rewrite (get_costs (map (price costmap) back)) by (rewrite map_length; exact Hc). cbn [bind nadd nmul XR lift2].
          rewrite price_nth, (nth_error_nth _ _ "" E2) by assumption. rewrite IH by assumption. do 2 f_equal. ring. }
      change (nofZ XR 0) with (Some 0%R). rewrite G by auto. rewrite Rplus_0_l. reflexivity. }
    rewrite V. reflexivity.
Qed.

(** Two targets that call the cases the same names, with the categories numbered otherwise
    (the rows of the file in another order), are judged the same. *)
Theorem C121_numbering_does_not_matter : forall back back' data data' name cases costmap counter counter',
  NoDup back -> NoDup back' -> called back data name cases -> called back' data' name cases -> cases <> [] ->
  length counter = length back -> length counter' = length back' -> (forall n, 0 <= price costmap n)%R ->
  let costs := SetCosts XR back (given_costs costmap) in
  let costs' := SetCosts XR back' (given_costs costmap) in
  (exists r k k', RegretImpurity XR costs data cases counter = Ok (r, k) /\
                  RegretImpurity XR costs' data' cases counter' = Ok (r, k')) /\
  (Rsum (map (price costmap) (map name cases)) <> 0%R ->
   exists r k k', WRFImpurity XR costs data cases counter = Ok (r, k) /\
                  WRFImpurity XR costs' data' cases counter' = Ok (r, k')) /\
  (exists r k k' e e', DEntropyImpurity XR xlog data cases counter = Ok (e, k) /\
                       DEntropyImpurity XR xlog data' cases counter' = Ok (e', k') /\
                       DEntropyFromCounts XR xlog costs cases k = Ok r /\
                       DEntropyFromCounts XR xlog costs' cases k' = Ok r).
Proof.
  intros back back' data data' name cases costmap counter counter' Hb Hb' Hc Hc' Hne Hl Hl' Hp costs costs'.
  split; [|split].
  - destruct (C121_regret_by_name back data name cases costmap counter Hb Hc Hne Hl Hp) as (r & k & E & m & M1 & M2).
    destruct (C121_regret_by_name back' data' name cases costmap counter' Hb' Hc' Hne Hl' Hp) as (r' & k' & E' & m' & M1' & M2').
    assert (r' = r) as ->; [|exists (Some r), k, k'; split; assumption].
    assert (Q : forall n, (times (map name cases) n * price costmap n <= times (map name cases) m * price costmap m)%R).
    { intros n. destruct (in_dec string_dec n (map name cases)) as [Hn|Hn]; [auto|].
      unfold times at 1. rewrite (proj1 (count_occ_not_In string_dec _ n) Hn). cbn [INR]. rewrite Rmult_0_l.
      apply Rmult_le_pos; [apply pos_INR|apply Hp]. }
    assert (Q' : forall n, (times (map name cases) n * price costmap n <= times (map name cases) m' * price costmap m')%R).
    { intros n. destruct (in_dec string_dec n (map name cases)) as [Hn|Hn]; [auto|].
      unfold times at 1. rewrite (proj1 (count_occ_not_In string_dec _ n) Hn). cbn [INR]. rewrite Rmult_0_l.
      apply Rmult_le_pos; [apply pos_INR|apply Hp]. }
    specialize (Q m'). specialize (Q' m). rewrite M2, M2'. f_equal. lra.
  - intros Hz. destruct (C121_weighted_gini_by_name back data name cases costmap counter Hb Hc Hl Hz) as (k & E).
    destruct (C121_weighted_gini_by_name back' data' name cases costmap counter' Hb' Hc' Hl' Hz) as (k' & E'). eauto.
  - destruct (C121_entropy_by_name back data name cases costmap counter Hb Hc Hne Hl) as (e & k & E1 & E2).
    destruct (C121_entropy_by_name back' data' name cases costmap counter' Hb' Hc' Hne Hl') as (e' & k' & E1' & E2').
    eexists _, _, _, _, _. eauto.
Qed.

(** For -adacost it does: of two names as frequent as each other the one with the lower
    number counts as predicted.  One case each of a and b, where b costs 5 times as much. *)
Theorem C121_adacost_numbering_refuted :
  let name i := if i =? 0 then "a" else "b" in
  let costmap := [("a", f1); ("b", f_of_Z 5)] in
  called ["a"; "b"] [0; 1] name [0; 1] /\ called ["b"; "a"] [1; 0] name [0; 1] /\
  bind (AdaCostImpurity F64 [f1; f1] (SetCosts F64 ["a"; "b"] costmap) [0; 1] [0; 1] [0%Z; 0%Z]) (fun '((e, _) : F64 * _) => Ok e) = Ok (f_of_Z 5) /\
  bind (AdaCostImpurity F64 [f1; f1] (SetCosts F64 ["b"; "a"] costmap) [1; 0] [0; 1] [0%Z; 0%Z]) (fun '((e, _) : F64 * _) => Ok e) = Ok f1.
Proof.
  cbn zeta. split; [|split; [|split; [vm_compute; reflexivity|vm_compute; reflexivity]]].
  - intros i [<-|[<-|[]]]; eexists; split; reflexivity.
  - intros i [<-|[<-|[]]]; eexists; split; reflexivity.
Qed.

(** Misspelt names are not noticed: when the map lists no category of the target, every
    category costs nothing and no group of cases has any regret, pure or not, so that no
    split is worth making. *)
Theorem C121_misspelt_refuted : forall back data k cases costmap counter,
  length back = k -> length counter = k -> labelled data k cases -> cases <> [] ->
  (forall n, In n back -> ~ In n (map fst costmap)) ->
  SetCosts XR back (given_costs costmap) = repeat (Some 0%R) k /\
  exists counter', RegretImpurity XR (SetCosts XR back (given_costs costmap)) data cases counter = Ok (Some 0%R, counter').
Proof.
  intros back data k cases costmap counter Hk Hl Hlab Hne Hno. rewrite SetCosts_prices.
  assert (P : map (price costmap) back = repeat 0%R k).
  { rewrite <- Hk. clear - Hno. induction back as [|n l IH]; [reflexivity|]. cbn [map length repeat].
    rewrite IH by (intros; apply Hno; right; assumption). f_equal. unfold price.
    assert (Hn : ~ In n (map fst costmap)) by (apply Hno; left; reflexivity). clear - Hn.
    induction costmap as [|[q v] l IH]; [reflexivity|]. cbn [find]. destruct (String.eqb_spec n q) as [->|].
    - exfalso. apply Hn. left. reflexivity.
    - apply IH. intros H. apply Hn. right. exact H. }
  rewrite P. split.
  { clear. induction k as [|k IH]; [reflexivity|]. cbn [repeat map]. rewrite IH. reflexivity. }
  assert (Hnn : Forall (fun x => 0 <= x)%R (repeat 0%R k)).
  { apply Forall_forall. intros x Hx. apply repeat_spec in Hx. subst. lra. }
  destruct (C48_regret_is_half_the_average_cost (repeat 0%R k) data k cases counter (repeat_length _ _) Hl Hnn Hlab Hne)
    as (mi & c' & _ & _ & E).
  exists c'. rewrite E. do 3 f_equal. unfold average_cost.
  assert (Z : Rsum (map (fun c => if c =? mi then 0 else nth c (repeat 0 k) 0)%R (labels data cases)) = 0%R).
  { apply Rsum_all_zero. intros c _. destruct (c =? mi); [reflexivity|].
    destruct (nth_in_or_default c (repeat 0%R k) 0%R) as [H|H]; [apply repeat_spec in H; exact H|exact H]. }
  rewrite Z. unfold Rdiv. ring.
Qed.

(** Three cases called a, b, b in the two numberings: the hypotheses hold and the costs
    matter (both groups cost the same, 5 of 10). *)
Example C121_ex :
  let name i := if i =? 0 then "a" else "b" in
  let costmap := [("a", 5%R); ("b", (5/2)%R)] in
  NoDup ["a"; "b"] /\ called ["a"; "b"] [0; 1; 1] name [0; 1; 2] /\ called ["b"; "a"] [1; 0; 0] name [0; 1; 2] /\
  (forall n, 0 <= price costmap n)%R /\ Rsum (map (price costmap) (map name [0; 1; 2])) = 10%R /\
  regret_of (price costmap) (map name [0; 1; 2]) (5 / 6)%R.
Proof.
  cbn zeta. split; [repeat constructor; cbn; intuition discriminate|].
  split; [intros i [<-|[<-|[<-|[]]]]; eexists; split; reflexivity|].
  split; [intros i [<-|[<-|[<-|[]]]]; eexists; split; reflexivity|].
  split.
  { intros n. unfold price. cbn [find]. destruct (String.eqb n "a"); [lra|]. destruct (String.eqb n "b"); lra. }
  split; [cbn; lra|]. exists "a". split.
  - intros n [<-|[<-|[<-|[]]]]; unfold times; cbn; lra.
  - unfold times; cbn; lra.
Qed.

Print Assumptions C121_regret_by_name.
Print Assumptions C121_weighted_gini_by_name.
Print Assumptions C121_entropy_by_name.
Print Assumptions C121_boosted_cost_by_name.
Print Assumptions C121_numbering_does_not_matter.
Print Assumptions C121_adacost_numbering_refuted.
Print Assumptions C121_misspelt_refuted.
