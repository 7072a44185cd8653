(** C120: the error applyforest prints and the predictions it writes. *)
From Verif Require Import Go GoLemmas F64 F64Order Exact ModelFeature ModelText ModelMatrix
  ModelBallot BallotSpec BallotProofs PropBallot ImpuritySpec ImpurityProofs ModelCommands ModelCommands2 PropCommands3.
From Coq Require Import Reals Lra.
Local Open Scope string_scope.
Local Open Scope nat_scope.
Local Open Scope list_scope.

(** ** C120.  The claim in full: when the data have the target, the error printed is that of
    the predictions written, over the cases whose target is known: for numbers the squared
    error divided by the variance, so that 1 minus the error is the coefficient of
    determination; for categories the balanced error. *)

(** The cases whose target is known, and their values. *)
Definition known_cases (miss : list bool) : list nat :=
  filter (fun i => negb (nth i miss true)) (seq 0 (length miss)).
Definition known_values (data : list R) (miss : list bool) : list R :=
  map (fun i => nth i data 0%R) (known_cases miss).

Section Loops.
  Variables (data : list R) (miss : list bool).
  Hypothesis Hl : length data = length miss.

  Definition known_upto (k : nat) : list nat := filter (fun i => negb (nth i miss true)) (seq 0 k).
  Lemma known_S k : known_upto (S k) = known_upto k ++ (if nth k miss true then [] else [k]).
  Proof. unfold known_upto. rewrite seq_S, filter_app. cbn. destruct (nth k miss true); reflexivity. Qed.

  Lemma fetch i : i < length miss ->
    get miss i = Ok (nth i miss true) /\ get (map Some data) i = Ok (Some (nth i data 0%R)).
  Proof.
    intros Hi. destruct (@get_ok _ miss i Hi) as (m & -> & N1).
    destruct (@get_ok _ (map Some data) i) as (d & -> & N2); [rewrite map_length; lia|].
    rewrite (nth_error_nth _ _ true N1). split; auto. rewrite nth_error_map in N2.
    destruct (nth_error data i) as [x|] eqn:Ex; inversion N2; subst d. rewrite (nth_error_nth _ _ 0%R Ex). reflexivity.
  Qed.

  Lemma mean_loop :
    for_up (length miss) 0 (fun i '((mean, total) : XR * nat) =>
      let* m := get miss i in
      if m then Ok (mean, total)
      else let* v := get (map Some data) i in Ok (nadd XR mean v, total + 1)) (nofZ XR 0, 0)
    = Ok (Some (Rsum (known_values data miss)), length (known_values data miss)).
  Proof.
    assert (H : yields (for_up (length miss) 0 (fun i '((mean, total) : XR * nat) =>
      let* m := get miss i in
      if m then Ok (mean, total)
      else let* v := get (map Some data) i in Ok (nadd XR mean v, total + 1)) (nofZ XR 0, 0))
      (fun '((e, c) : XR * nat) => e = Some (Rsum (map (fun i => nth i data 0%R) (known_upto (length miss))))
                          /\ c = length (known_upto (length miss)))).
    { apply (@for_up_total _ (fun k '((e, c) : XR * nat) =>
        e = Some (Rsum (map (fun i => nth i data 0%R) (known_upto k))) /\ c = length (known_upto k))).
      - intros i [e c] Hi [-> ->]. destruct (fetch i) as [-> E2]; [lia|]. cbn [bind]. rewrite known_S.
        destruct (nth i miss true).
        + eexists. split; [reflexivity|]. rewrite app_nil_r. auto.
        + rewrite E2. cbn [bind]. eexists. split; [reflexivity|]. cbn beta iota.
          rewrite map_app, Rsum_app, app_length. cbn. split; auto. f_equal. lra.
      - cbn. auto. }
    destruct H as ([e c] & -> & -> & ->). unfold known_values. rewrite map_length. reflexivity.
  Qed.

  Lemma variance_loop (m : R) :
    for_up (length miss) 0 (fun i (r2 : XR) =>
      let* b := get miss i in
      if b then Ok r2
      else let* v := get (map Some data) i in
           let d := nsub XR v (Some m) in Ok (nadd XR r2 (nmul XR d d))) (nofZ XR 0)
    = Ok (Some (Rsum (map (fun v => (v - m) * (v - m))%R (known_values data miss)))).
  Proof.
    assert (H : yields (for_up (length miss) 0 (fun i (r2 : XR) =>
      let* b := get miss i in
      if b then Ok r2
      else let* v := get (map Some data) i in
           let d := nsub XR v (Some m) in Ok (nadd XR r2 (nmul XR d d))) (nofZ XR 0))
      (fun e => e = Some (Rsum (map (fun v => (v - m) * (v - m))%R (map (fun i => nth i data 0%R) (known_upto (length miss))))))).
    { apply (@for_up_total _ (fun k (e : XR) =>
        e = Some (Rsum (map (fun v => (v - m) * (v - m))%R (map (fun i => nth i data 0%R) (known_upto k)))))).
      - intros i e Hi ->. destruct (fetch i) as [-> E2]; [lia|]. cbn [bind]. rewrite known_S.
        destruct (nth i miss true).
        + eexists. split; [reflexivity|]. rewrite app_nil_r. auto.
        + rewrite E2. cbn [bind]. eexists. split; [reflexivity|]. cbn beta iota.
          rewrite !map_app, Rsum_app. cbn. f_equal. lra.
      - cbn. auto. }
    destruct H as (e & -> & ->). reflexivity.
  Qed.
End Loops.

(** The relative error from the squared error. *)
Lemma numTallyError_exact bb data miss mse : length data = length miss -> known_values data miss <> [] ->
  TallySquaredError XR bb (map Some data) miss = Ok (Some (Some mse)) ->
  numTallyError XR bb (map Some data) miss =
    Ok (Some (xdiv (Some mse) (Some (sse (known_values data miss) / INR (length (known_values data miss)))%R))).
Proof.
  intros Hl Hn Hs. pose proof (len_pos _ Hn) as Hp. unfold numTallyError.
  refine (eq_trans (f_equal (fun m => bind m _) (mean_loop data miss Hl)) _). cbn [bind].
  change (ndiv XR) with xdiv. cbn [nofZ XR]. rewrite IZR_of_nat. rewrite xdiv_some by lra.
  refine (eq_trans (f_equal (fun m => bind m _) (variance_loop data miss Hl (mean (known_values data miss)))) _).
  cbn [bind]. refine (eq_trans (f_equal (fun m => bind m _) Hs) _). cbn [bind].
  rewrite xdiv_some by lra. reflexivity.
Qed.

(** What the trees say about a case: the weighted mean of their numbers. *)
Definition opinion (PF : string -> option XR) (votes : list (vote XR)) (i : nat) : R :=
  wmean (real_pairs (numbers_for XR PF i votes)).
(** Every case has votes of which the first counts, so that there is a prediction. *)
Definition all_voted (PF : string -> option XR) (votes : list (vote XR)) (size : nat) : Prop :=
  forall i, i < size -> positive_start (real_pairs (numbers_for XR PF i votes)) /\
                        real_pairs (numbers_for XR PF i votes) <> [].
Definition squares (f : nat -> R) (l : list nat) : R := Rsum (map (fun i => (f i * f i)%R) l).

Lemma known_in miss i : In i (known_cases miss) -> i < length miss.
Proof. intros H. apply filter_In in H as [H _]. apply in_seq in H. lia. Qed.

(** The box after the votes, for a numerical target. *)
Lemma num_box PF (votes : list (vote XR)) size data miss target :
  Forall (fun '(c, _, _) => c < size) votes -> length data = size -> length miss = size ->
  has_prefix (B "N") (B target) = true -> all_voted PF votes size -> known_cases miss <> [] ->
  yields (box_votes XR PF (apply_box XR false false false target size) votes) (fun bb => exists b, bb = BNum b /\
    (forall i, i < size -> numTallyNum XR b i = Ok (Some (opinion PF votes i)) /\ numTally XR b i = Ok (Some (Some (opinion PF votes i)))) /\
    TallySquaredError XR b (map Some data) miss =
      Ok (Some (Some (squares (fun i => nth i data 0 - opinion PF votes i) (known_cases miss) / INR (length (known_cases miss)))))%R).
Proof.
  intros Hc Hd Hm Ht Hv Hk. unfold apply_box. rewrite Ht. cbn [negb andb orb]. rewrite box_votes_num.
  assert (Hps : forall i, i < size -> positive_start (real_pairs (numbers_for XR PF i votes))) by (intros; apply Hv; auto).
  eapply yields_bind.
  { apply yields_and; [apply (C20_num_weighted_mean PF size votes Hc)|].
    apply (C28_squared_error_partial PF size votes data miss Hc); [lia|lia|exact Hps]. }
  cbn beta zeta. intros b [H1 H2]. apply yields_ok. exists b. split; [reflexivity|]. split.
  - intros i Hi. destruct (Hv i Hi) as [V1 V2]. destruct (H1 i Hi V1) as [-> ->]. unfold opinion.
    destruct (real_pairs (numbers_for XR PF i votes)); [congruence|]. auto.
  - fold (known_cases miss) in H2.
    assert (E : map (fun i => ((nth i data 0 - match real_pairs (numbers_for XR PF i votes) with [] => 0 | l => wmean l end) *
                     (nth i data 0 - match real_pairs (numbers_for XR PF i votes) with [] => 0 | l => wmean l end))%R) (known_cases miss)
              = map (fun i => ((nth i data 0 - opinion PF votes i) * (nth i data 0 - opinion PF votes i))%R) (known_cases miss)).
    { apply map_ext_in. intros i Hi. apply known_in in Hi. destruct (Hv i ltac:(lia)) as [_ V2]. unfold opinion.
      destruct (real_pairs (numbers_for XR PF i votes)); [congruence|reflexivity]. }
    unfold squares. rewrite <- E at 1. rewrite H2.
    + rewrite map_length. reflexivity.
    + destruct (known_cases miss); [congruence|discriminate].
Qed.

Lemma squares_zero f l : squares f l = 0%R <-> forall i, In i l -> f i = 0%R.
Proof.
  unfold squares. induction l as [|a l IH]; [cbn; tauto|]. cbn [map Rsum In].
  assert (P1 : (0 <= f a * f a)%R) by apply Rle_0_sqr.
  assert (P2 : (0 <= Rsum (map (fun i => f i * f i)%R l))%R) by (apply Rsum_nonneg; intros; apply Rle_0_sqr).
  split.
  - intros H. assert (Z1 : (f a * f a = 0)%R) by lra. assert (Z2 : Rsum (map (fun i => f i * f i)%R l) = 0%R) by lra.
    pose proof (proj1 IH Z2) as Z3. intros i [<-|Hi]; auto. apply Rmult_integral in Z1. tauto.
  - intros H. rewrite (H a (or_introl eq_refl)). rewrite (proj2 IH); [ring|auto].
Qed.

(** Without intercept and -sum the claim holds for numbers, unless the target is constant. *)
Theorem C120_relative_error_partial :
  forall PF Expit (votes : list (vote XR)) size data miss target expit iter iters,
  Forall (fun '(c, _, _) => c < size) votes -> length data = size -> length miss = size ->
  has_prefix (B "N") (B target) = true -> all_voted PF votes size ->
  let ys := known_values data miss in
  let off i := (nth i data 0 - opinion PF votes i)%R in
  ys <> [] -> sse ys <> 0%R ->
  yields (box_votes XR PF (apply_box XR false false false target size) votes) (fun bb =>
    (forall i, i < size ->
       apply_result XR Expit false expit (Some 0%R) bb i iter = Ok (@PNum XR (Some (opinion PF votes i)))) /\
    exists e, apply_error XR bb (@ANum XR (map Some data) miss) iters = Ok (Some (Some e)) /\
      e = (squares off (known_cases miss) / sse ys)%R /\ (0 <= e)%R /\
      (e = 0%R <-> forall i, In i (known_cases miss) -> opinion PF votes i = nth i data 0%R) /\
      exists b, bb = BNum b /\ TallyR2Score XR b (map Some data) miss = Ok (Some (Some (1 - e)%R))).
Proof.
  intros PF Expit votes size data miss target expit iter iters Hc Hd Hm Ht Hv ys off Hn Hs.
  assert (Hk : known_cases miss <> []).
  { intros E. apply Hn. unfold ys, known_values. rewrite E. reflexivity. }
  eapply yields_weaken; [apply (num_box PF votes size data miss target Hc Hd Hm Ht Hv Hk)|].
  cbn beta. intros bb (b & -> & Hb & Hq). fold off in Hq. split.
  { intros i Hi. destruct (Hb i Hi) as [_ E]. unfold apply_result, not_zero. cbn [nleb nofZ XR xcmp orb].
    assert (Z : Rleb 0 0 = true) by (apply Rleb_true; lra). rewrite Z. cbn [andb negb]. cbn [box_tally]. rewrite E. reflexivity. }
  pose proof (len_pos _ Hk) as Pk.
  assert (Sp : (0 <= sse ys)%R) by (apply Rsum_nonneg; intros; apply Rle_0_sqr).
  assert (Ly : length ys = length (known_cases miss)) by apply map_length.
  exists (squares off (known_cases miss) / sse ys)%R.
  assert (E : numTallyError XR b (map Some data) miss = Ok (Some (Some (squares off (known_cases miss) / sse ys)%R))).
  { rewrite (numTallyError_exact b data miss _ ltac:(lia) Hn Hq). fold ys. rewrite Ly.
    rewrite xdiv_some; [do 3 f_equal; field; split; lra|].
    intros Z. apply Rmult_integral in Z as [Z|Z]; [contradiction|]. apply Rinv_neq_0_compat in Z; lra. }
  split; [exact E|]. split; [reflexivity|].
  assert (Sq : (0 <= squares off (known_cases miss))%R) by (apply Rsum_nonneg; intros; apply Rle_0_sqr).
  split; [apply Rmult_le_pos; [exact Sq|left; apply Rinv_0_lt_compat; lra]|]. split.
  - split.
    + intros Z. apply Rmult_integral in Z as [Z|Z]; [|apply Rinv_neq_0_compat in Z; [tauto|lra]].
      rewrite squares_zero in Z. intros i Hi. specialize (Z i Hi). unfold off in Z. lra.
    + intros Z. replace (squares off (known_cases miss)) with 0%R; [unfold Rdiv; ring|]. symmetry. apply squares_zero.
      intros i Hi. unfold off. rewrite Z by assumption. ring.
  - exists b. split; [reflexivity|]. unfold TallyR2Score.
    refine (eq_trans (f_equal (fun m => bind m _) E) _). reflexivity.
Qed.

(** The kind of box is chosen by the flags, or else by the first letter of the name of the
    target, not by the kind of its column.  When the two differ the command stops without an
    error: it panics, unless a categorical target is missing throughout, where it exits. *)
Theorem C120_other_kind_refuted : forall N PF (votes : list (vote N)) target size iters,
  (forall g bb, box_votes N PF (apply_box N false true false target size) votes = Ok bb ->
     ((exists i, nth_error (cMissing g) i = Some false) -> apply_error N bb (ACat g) iters = Panic) /\
     ((forall i, nth_error (cMissing g) i <> Some false) -> apply_error N bb (ACat g) iters = Ok None)) /\
  (forall num data miss bb, box_votes N PF (apply_box N false num true target size) votes = Ok bb ->
     apply_error N bb (@ANum N data miss) iters = Panic).
Proof.
  intros N PF votes target size iters.
  assert (Kn : forall votes b bb, box_votes N PF (BNum b) votes = Ok bb -> exists b', bb = BNum b').
  { clear. unfold box_votes. induction votes as [|[[c p] w] votes IH]; intros b bb H; cbn [foreach] in H; [inversion H; eauto|].
    cbn [box_vote] in H. apply bind_ok in H as (b1 & H1 & H). apply bind_ok in H1 as (b2 & H1 & H2). inversion H2; subst. eapply IH, H. }
  assert (Kc : forall votes b bb, box_votes N PF (BCat b) votes = Ok bb -> exists b', bb = BCat b').
  { clear. unfold box_votes. induction votes as [|[[c p] w] votes IH]; intros b bb H; cbn [foreach] in H; [inversion H; eauto|].
    cbn [box_vote] in H. apply bind_ok in H as (b1 & H1 & H). apply bind_ok in H1 as (b2 & H1 & H2). inversion H2; subst. eapply IH, H. }
  split.
  - intros g bb H. unfold apply_box in H. cbn [negb andb orb] in H. apply Kn in H as (b & ->). cbn [apply_error]. split; intros H.
    + replace (existsb negb (cMissing g)) with true; [reflexivity|]. symmetry. apply existsb_exists. destruct H as (i & H). exists false. split; [eapply nth_error_In, H|reflexivity].
    + replace (existsb negb (cMissing g)) with false; [reflexivity|]. symmetry. apply Bool.not_true_iff_false. intros E. apply existsb_exists in E as (m & Hm & E).
      destruct m; [discriminate|]. apply In_nth_error in Hm as (i & Hm). exact (H i Hm).
  - intros num data miss bb H. assert (Eb : apply_box N false num true target size = BCat (NewCatBallotBox N size)) by (unfold apply_box; destruct num; reflexivity).
    rewrite Eb in H. apply Kc in H as (b & ->). reflexivity.
Qed.
Print Assumptions C120_other_kind_refuted.

(** With -sum, which boosted forests need (C100), the error printed is 1 whatever the trees
    predict. *)
Theorem C120_boosted_error_refuted : forall N PF (votes : list (vote N)) num cat target size t iters bb,
  box_votes N PF (apply_box N true num cat target size) votes = Ok bb ->
  apply_error N bb t iters = Ok (Some (nofZ N 1)).
Proof.
  intros N PF votes num cat target size t iters bb E. cbn [apply_box] in E. rewrite box_votes_sum in E.
  apply bind_ok in E as (b & _ & E). inversion E; subst bb. destruct t; reflexivity.
Qed.

(** An intercept is part of the predictions written but not of the error: trees that predict
    every case to the point after the intercept is added are reported with an error. *)
Theorem C120_intercept_refuted :
  forall PF Expit (votes : list (vote XR)) size data miss target intercept iter iters,
  Forall (fun '(c, _, _) => c < size) votes -> length data = size -> length miss = size ->
  has_prefix (B "N") (B target) = true -> all_voted PF votes size -> intercept <> 0%R ->
  let ys := known_values data miss in
  ys <> [] -> sse ys <> 0%R ->
  (forall i, i < size -> (opinion PF votes i + intercept)%R = nth i data 0%R) ->
  yields (box_votes XR PF (apply_box XR false false false target size) votes) (fun bb =>
    (forall i, i < size ->
       apply_result XR Expit false false (Some intercept) bb i iter = Ok (@PNum XR (Some (nth i data 0%R)))) /\
    exists e, apply_error XR bb (@ANum XR (map Some data) miss) iters = Ok (Some (Some e)) /\
      e = (INR (length ys) * (intercept * intercept) / sse ys)%R /\ (0 < e)%R).
Proof.
  intros PF Expit votes size data miss target intercept iter iters Hc Hd Hm Ht Hv Hi ys Hn Hs Ho.
  assert (Hk : known_cases miss <> []).
  { intros E. apply Hn. unfold ys, known_values. rewrite E. reflexivity. }
  eapply yields_weaken; [apply (num_box PF votes size data miss target Hc Hd Hm Ht Hv Hk)|].
  cbn beta. intros bb (b & -> & Hb & Hq). split.
  { intros i Hl. destruct (Hb i Hl) as [E _]. unfold apply_result, not_zero. cbn [nleb nofZ XR xcmp orb].
    assert (Z : (Rleb intercept 0 && Rleb 0 intercept)%bool = false).
    { unfold Rleb. destruct (Rle_dec intercept 0), (Rle_dec 0 intercept); auto; lra. }
    rewrite Z. cbn [negb]. rewrite E. cbn [bind nadd XR lift2]. rewrite (Ho i Hl). reflexivity. }
  pose proof (len_pos _ Hk) as Pk.
  assert (Sp : (0 <= sse ys)%R) by (apply Rsum_nonneg; intros; apply Rle_0_sqr).
  assert (Ly : length ys = length (known_cases miss)) by apply map_length.
  assert (Sq : squares (fun i => nth i data 0 - opinion PF votes i)%R (known_cases miss)
               = (INR (length (known_cases miss)) * (intercept * intercept))%R).
  { unfold squares. clear - Ho Hm.
    assert (G : forall l, (forall i, In i l -> i < size) ->
      Rsum (map (fun i => (nth i data 0 - opinion PF votes i) * (nth i data 0 - opinion PF votes i))%R l)
      = (INR (length l) * (intercept * intercept))%R).
    { induction l as [|a l IH]; intros Hin; [cbn; ring|]. cbn [map Rsum length]. rewrite S_INR, IH by (intros; apply Hin; cbn; auto).
      rewrite <- (Ho a) by (apply Hin; cbn; auto). ring. }
    apply G. intros i Hi. apply known_in in Hi. lia. }
  rewrite Sq in Hq. exists (INR (length ys) * (intercept * intercept) / sse ys)%R. rewrite Ly. split; [|split].
  - cbn [apply_error]. rewrite (numTallyError_exact b data miss _ ltac:(lia) Hn Hq). fold ys. rewrite Ly.
    rewrite xdiv_some; [do 3 f_equal; field; split; lra|].
    intros Z. apply Rmult_integral in Z as [Z|Z]; [contradiction|]. apply Rinv_neq_0_compat in Z; lra.
  - reflexivity.
  - assert (0 < intercept * intercept)%R by (apply Rsqr_pos_lt; exact Hi).
    apply Rmult_lt_0_compat; [apply Rmult_lt_0_compat; lra|apply Rinv_0_lt_compat; lra].
Qed.

(** A constant target, even one that every case is predicted right: 0 divided by 0 or a
    positive error divided by 0, no number. *)
Theorem C120_constant_target_refuted :
  forall PF (votes : list (vote XR)) size data miss target iters,
  Forall (fun '(c, _, _) => c < size) votes -> length data = size -> length miss = size ->
  has_prefix (B "N") (B target) = true -> all_voted PF votes size ->
  let ys := known_values data miss in
  ys <> [] -> constant_list ys ->
  yields (box_votes XR PF (apply_box XR false false false target size) votes) (fun bb =>
    apply_error XR bb (@ANum XR (map Some data) miss) iters = Ok (Some None)).
Proof.
  intros PF votes size data miss target iters Hc Hd Hm Ht Hv ys Hn Hs.
  assert (Hk : known_cases miss <> []).
  { intros E. apply Hn. unfold ys, known_values. rewrite E. reflexivity. }
  eapply yields_weaken; [apply (num_box PF votes size data miss target Hc Hd Hm Ht Hv Hk)|].
  cbn beta. intros bb (b & -> & Hb & Hq). cbn [apply_error].
  rewrite (numTallyError_exact b data miss _ ltac:(lia) Hn Hq). fold ys.
  assert (Z : sse ys = 0%R).
  { destruct ys as [|y l] eqn:Ey; [congruence|].
    assert (Al : forall v, In v (y :: l) -> v = y) by (intros v Hv'; apply Hs; [exact Hv'|left; reflexivity]).
    assert (Sm : forall l', (forall v, In v l' -> v = y) -> Rsum l' = (INR (length l') * y)%R).
    { clear. induction l' as [|v l' IH]; intros H; [cbn; ring|]. cbn [Rsum length].
      rewrite S_INR, IH, (H v) by (cbn; auto; intros; apply H; cbn; auto). ring. }
    assert (Mn : mean (y :: l) = y).
    { unfold mean. rewrite (Sm _ Al). field. pose proof (len_pos (y :: l) Hn). lra. }
    unfold sse. rewrite Mn. clear - Al.
    assert (G : forall l', (forall v, In v l' -> v = y) -> Rsum (map (fun v => (v - y) * (v - y))%R l') = 0%R).
    { clear. induction l' as [|v l' IH]; intros H; [reflexivity|]. cbn [map Rsum].
      rewrite IH, (H v) by (cbn; auto; intros; apply H; cbn; auto). ring. }
    apply G. exact Al. }
  rewrite Z. unfold Rdiv. rewrite Rmult_0_l. unfold xdiv. destruct (Req_EM_T 0 0); [reflexivity|contradiction].
Qed.
Theorem C120_constant_target_float_refuted :
  match box_votes F64 (exPF F64) (apply_box F64 false false false "N:y" 2) [(0, "5", f1); (1, "5", f1)] with
  | Ok bb => apply_error F64 bb (@ANum F64 [f_of_Z 5; f_of_Z 5] [false; false]) (fun _ => [])
  | _ => Panic
  end = Ok (Some S754_nan).
Proof. vm_compute. reflexivity. Qed.

Lemma for_up_joined {St} (body : nat -> St -> res St) : forall a b lo s,
  for_up (a + b) lo body s = let* s' := for_up a lo body s in for_up b (lo + a) body s'.
Proof.
  induction a as [|a IH]; intros b lo s; cbn [for_up Nat.add bind].
  - rewrite Nat.add_0_r. reflexivity.
  - destruct (body lo s) as [s1| |]; cbn [bind]; auto. rewrite IH. do 2 f_equal.
    replace (lo + S a) with (S lo + a) by lia. reflexivity.
Qed.
Lemma for_up_keeps {St} (Inv : St -> Prop) (body : nat -> St -> res St) :
  (forall i s s', Inv s -> body i s = Ok s' -> Inv s') ->
  forall n lo s s', Inv s -> for_up n lo body s = Ok s' -> Inv s'.
Proof.
  intros H n. induction n as [|n IH]; intros lo s s' Hs E; cbn [for_up] in E; [inversion E; subst; auto|].
  apply bind_ok in E as (s1 & E1 & E2). eapply IH; [eapply H; eauto|exact E2].
Qed.

(** A category of the target that no case is known to have: 0 of 0 cases are right, the sum
    of the shares is not a number and neither is the error, whatever the forest predicts. *)
Theorem C120_absent_category_refuted :
  forall (b : catBox F64) f iters c e,
  c < NCats (cMap f) ->
  (forall i, i < cLength f -> nth i (cMissing f) true = false -> nth i (cData f) 0 <> c) ->
  apply_error F64 (BCat b) (ACat f) iters = Ok (Some e) -> e = S754_nan.
Proof.
  intros b f iters c e Hc Hno E. cbn [apply_error] in E. apply bind_ok in E as (v & E & Ev).
  assert (G : forall a a' : f64, Ok (Some a) = Ok (Some a') -> a = a') by congruence. apply G in Ev. subst v.
  unfold catTallyError in E.
  apply bind_ok in E as ([correct total] & E1 & E2).
  assert (Inv : length correct = NCats (cMap f) /\ nth_error correct c = Some 0 /\ nth_error total c = Some 0).
  { assert (R0 : nth_error (repeat 0 (NCats (cMap f))) c = Some 0).
    { apply nth_error_repeat. exact Hc. }
    refine (for_up_keeps (fun '((co, to) : list nat * list nat) =>
      length co = NCats (cMap f) /\ nth_error co c = Some 0 /\ nth_error to c = Some 0) _ _ _ _ _ _ _ E1).
    - intros i [co to] [co' to'] (L & C & T) E.
      apply bind_ok in E as (value & Ea & E). apply bind_ok in E as (bx & _ & E).
      apply bind_ok in E as (predicted & _ & E). apply bind_ok in E as (m & Em & E).
      destruct m; [inversion E; subst; auto|].
      assert (Hv : value <> c).
      { unfold cGeti in Ea. unfold cIsMissing in Em. apply get_inv in Ea. apply get_inv in Em.
        rewrite <- (nth_error_nth _ _ 0 Ea). apply Hno; [|apply nth_error_nth; exact Em].
        apply nth_error_some_lt in Em. exact Em. }
      apply bind_ok in E as (t & _ & E). apply bind_ok in E as (to1 & St & E). apply set_inv in St as [_ ->].
      apply bind_ok in E as (name & _ & E). destruct (String.eqb name predicted).
      + apply bind_ok in E as (n & _ & E). apply bind_ok in E as (co1 & Sc & E). apply set_inv in Sc as [_ ->].
        inversion E; subst. rewrite upd_length. repeat split; auto; rewrite nth_error_upd_neq; auto.
      + inversion E; subst. repeat split; auto. rewrite nth_error_upd_neq; auto.
    - rewrite repeat_length. auto. }
  destruct Inv as (L & C & T). apply bind_ok in E2 as (s & E2 & Es).
  assert (Ns : s = S754_nan).
  { clear Es E1. rewrite L in E2.
    replace (NCats (cMap f)) with (c + (1 + (NCats (cMap f) - c - 1))) in E2 by lia.
    rewrite for_up_joined in E2. apply bind_ok in E2 as (s1 & _ & E2).
    rewrite for_up_joined in E2. apply bind_ok in E2 as (s2 & E2 & E3).
    cbn [for_up] in E2. rewrite ?Nat.add_0_l, (get_nth _ _ C), (get_nth _ _ T) in E2. cbn [bind] in E2.
    assert (N3 : forall x : F64, nadd F64 x (ndiv F64 (nofZ F64 (Z.of_nat 0)) (nofZ F64 (Z.of_nat 0))) = S754_nan).
    { intros [[]|[]| |[] ? ?]; reflexivity. }
    rewrite N3 in E2. assert (Es2 : s2 = S754_nan) by congruence. subst s2.
    refine (for_up_keeps (fun s : F64 => s = S754_nan) _ _ _ _ _ _ eq_refl E3).
    intros i x x' -> E. apply bind_ok in E as (n & _ & E). apply bind_ok in E as (t & _ & E).
    assert (G2 : forall a a' : f64, Ok a = Ok a' -> a = a') by congruence. apply G2 in E. rewrite <- E. reflexivity. }
  subst s. assert (G2 : forall a a' : f64, Ok a = Ok a' -> a = a') by congruence. apply G2 in Es. rewrite <- Es. reflexivity.
Qed.

(** Two cases with the targets 1 and 5, predicted as 1 and 1 and 5: the hypotheses hold. *)
Example C120_ex :
  let votes := [(0, "1", Some 1%R); (1, "5", Some 1%R); (0, "1", Some 1%R)] in
  let data := [1; 5]%R in let miss := [false; false] in
  Forall (fun '(c, _, _) => c < 2) votes /\ has_prefix (B "N") (B "N:y") = true /\
  all_voted (exPF XR) votes 2 /\ known_values data miss <> [] /\ sse (known_values data miss) <> 0%R /\
  (forall i, In i (known_cases miss) -> opinion (exPF XR) votes i = nth i data 0%R).
Proof.
  cbn zeta. change (known_values [1; 5]%R [false; false]) with [1; 5]%R.
  assert (P0 : real_pairs (numbers_for XR (exPF XR) 0 [(0, "1", Some 1%R); (1, "5", Some 1%R); (0, "1", Some 1%R)]) = [(1, 1); (1, 1)]%R) by reflexivity.
  assert (P1 : real_pairs (numbers_for XR (exPF XR) 1 [(0, "1", Some 1%R); (1, "5", Some 1%R); (0, "1", Some 1%R)]) = [(5, 1)]%R) by reflexivity.
  split; [repeat constructor|]. split; [reflexivity|]. split; [|split; [discriminate|split]].
  - intros [|[|i]] Hi; [rewrite P0|rewrite P1|lia]; (split; [|discriminate]); cbn; repeat constructor; cbn; lra.
  - unfold sse, mean. cbn. lra.
  - change (known_cases [false; false]) with [0; 1]. intros i [<-|[<-|[]]]; unfold opinion; [rewrite P0|rewrite P1]; unfold wmean; cbn; field; lra.
Qed.
(** A target with the categories a and b of which only a occurs, every case right. *)
Example C120_absent_ex :
  match box_votes F64 (exPF F64) (apply_box F64 false false false "C:y" 2) [(0, "a", f1); (1, "a", f1)] with
  | Ok bb => apply_error F64 bb (ACat (mkCat (mkCM [("a", 0); ("b", 1)] ["a"; "b"]) [0; 0] [false; false] "C:y" false false)) (fun _ => [(0, f1)])
  | _ => Panic
  end = Ok (Some S754_nan).
Proof. vm_compute. reflexivity. Qed.

Print Assumptions C120_relative_error_partial.
Print Assumptions C120_boosted_error_refuted.
Print Assumptions C120_intercept_refuted.
Print Assumptions C120_constant_target_refuted.
Print Assumptions C120_constant_target_float_refuted.
Print Assumptions C120_absent_category_refuted.
