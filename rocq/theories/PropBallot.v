(** C19-C25, C27, C28: ballot boxes and counters. *)
From Verif Require Import Go GoLemmas F64 F64Order Exact ModelFeature FeatureProofs Conc ModelBallot BallotSpec BallotProofs.
Local Open Scope string_scope.
Local Open Scope nat_scope.
Local Open Scope list_scope.

(** ** C19.  Any votes into a new categorical box, any case, any iteration order
    of its map: the answer has maximal total weight among all names and a
    positive one if there is any, and is NA if there is none.  Weights and
    totals are float64, NaN and infinities included. *)
Theorem C19_cat_plurality : forall size (votes : list (vote F64)),
  Forall (fun '(c, _, _) => c < size) votes ->
  yields (cast F64 votes (NewCatBallotBox F64 size)) (fun bb =>
    length (cbBox bb) = size
    /\ forall i b iter, nth_error (cbBox bb) i = Some b -> Permutation iter b ->
         yields (catTally F64 bb iter) (fun ans =>
           ((forall name, fltb f0 (total_for F64 i name votes) = false) -> ans = "NA")
           /\ ((exists name, fltb f0 (total_for F64 i name votes) = true) ->
               fltb f0 (total_for F64 i ans votes) = true
               /\ forall name, fltb (total_for F64 i ans votes) (total_for F64 i name votes) = false))).
Proof.
  intros size votes H. eapply yields_weaken; [apply cast_ok; exact H|].
  cbn. intros bb (Hcm & Hl & Hb). split; auto.
  intros i b iter Hi Hp. eapply catTally_ok; eauto.
Qed.

(** The totals: the map of case [i] has exactly one entry per name voted for, and
    it holds the sum of the weights cast for that name. *)
Theorem C19_cat_totals : forall size (votes : list (vote F64)),
  Forall (fun '(c, _, _) => c < size) votes ->
  yields (cast F64 votes (NewCatBallotBox F64 size)) (fun bb =>
    forall i b, nth_error (cbBox bb) i = Some b ->
      NoDup (map fst b)
      /\ (forall k v, In (k, v) b -> exists name,
            nth_error (cmBack (cbMap bb)) k = Some name
            /\ weights_for F64 i name votes <> [] /\ v = total_for F64 i name votes)
      /\ (forall name, weights_for F64 i name votes <> [] ->
            exists k v, In (k, v) b /\ nth_error (cmBack (cbMap bb)) k = Some name)).
Proof.
  intros size votes H. eapply yields_weaken; [apply cast_ok; exact H|].
  cbn. intros bb (Hcm & Hl & Hb) i b Hi. destruct (Hb i b Hi) as [H1 H2 H3].
  split; [auto|]. split; [|auto]. intros k v Hk. destruct (H2 k v Hk) as (name & ? & ? & ?). eauto.
Qed.

(** NA is answered exactly when no name has positive weight, if nobody votes for
    a category called NA. *)
Theorem C19_NA_iff : forall size (votes : list (vote F64)),
  Forall (fun '(c, p, _) => c < size /\ p <> "NA") votes ->
  yields (cast F64 votes (NewCatBallotBox F64 size)) (fun bb =>
    forall i b iter, nth_error (cbBox bb) i = Some b -> Permutation iter b ->
      yields (catTally F64 bb iter) (fun ans =>
        ans = "NA" <-> forall name, fltb f0 (total_for F64 i name votes) = false)).
Proof.
  intros size votes H.
  assert (H1 : Forall (fun '(c, _, _) => c < size) votes).
  { eapply Forall_impl; [|exact H]. intros [[c p] w] []; auto. }
  assert (Hna : forall i, total_for F64 i "NA" votes = f0).
  { intros i. unfold total_for. replace (weights_for F64 i "NA" votes) with (@nil f64); [reflexivity|].
    clear H1. induction H as [|[[c p] w] l [_ Hp] _ IH]; [reflexivity|].
    change (weights_for F64 i "NA" ((c, p, w) :: l)) with
      ((if (c =? i) && String.eqb p "NA" then [w] else []) ++ weights_for F64 i "NA" l).
    apply String.eqb_neq in Hp. rewrite Hp, andb_false_r. exact IH. }
  eapply yields_weaken; [apply C19_cat_plurality; exact H1|].
  cbn. intros bb (_ & Hb) i b iter Hi Hp.
  eapply yields_weaken; [eapply Hb; eauto|]. cbn. intros ans [A1 A2]. split; auto.
  intros -> name. destruct (fltb f0 (total_for F64 i name votes)) eqn:E; auto.
  destruct A2 as [A _]; [eauto|]. rewrite Hna, flt_irrefl in A. discriminate.
Qed.

Example C19_ex :
  let votes := [(0, "x", f1); (1, "y", f1); (0, "y", f2); (0, "x", f1); (0, "x", f1)] in
  exists bb b, cast F64 votes (NewCatBallotBox F64 2) = Ok bb
    /\ nth_error (cbBox bb) 0 = Some b /\ length b = 2
    /\ catTally F64 bb b = Ok "x" /\ catTally F64 bb (rev b) = Ok "x".
Proof. do 2 eexists. repeat split; vm_compute; reflexivity. Qed.

(** ** C20.  Exact arithmetic.  [PF] is ParseFloat.  If on case [i] the first
    number has positive weight and no weight is negative, then the tally of [i]
    is the weighted mean of the numbers cast for [i] and NA if there are none. *)
Definition positive_start (l : list (R * R)) : Prop :=
  match l with [] => True | (_, w) :: t => (0 < w)%R /\ Forall (fun '(_, w) => 0 <= w)%R t end.

Theorem C20_num_weighted_mean : forall PF size (votes : list (vote XR)),
  Forall (fun '(c, _, _) => c < size) votes ->
  yields (ncast XR PF votes (NewNumBallotBox XR size)) (fun bb =>
    forall i, i < size ->
      let nums := real_pairs (numbers_for XR PF i votes) in
      positive_start nums ->
      numTallyNum XR bb i = Ok (Some (match nums with [] => 0 | _ => wmean nums end)%R)
      /\ numTally XR bb i = Ok (match nums with [] => None | _ => Some (Some (wmean nums)) end)).
Proof.
  intros PF size votes H.
  assert (HL : length (NewNumBallotBox XR size) = size) by apply repeat_length.
  eapply yields_weaken; [apply ncast_ok; rewrite HL; exact H|].
  cbn zeta beta. intros bb (Hlen & Hb) i Hi Hp.
  assert (Hn : nth_error (NewNumBallotBox XR size) i = Some (@rm0 XR))
    by (apply nth_error_repeat; auto).
  specialize (Hb i _ Hn). unfold numTallyNum, numTally. rewrite (get_nth _ _ Hb). cbn [bind].
  rewrite addpairs_new by exact Hp.
  destruct (real_pairs (numbers_for XR PF i votes)) as [|[v w] t] eqn:E.
  - cbn. unfold Rltb. destruct (Rlt_dec 0 0); [lra|]. auto.
  - destruct Hp as [Hw Ht]. cbn [rmRead rmMean rmCount fst]. split; [reflexivity|].
    assert (0 < wsum ((v, w) :: t))%R.
    { pose proof (wsum_nonneg _ Ht). unfold wsum in *; cbn. lra. }
    cbn [nltb XR nofZ xcmp]. rewrite (proj2 (Rltb_true _ _) H0). reflexivity.
Qed.

(** Order is irrelevant: permuted votes with positive weights give the same tally. *)
Theorem C20_order_irrelevant : forall PF size (votes votes' : list (vote XR)) bb bb',
  Forall (fun '(c, _, _) => c < size) votes ->
  (forall c p w, In (c, p, Some w) votes -> (0 < w)%R) ->
  Permutation votes votes' ->
  ncast XR PF votes (NewNumBallotBox XR size) = Ok bb ->
  ncast XR PF votes' (NewNumBallotBox XR size) = Ok bb' ->
  forall i, i < size -> numTally XR bb i = numTally XR bb' i
                        /\ numTallyNum XR bb i = numTallyNum XR bb' i.
Proof.
  intros PF size votes votes' bb bb' Hc Hw Hp E E' i Hi.
  assert (Hc' : Forall (fun '(c, _, _) => c < size) votes')
    by (eapply Permutation_Forall; eauto).
  destruct (C20_num_weighted_mean PF size votes Hc) as (b1 & E1 & T1).
  destruct (C20_num_weighted_mean PF size votes' Hc') as (b2 & E2 & T2).
  assert (b1 = bb) by congruence; assert (b2 = bb') by congruence; subst b1 b2.
  specialize (T1 i Hi); specialize (T2 i Hi). cbn zeta in T1, T2.
  assert (HP : Permutation (real_pairs (numbers_for XR PF i votes)) (real_pairs (numbers_for XR PF i votes')))
    by (apply flat_map_perm, flat_map_perm; auto).
  assert (Hpos : forall vs, (forall c p w, In (c, p, Some w) vs -> (0 < w)%R) ->
                   Forall (fun '(_, w) => (0 < w)%R) (real_pairs (numbers_for XR PF i vs))).
  { intros vs Hv. rewrite Forall_forall. intros [v w] Hin. unfold real_pairs in Hin.
    apply in_flat_map in Hin as ((a & b) & Hin & Hab). destruct a as [a|], b as [b|]; cbn in Hab; try tauto.
    destruct Hab as [Hab|[]]. inversion Hab; subst. unfold numbers_for in Hin.
    apply in_flat_map in Hin as (((c & p) & w') & Hin & Hx). destruct (c =? i); [|contradiction].
    destruct (PF p); [|contradiction]. destruct Hx as [Hx|[]]. inversion Hx; subst. eauto. }
  assert (Hps : forall l, Forall (fun '(_, w) => (0 < w)%R) l -> positive_start l).
  { intros l Hl. destruct Hl as [|[v w] t Hx Ht]; cbn; auto. split; auto.
    eapply Forall_impl; [|exact Ht]. intros [? ?]; lra. }
  destruct (T1 (Hps _ (Hpos _ Hw))) as [A1 B1].
  destruct T2 as [A2 B2].
  { apply Hps, Hpos. intros c p w Hin. apply Hw with c p. eapply Permutation_in; [symmetry; eauto|auto]. }
  rewrite A1, A2, B1, B2. pose proof (wmean_perm _ _ HP) as Hm.
  destruct (real_pairs (numbers_for XR PF i votes)) as [|x l] eqn:E3.
  - apply Permutation_nil in HP. rewrite HP. auto.
  - destruct (real_pairs (numbers_for XR PF i votes')) as [|y l'] eqn:E4.
    + apply Permutation_sym, Permutation_nil in HP. discriminate.
    + rewrite Hm. auto.
Qed.

(** A parser for the examples. *)
Definition exPF (N : arith) (s : string) : option N :=
  if String.eqb s "1" then Some (nofZ N 1) else if String.eqb s "2" then Some (nofZ N 2)
  else if String.eqb s "5" then Some (nofZ N 5) else None.

Example C20_ex :
  let votes := [(0, "1", Some 1%R); (1, "2", Some 1%R); (0, "x", Some 7%R); (0, "5", Some 3%R)] in
  yields (ncast XR (exPF XR) votes (NewNumBallotBox XR 2)) (fun bb =>
    numTallyNum XR bb 0 = Ok (Some 4%R)).
Proof.
  intros votes. eapply yields_weaken; [apply C20_num_weighted_mean|].
  - repeat constructor.
  - intros bb H. cbn beta in H. specialize (H 0 ltac:(lia)). cbn zeta in H.
    change (real_pairs (numbers_for XR (exPF XR) 0 votes)) with [(1%R, 1%R); (5%R, 3%R)] in H.
    destruct H as [H _].
    + cbn. split; [lra|]. repeat constructor; lra.
    + rewrite H. unfold wmean, wvsum, wsum. cbn. do 2 f_equal. lra.
Qed.

(** ** C21.  The tally of a sum ballot is the sum of prediction times weight over
    the votes on the case that parse, in the order cast (any arithmetic), and a
    number is answered for every case. *)
Theorem C21_sum : forall N PF size (votes : list (vote N)),
  Forall (fun '(c, _, _) => c < size) votes ->
  yields (scast N PF votes (NewSumBallotBox N size)) (fun bb =>
    forall i, i < size ->
      let s := fold_left (fun s '(v, w) => nadd N s (nmul N v w))
                         (numbers_for N PF i votes) (nofZ N 0) in
      sumTallyNum N bb i = Ok s /\ sumTally N bb i = Ok (Some s)).
Proof.
  intros N PF size votes H.
  assert (HL : length (NewSumBallotBox N size) = size) by apply repeat_length.
  eapply yields_weaken; [apply scast_ok; rewrite HL; exact H|].
  cbn zeta beta. intros bb (Hlen & Hb) i Hi.
  assert (Hn : nth_error (NewSumBallotBox N size) i = Some (nofZ N 0))
    by (apply nth_error_repeat; auto).
  specialize (Hb i _ Hn). unfold sumTally, sumTallyNum. rewrite (get_nth _ _ Hb). auto.
Qed.

(** In exact arithmetic this is the real sum, independent of the order. *)
Theorem C21_sum_exact : forall PF size (votes : list (vote XR)) i,
  Forall (fun '(c, _, _) => c < size) votes -> i < size ->
  Forall (fun '(v, w) => v <> None /\ w <> None) (numbers_for XR PF i votes) ->
  forall votes', Permutation votes votes' ->
  yields (scast XR PF votes' (NewSumBallotBox XR size)) (fun bb =>
    sumTallyNum XR bb i = Ok (Some (wvsum (real_pairs (numbers_for XR PF i votes))))).
Proof.
  intros PF size votes i Hc Hi Hr votes' Hp.
  eapply yields_weaken; [apply C21_sum; eapply Permutation_Forall; eauto|].
  intros bb H. destruct (H i Hi) as [-> _]. f_equal.
  assert (HP : Permutation (numbers_for XR PF i votes) (numbers_for XR PF i votes'))
    by (apply flat_map_perm; auto).
  change (fold_left (fun s '(v, w) => nadd XR s (nmul XR v w)) (numbers_for XR PF i votes') (nofZ XR 0))
    with (sumpairs XR (numbers_for XR PF i votes') (Some 0%R)).
  rewrite sumpairs_exact by (eapply Permutation_Forall; eauto).
  f_equal. rewrite Rplus_0_l. unfold wvsum. apply Rsum_perm, Permutation_map.
  apply flat_map_perm. symmetry; auto.
Qed.

Example C21_ex :
  let votes := [(0, "1", f1); (1, "2", f1); (0, "x", f1); (0, "5", f2)] in
  exists bb, scast F64 (exPF F64) votes (NewSumBallotBox F64 2) = Ok bb
    /\ sumTallyNum F64 bb 0 = Ok (f_of_Z 11) /\ sumTallyNum F64 bb 1 = Ok (f_of_Z 2).
Proof. eexists. repeat split; vm_compute; reflexivity. Qed.

(** ** C22.  Goroutines voting into a numerical or sum box, interleaved at every
    single read and write: when all are done the box is the one a sequential
    run of the same votes in some order (respecting each goroutine's order)
    produces, and no schedule gets stuck before. *)
Theorem C22_num_linearizable : forall N PF size ths sched m',
  Forall (Forall (fun '(c, _, _) => c < size)) ths ->
  exec sched (numVotes_start N PF size ths) = Some m' -> finished m' ->
  exists l, interleave ths l /\ ncast N PF l (NewNumBallotBox N size) = Ok (mCells m').
Proof.
  intros N PF size ths sched m' H. apply num_concurrent.
  eapply Forall_impl; [|exact H]. intros l. apply Forall_impl. intros [[c p] w]; auto.
Qed.

Theorem C22_sum_linearizable : forall N PF size ths sched m',
  Forall (Forall (fun '(c, _, _) => c < size)) ths ->
  exec sched (sumVotes_start N PF size ths) = Some m' -> finished m' ->
  exists l, interleave ths l /\ scast N PF l (NewSumBallotBox N size) = Ok (mCells m').
Proof.
  intros N PF size ths sched m' H. apply sum_concurrent.
  eapply Forall_impl; [|exact H]. intros l. apply Forall_impl. intros [[c p] w]; auto.
Qed.

Theorem C22_no_deadlock : forall N PF size ths sched,
  Forall (Forall (fun '(c, _, _) => c < size)) ths ->
  (forall m', exec sched (numVotes_start N PF size ths) = Some m' -> ~ finished m' ->
     exists t m'', step t m' = Some m'')
  /\ (forall m', exec sched (sumVotes_start N PF size ths) = Some m' -> ~ finished m' ->
     exists t m'', step t m' = Some m'').
Proof.
  intros N PF size ths sched H.
  assert (Forall (Forall (fun v => vcase N v < size)) ths).
  { eapply Forall_impl; [|exact H]. intros l. apply Forall_impl. intros [[c p] w]; auto. }
  split; intros m' E Hf; [eapply num_progress|eapply sum_progress]; eauto.
Qed.

(** In exact arithmetic with positive weights all complete schedules agree. *)
Theorem C22_exact_tally_unique : forall PF size (ths : list (list (vote XR))) s1 s2 m1 m2,
  Forall (Forall (fun '(c, _, _) => c < size)) ths ->
  (forall l c p w, In l ths -> In (c, p, Some w) l -> (0 < w)%R) ->
  exec s1 (numVotes_start XR PF size ths) = Some m1 -> finished m1 ->
  exec s2 (numVotes_start XR PF size ths) = Some m2 -> finished m2 ->
  forall i, i < size -> numTally XR (mCells m1) i = numTally XR (mCells m2) i.
Proof.
  intros PF size ths s1 s2 m1 m2 H Hw E1 F1 E2 F2 i Hi.
  destruct (C22_num_linearizable _ _ _ _ _ _ H E1 F1) as (l1 & I1 & R1).
  destruct (C22_num_linearizable _ _ _ _ _ _ H E2 F2) as (l2 & I2 & R2).
  pose proof (interleave_perm _ _ I1) as P1. pose proof (interleave_perm _ _ I2) as P2.
  eapply (C20_order_irrelevant PF size l1 l2); eauto.
  - eapply Permutation_Forall; [exact P1|]. apply Forall_concat. exact H.
  - intros c p w Hin. eapply Permutation_in in Hin; [|symmetry; exact P1].
    apply in_concat in Hin as (l & Hl & Hin). eauto.
  - rewrite <- P1. exact P2.
Qed.

Example C22_ex :
  let ths := [[(0, "1", f1)]; [(0, "5", f1)]] in
  (* goroutine 1 starts after goroutine 0 has the lock and waits *)
  match exec (repeat 0 8 ++ repeat 1 8) (numVotes_start F64 (exPF F64) 1 ths) with
  | Some m' => map (fun th => length (fst th)) (mThreads m') = [0; 0]
               /\ numTallyNum F64 (mCells m') 0 = Ok (f_of_Z 3)
  | None => False
  end
  /\ match exec [0; 0; 1] (numVotes_start F64 (exPF F64) 1 ths) with
     | Some _ => False
     | None => True
     end.
Proof. vm_compute. repeat split. Qed.

(** ** C23 is false: CatToNum runs outside of the mutex.  Two goroutines voting for
    "a" and "b" can both be given number 0, so that the vote for "b" is
    credited to "a". *)
Theorem C23_concurrent_cat_votes_refuted :
  let ths := [[(0, "a", f1)]; [(0, "b", f1)]] : list (list (vote F64)) in
  (exists sched,
     match exec sched (catVotes_start F64 1 ths) with
     | Some m' =>
         (* both goroutines have finished *)
         map (fun th => length (fst th)) (mThreads m') = [0; 0] /\
         match mCells m' with
         | [CM _ cm; CBallot _ b] =>
             cmBack cm = ["a"; "b"]
             /\ b = [(0, f2)]                   (* weight 2 for "a", nothing for "b" *)
         | _ => False
         end
     | None => False
     end)
  /\ total_for F64 0 "a" (concat ths) = f1 /\ total_for F64 0 "b" (concat ths) = f1
  (* no sequential order of the two votes leaves this ballot *)
  /\ ~ exists l bb, interleave ths l /\ cast F64 l (NewCatBallotBox F64 1) = Ok bb
                    /\ cbBox bb = [[(0, f2)]].
Proof.
  intros ths. split; [|split; [vm_compute; reflexivity|split; [vm_compute; reflexivity|]]].
  - exists [0; 0; 1; 1; 0; 0; 1; 1; 0; 0; 0; 1; 1; 1]. vm_compute. repeat split.
  - intros (l & bb & Hi & Hc & Hb).
    assert (Hl : l = [(0, "a", f1); (0, "b", f1)] \/ l = [(0, "b", f1); (0, "a", f1)]).
    { apply interleave_perm in Hi. cbn in Hi.
      apply Permutation_length_2_inv in Hi. destruct Hi as [E|E]; inversion E; auto. }
    assert (Hx : match cast F64 l (NewCatBallotBox F64 1) with
                 | Ok bb => length (concat (cbBox bb)) = 2
                 | _ => True
                 end) by (destruct Hl as [->| ->]; vm_compute; reflexivity).
    rewrite Hc, Hb in Hx. discriminate.
Qed.

(** ** C24 is false when the first vote of a case has weight zero: 0/0 makes the
    mean NaN, and it stays NaN for good. *)
Theorem C24_leading_zero_refuted : forall PF size i p v votes,
  i < size -> PF p = Some v -> is_nan v = false ->
  Forall (fun '(c, _, _) => c < size) votes ->
  yields (ncast F64 PF ((i, p, f0) :: votes) (NewNumBallotBox F64 size)) (fun bb =>
    numTallyNum F64 bb i = Ok S754_nan).
Proof.
  intros PF size i p v votes Hi Hp Hv Hc.
  assert (HL : length (NewNumBallotBox F64 size) = size) by apply repeat_length.
  eapply yields_weaken; [apply ncast_ok; rewrite HL; constructor; auto|].
  cbn beta. intros bb (Hlen & Hb).
  assert (Hn : nth_error (NewNumBallotBox F64 size) i = Some (@rm0 F64))
    by (apply nth_error_repeat; auto).
  specialize (Hb i _ Hn). unfold numTallyNum. rewrite (get_nth _ _ Hb). cbn [bind].
  f_equal. cbn [rmRead fst].
  change (numbers_for F64 PF i ((i, p, f0) :: votes)) with
    ((if i =? i then match PF p with Some v => [(v, f0)] | None => [] end else [])
      ++ numbers_for F64 PF i votes).
  rewrite Nat.eqb_refl, Hp. cbn [app addpairs fold_left].
  assert (Hnan : forall l (rm : rmean F64), rmMean rm = (S754_nan : F64) -> rmMean (addpairs F64 l rm) = (S754_nan : F64)).
  { induction l as [|[a b] l IH]; intros rm Hrm; auto. cbn [addpairs fold_left]. apply IH.
    unfold WeightedAdd. destruct (_ && _); auto. cbn [rmMean]. rewrite Hrm. reflexivity. }
  apply Hnan. unfold WeightedAdd. cbn [nnan F64]. rewrite Hv. cbn [is_nan f0 negb andb].
  cbn [rmMean]. cbn. destruct v as [[]|[]| |[] m e]; reflexivity.
Qed.

(** What remains true (exact arithmetic): a zero weight vote after a case has
    received positive weight changes nothing, whatever is cast later. *)
Theorem C24_later_zero_partial : forall PF size (before after : list (vote XR)) i p,
  Forall (fun '(c, _, _) => c < size) (before ++ after) -> i < size ->
  positive_start (real_pairs (numbers_for XR PF i before)) ->
  real_pairs (numbers_for XR PF i before) <> [] ->
  exists bb, ncast XR PF (before ++ after) (NewNumBallotBox XR size) = Ok bb
    /\ ncast XR PF (before ++ (i, p, Some 0%R) :: after) (NewNumBallotBox XR size) = Ok bb.
Proof.
  intros PF size before after i p Hc Hi Hp Hne.
  assert (HL : length (NewNumBallotBox XR size) = size) by apply repeat_length.
  destruct (ncast_ok XR PF (before ++ after) (NewNumBallotBox XR size)) as (bb & E & L & B);
    [rewrite HL; auto|].
  destruct (ncast_ok XR PF (before ++ (i, p, Some 0%R) :: after) (NewNumBallotBox XR size))
    as (bb' & E' & L' & B').
  { rewrite HL. apply Forall_app in Hc as [H1 H2]. apply Forall_app; auto. }
  exists bb. split; auto. rewrite E'. f_equal. apply nth_error_ext'. intros k.
  destruct (nth_error (NewNumBallotBox XR size) k) as [rm|] eqn:Ek.
  2: { apply nth_error_None in Ek. rewrite !(proj2 (nth_error_None _ _)) by lia. reflexivity. }
  rewrite (B' _ _ Ek), (B _ _ Ek). f_equal. rewrite !numbers_for_app.
  unfold addpairs. rewrite !fold_left_app.
  assert (rm = @rm0 XR) by (apply nth_error_In, repeat_spec in Ek; auto). subst rm.
  destruct (Nat.eqb_spec i k) as [->|Hik].
  - change (numbers_for XR PF k ((k, p, Some 0%R) :: after)) with
      ((if k =? k then match PF p with Some v => [(v, Some 0%R : XR)] | None => [] end else [])
        ++ numbers_for XR PF k after).
    rewrite Nat.eqb_refl. destruct (PF p) as [v|]; [|reflexivity].
    rewrite fold_left_app. f_equal. cbn [fold_left].
    change (fold_left (fun rm '(v0, w) => WeightedAdd XR rm v0 w) (numbers_for XR PF k before) (@rm0 XR))
      with (addpairs XR (numbers_for XR PF k before) (@rm0 XR)).
    rewrite addpairs_new by exact Hp.
    destruct (real_pairs (numbers_for XR PF k before)) as [|[a b] t] eqn:Er; [congruence|].
    destruct Hp as [Hb Ht]. pose proof (wsum_nonneg _ Ht) as Hs.
    assert (Hpos : (0 < wsum ((a, b) :: t))%R) by (unfold wsum in *; cbn; lra).
    destruct v as [v|]; [|reflexivity].
    unfold WeightedAdd; cbn [nnan XR negb andb rmMean rmCount nadd nmul ndiv lift2].
    rewrite xdiv_some by lra. f_equal; f_equal; [|lra]. field. lra.
  - change (numbers_for XR PF k ((i, p, Some 0%R) :: after)) with
      ((if i =? k then match PF p with Some v => [(v, Some 0%R : XR)] | None => [] end else [])
        ++ numbers_for XR PF k after).
    apply Nat.eqb_neq in Hik. rewrite Hik. reflexivity.
Qed.

Example C24_ex : positive_start (real_pairs (numbers_for XR (exPF XR) 0 [(0, "1", Some 1%R)]))
  /\ real_pairs (numbers_for XR (exPF XR) 0 [(0, "1", Some 1%R)]) <> [].
Proof. cbn. repeat split; try constructor; try lra; discriminate. Qed.

(** ** C25.  Goroutines adding to a new counter, interleaved statement by
    statement: at the end the entry (i,j) is the sum of what was added there,
    and WriteTsv lists exactly the pairs touched, each once, whatever the
    iteration orders. *)
Theorem C25_sparse_counts : forall ths sched m',
  exec sched (scAdds_start ths) = Some m' -> finished m' ->
  exists c, mCells m' = [c] /\
    forall outer, iterated c outer ->
      NoDup (map fst (WriteTsv outer))
      /\ forall i j v, In (i, j, v) (WriteTsv outer) <->
           (exists x, In (i, j, x) (concat ths)) /\ v = sum_added i j (concat ths).
Proof.
  intros ths sched m' E Hf. destruct (sc_concurrent _ _ _ E Hf) as (l & Hi & Hc).
  exists (addall l None). split; auto. intros outer Ho.
  destruct (WriteTsv_ok (addall l None) outer) as [H1 H2]; auto.
  { apply addall_wf. exact I. }
  split; auto. intros i j v. rewrite H2, addall_lookup.
  pose proof (interleave_perm _ _ Hi) as HP.
  assert (Hs : sum_added i j l = sum_added i j (concat ths)).
  { symmetry. clear - HP. induction HP as [|[[a b] x] l l' _ IH|[[a b] x] [[c d] y] l|l1 l2 l3 _ IH1 _ IH2];
      cbn [sum_added fold_right]; auto.
    - fold (sum_added i j l). fold (sum_added i j l'). rewrite IH; auto.
    - destruct (_ && _), (_ && _); lia.
    - congruence. }
  cbn [sc_lookup].
  destruct (existsb _ l) eqn:Ex.
  - split.
    + intros Hv. inversion Hv; subst. split; auto. apply existsb_exists in Ex as (((a & b) & x) & Hin & Hab).
      apply andb_true_iff in Hab as [A B]. apply Nat.eqb_eq in A, B. subst.
      exists x. eapply Permutation_in; [symmetry; exact HP|auto].
    + intros [_ ->]. rewrite <- Hs. reflexivity.
  - split; [discriminate|]. intros [[x Hx] _]. exfalso.
    apply Permutation_in with (l' := l) in Hx; auto.
    assert (existsb (fun '(i0, j0, _) => (i =? i0) && (j =? j0)) l = true); [|congruence].
    apply existsb_exists. exists (i, j, x). rewrite !Nat.eqb_refl. auto.
Qed.

Example C25_ex :
  match exec ([0; 0] ++ repeat 0 5 ++ repeat 1 7) (scAdds_start [[(1, 2, 3%Z)]; [(1, 2, 4%Z)]]) with
  | Some m' => map (fun th => length (fst th)) (mThreads m') = [0; 0]
               /\ mCells m' = [Some [(1, [(2, 7%Z)])]]
  | None => False
  end.
Proof. vm_compute. repeat split. Qed.

(** ** C27.  The balanced error (exact arithmetic) for a feature whose categories
    all occur: one minus the mean recall, in [0,1], 0 if all present cases are
    answered right, 1 if all are answered wrong. *)
Definition right_answer (f : catF) (answers : list string) (i : nat) : Prop :=
  nth (nth i (cData f) 0) (cmBack (cMap f)) "" = nth i answers "".

Theorem C27_balanced_error : forall (f : catF) size (votes : list (vote XR)) iters,
  Forall (fun '(c, _, _) => c < size) votes ->
  cLength f <= size -> length (cData f) = cLength f -> 0 < NCats (cMap f) ->
  (forall i, i < cLength f -> nth i (cMissing f) true = false -> nth i (cData f) 0 < NCats (cMap f)) ->
  (forall c, c < NCats (cMap f) ->
     exists i, i < cLength f /\ nth i (cMissing f) true = false /\ nth i (cData f) 0 = c) ->
  yields (cast XR votes (NewCatBallotBox XR size)) (fun bb =>
    (forall i b, nth_error (cbBox bb) i = Some b -> Permutation (iters i) b) ->
    exists answers e,
      (forall i, i < cLength f -> catTally XR bb (iters i) = Ok (nth i answers ""))
      /\ catTallyError XR bb f iters = Ok (Some e)
      /\ (0 <= e <= 1)%R
      /\ ((forall i, i < cLength f -> nth i (cMissing f) true = false -> right_answer f answers i) -> e = 0%R)
      /\ ((forall i, i < cLength f -> nth i (cMissing f) true = false -> ~ right_answer f answers i) -> e = 1%R)).
Proof.
  intros f size votes iters Hc Hsz Hlen HK Hdata Hcats.
  eapply yields_weaken; [apply cast_ok; exact Hc|].
  cbn beta. intros bb (Hcm & Hl & Hb) Hit.
  assert (Hall : forall i, i < cLength f -> exists ans, catTally XR bb (iters i) = Ok ans).
  { intros i Hi. destruct (nth_error (cbBox bb) i) as [b|] eqn:Eb.
    - eapply catTally_total; eauto.
    - apply nth_error_None in Eb. lia. }
  assert (Hans : exists answers, length answers = cLength f /\
            forall i, i < cLength f -> catTally XR bb (iters i) = Ok (nth i answers "")).
  { clear - Hall. revert Hall. generalize (cLength f) as n. induction n as [|n IH]; intros Hall.
    - exists []. split; auto. lia.
    - destruct IH as (a & La & Ha); [intros; apply Hall; lia|].
      destruct (Hall n ltac:(lia)) as (x & Hx). exists (a ++ [x]). rewrite app_length; cbn. split; [lia|].
      intros i Hi. destruct (Nat.eq_dec i n) as [->|].
      + rewrite app_nth2, La, Nat.sub_diag by lia. auto.
      + rewrite app_nth1 by lia. apply Ha. lia. }
  destruct Hans as (answers & La & Hans).
  assert (Hcnt : forall c, c < NCats (cMap f) -> 0 < count (counts_for f c) (cLength f)).
  { intros c Hcc. destruct (Hcats c Hcc) as (i & Hi & Hm & Hd).
    unfold count. assert (Hin : In i (filter (counts_for f c) (seq 0 (cLength f)))).
    { apply filter_In. split; [apply in_seq; lia|]. unfold counts_for. rewrite Hm, Hd, Nat.eqb_refl. auto. }
    destruct (filter _ _); [contradiction|cbn; lia]. }
  pose proof (catTallyError_exact f bb iters answers Hlen Hdata ltac:(lia) Hans Hcnt HK) as He.
  set (K := NCats (cMap f)) in *.
  set (rs := map (recall f answers) (seq 0 K)) in *.
  assert (HKpos : (0 < INR K)%R) by (apply lt_0_INR; auto).
  assert (HlenR : length rs = K) by (unfold rs; rewrite map_length, seq_length; auto).
  exists answers, (1 - Rsum rs / INR K)%R.
  split; [auto|]. split; [exact He|].
  assert (Hdiv : forall x, (Rsum rs = INR K * x)%R -> (1 - Rsum rs / INR K = 1 - x)%R).
  { intros x Hx. rewrite Hx. field. lra. }
  assert (Heq : forall x, (forall c, c < K -> recall f answers c = x) -> (1 - Rsum rs / INR K = 1 - x)%R).
  { intros x Hx. apply Hdiv.
    assert (Hf : Forall (fun y => x <= y <= x)%R rs).
    { unfold rs. rewrite Forall_map, Forall_forall. intros c Hin. apply in_seq in Hin.
      rewrite Hx by lia. lra. }
    apply Rsum_bounds in Hf. rewrite HlenR in Hf. lra. }
  assert (Hcov : forall c (P : nat -> bool), (forall i, i < cLength f -> counts_for f c i = true -> P i = true) ->
            (forall i, P i = true -> counts_for f c i = true) ->
            count P (cLength f) = count (counts_for f c) (cLength f)).
  { intros c P H1 H2. unfold count. f_equal. apply filter_ext_in. intros i Hi. apply in_seq in Hi.
    destruct (counts_for f c i) eqn:E1; destruct (P i) eqn:E2; auto.
    - rewrite <- E2. apply H1; auto. lia.
    - apply H2 in E2. congruence. }
  split; [|split].
  - assert (Hf : Forall (fun y => 0 <= y <= 1)%R rs).
    { unfold rs. rewrite Forall_map, Forall_forall. intros c Hin. apply in_seq in Hin.
      eapply recall_range with (bb := bb); eauto; try lia. }
    apply Rsum_bounds in Hf. rewrite HlenR in Hf.
    assert (0 <= Rsum rs / INR K <= 1)%R; [|lra]. split.
    + apply Rmult_le_pos; [lra|]. left. apply Rinv_0_lt_compat; auto.
    + apply Rmult_le_reg_r with (INR K); auto. unfold Rdiv. rewrite Rmult_assoc, Rinv_l by lra. lra.
  - intros Hright. rewrite (Heq 1%R); [lra|]. intros c Hcc. unfold recall.
    rewrite (Hcov c (right_for f answers c)).
    + apply Rinv_r. apply not_0_INR. specialize (Hcnt c Hcc). lia.
    + intros i Hi Hcf. unfold right_for. rewrite Hcf. cbn [andb]. apply String.eqb_eq.
      unfold counts_for in Hcf. apply andb_true_iff in Hcf as [Hm Hd]. apply Nat.eqb_eq in Hd. subst c.
      apply Hright; auto. destruct (nth i (cMissing f) true); auto; discriminate.
    + unfold right_for. intros i H. apply andb_true_iff in H as []; auto.
  - intros Hwrong. rewrite (Heq 0%R); [lra|]. intros c Hcc. unfold recall.
    replace (count (right_for f answers c) (cLength f)) with 0; [cbn; lra|].
    unfold count. symmetry. replace (filter _ _) with (@nil nat); auto. symmetry.
    apply filter_false. rewrite Forall_forall. intros i Hi. apply in_seq in Hi.
    destruct (right_for f answers c i) eqn:E; auto. exfalso.
    unfold right_for, counts_for in E. apply andb_true_iff in E as [E E2]. apply andb_true_iff in E as [Hm Hd].
    apply Nat.eqb_eq in Hd. apply String.eqb_eq in E2. subst c. apply (Hwrong i); auto; [lia|].
    destruct (nth i (cMissing f) true); auto; discriminate.
Qed.

(** A feature of the kind the theorem speaks about: two categories, one missing
    value. *)
Example C27_ex :
  let f := mkCat (mkCM [("b", 1); ("a", 0)] ["a"; "b"]) [0; 1; 0] [false; false; true] "" false true in
  (forall i, i < cLength f -> nth i (cMissing f) true = false -> nth i (cData f) 0 < NCats (cMap f))
  /\ (forall c, c < NCats (cMap f) ->
     exists i, i < cLength f /\ nth i (cMissing f) true = false /\ nth i (cData f) 0 = c).
Proof.
  cbn. split.
  - intros i Hi. destruct i as [|[|[|]]]; cbn; lia.
  - intros c Hc. exists c. destruct c as [|[|]]; cbn; lia.
Qed.

(** ** C28 is false: a case without votes has tally 0.0, not NaN, and is compared
    with the feature as if 0 had been predicted. *)
Theorem C28_unvoted_cases_count_refuted :
  exists bb, ncast F64 (exPF F64) [(0, "5", f1)] (NewNumBallotBox F64 2) = Ok bb
    /\ numbers_for F64 (exPF F64) 1 [(0, "5", f1)] = []
    /\ numTally F64 bb 1 = Ok None
    (* both values are 5, the only prediction made is right, the error is 12.5 *)
    /\ TallySquaredError F64 bb [f_of_Z 5; f_of_Z 5] [false; false]
       = Ok (Some (fdiv (f_of_Z 25) f2)).
Proof. eexists. repeat split; vm_compute; reflexivity. Qed.

(** What is computed (exact arithmetic): the mean over all present cases, a case
    without votes counting as a prediction of 0. *)
Theorem C28_squared_error_partial : forall PF size votes (data : list R) (miss : list bool),
  Forall (fun '(c, _, _) => c < size) votes ->
  length data = length miss -> length miss <= size ->
  (forall i, i < size -> positive_start (real_pairs (numbers_for XR PF i votes))) ->
  let pred i := match real_pairs (numbers_for XR PF i votes) with [] => 0%R | l => wmean l end in
  let errs := map (fun i => ((nth i data 0 - pred i) * (nth i data 0 - pred i))%R)
                  (filter (fun i => negb (nth i miss true)) (seq 0 (length miss))) in
  yields (ncast XR PF votes (NewNumBallotBox XR size)) (fun bb =>
    errs <> [] ->
    TallySquaredError XR bb (map Some data) miss = Ok (Some (Some (Rsum errs / INR (length errs))%R))).
Proof.
  intros PF size votes data miss Hc Hl1 Hl2 Hp pred errs.
  eapply yields_weaken; [apply C20_num_weighted_mean; exact Hc|].
  cbn beta zeta. intros bb H Hne.
  assert (Hbb : size <= length bb).
  { destruct size as [|s]; [lia|]. destruct (H s ltac:(lia) (Hp s ltac:(lia))) as [E _].
    unfold numTallyNum in E. destruct (lt_dec s (length bb)); [lia|].
    rewrite get_panic in E by lia. discriminate. }
  assert (Hn : forall i, i < length miss -> nth i (map pred (seq 0 (length miss))) 0%R = pred i).
  { intros i Hi. rewrite nth_indep with (d' := pred 0) by (rewrite map_length, seq_length; auto).
    rewrite map_nth, seq_nth by auto. reflexivity. }
  rewrite (TallySquaredError_exact bb data miss (map pred (seq 0 (length miss)))); auto; [|lia|].
  - assert (Hs : forall k, k <= length miss ->
       sqerrs data miss (map pred (seq 0 (length miss))) k =
       map (fun i => ((nth i data 0 - pred i) * (nth i data 0 - pred i))%R)
           (filter (fun i => negb (nth i miss true)) (seq 0 k))).
    { induction k as [|k IH]; intros Hk; [reflexivity|].
      rewrite sqerrs_S, IH, seq_S, filter_app, map_app by lia. f_equal. cbn [plus filter].
      destruct (nth k miss true); cbn [negb map]; auto. rewrite Hn by lia. reflexivity. }
    rewrite Hs by auto. fold errs. destruct errs; [congruence|reflexivity].
  - intros i Hi _. rewrite Hn by auto. destruct (H i ltac:(lia) (Hp i ltac:(lia))) as [-> _].
    unfold pred. destruct (real_pairs _); reflexivity.
Qed.

Example C28_ex : positive_start (real_pairs (numbers_for XR (exPF XR) 0 [(0, "5", Some 1%R)])).
Proof. cbn. split; [lra|constructor]. Qed.

Print Assumptions C19_cat_plurality.
Print Assumptions C19_cat_totals.
Print Assumptions C19_NA_iff.
Print Assumptions C20_num_weighted_mean.
Print Assumptions C20_order_irrelevant.
Print Assumptions C21_sum.
Print Assumptions C21_sum_exact.
Print Assumptions C22_num_linearizable.
Print Assumptions C22_sum_linearizable.
Print Assumptions C22_no_deadlock.
Print Assumptions C22_exact_tally_unique.
Print Assumptions C23_concurrent_cat_votes_refuted.
Print Assumptions C24_leading_zero_refuted.
Print Assumptions C24_later_zero_partial.
Print Assumptions C25_sparse_counts.
Print Assumptions C27_balanced_error.
Print Assumptions C28_unvoted_cases_count_refuted.
Print Assumptions C28_squared_error_partial.
