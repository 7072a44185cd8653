(** C114: the out of bag votes of growforest (growforest/growforest.go). *)
From Verif Require Import Go GoLemmas F64 Exact ModelFeature ModelSample ModelSplit ModelTree TreeSpec TreeProofs
  ModelBallot BallotSpec BallotProofs ModelCommands ModelCommands2 PropSample PropTree PropBallot.
Local Open Scope string_scope.
Local Open Scope nat_scope.
Local Open Scope list_scope.

(** The votes for one case, in the order cast. *)
Definition own (c : nat) (votes : ballots) : ballots := filter (fun '(c', _, _) => c' =? c) votes.
(** What a tree says about a case it was not trained on: nothing if it was, or if the case
    stops at a split; otherwise one vote for the prediction of its leaf. *)
Definition unseen_vote (fm : fmatrix) (c : nat) (t : trained) : ballots :=
  let '(sample, root, w) := t in
  if in_dec Nat.eq_dec c sample then []
  else match follow fm root c with
       | Some p => [(c, node_pred (at_path root p), if fleb f0 w then w else f1)]
       | None => []
       end.

Lemma own_app c a b : own c (a ++ b) = own c a ++ own c b.
Proof. apply filter_app. Qed.
Lemma own_due fm t w c : forall cases, NoDup cases ->
  own c (due fm t w cases) =
  if in_dec Nat.eq_dec c cases then match follow fm t c with Some p => [(c, node_pred (at_path t p), w)] | None => [] end else [].
Proof.
  induction cases as [|a cases IH]; intros Hn; [reflexivity|]. inversion Hn as [|? ? Ha Hn']; subst.
  unfold due. cbn [flat_map]. fold (due fm t w cases). rewrite own_app, (IH Hn').
  destruct (Nat.eq_dec a c) as [->|Hac].
  - assert (E : own c (match follow fm t c with Some p => [(c, node_pred (at_path t p), w)] | None => [] end)
                = match follow fm t c with Some p => [(c, node_pred (at_path t p), w)] | None => [] end).
    { destruct (follow fm t c); [|reflexivity]. cbn. rewrite Nat.eqb_refl. reflexivity. }
    etransitivity; [apply f_equal2; [exact E|reflexivity]|]. destruct (in_dec Nat.eq_dec c cases) as [H|_]; [contradiction|]. rewrite app_nil_r.
    destruct (in_dec Nat.eq_dec c (c :: cases)) as [_|H]; [reflexivity|]. exfalso. apply H. left. reflexivity.
  - assert (E : own c (match follow fm t a with Some p => [(a, node_pred (at_path t p), w)] | None => [] end) = []).
    { destruct (follow fm t a); [|reflexivity]. cbn. destruct (Nat.eqb_spec a c); [contradiction|reflexivity]. }
    etransitivity; [apply f_equal2; [exact E|reflexivity]|]. cbn [app].
    destruct (in_dec Nat.eq_dec c cases) as [H|H], (in_dec Nat.eq_dec c (a :: cases)) as [H'|H']; try reflexivity.
    + exfalso. apply H'. right. exact H.
    + exfalso. destruct H'; [congruence|contradiction].
Qed.
Lemma filter_perm {A} (f : A -> bool) l l' : Permutation l l' -> Permutation (filter f l) (filter f l').
Proof.
  induction 1; cbn; auto.
  - destruct (f x); auto.
  - destruct (f x), (f y); auto. constructor.
  - etransitivity; eauto.
Qed.

(** A tree that VoteCases handles, trained on some of the cases. *)
Definition votes_fine (fm : fmatrix) (nCases : nat) (t : trained) : Prop :=
  let '(sample, root, _) := t in
  (forall c, In c sample -> c < nCases) /\ root <> Nil /\ well_formed root /\ usable fm (seq 0 nCases) root.

Lemma oob_tree_votes fm nCases t bb : votes_fine fm nCases t ->
  exists votes, oob_tree fm nCases t bb = Ok (bb ++ votes) /\
    (forall c, c < nCases -> own c votes = unseen_vote fm c t) /\ Forall (fun '(c, _, _) => c < nCases) votes.
Proof.
  destruct t as [[sample root] w]. intros (Hs & Hr & Hw & Hu). unfold oob_tree.
  destruct (C14_oob_complement nCases sample Hs) as (oob & E & Hin & Hnd & _). rewrite E. cbn [bind].
  assert (Hu' : usable fm oob root).
  { eapply usable_incl; [|exact Hu]. intros x Hx. apply in_seq. apply Hin in Hx. lia. }
  destruct (C18_each_case_votes_once fm root w oob bb Hr Hw Hu') as (arr & votes & Ev & _ & P). rewrite Ev. cbn [bind].
  exists votes. split; [reflexivity|]. split.
  - intros c Hc. pose proof (filter_perm (fun '(c', _, _) => c' =? c) _ _ P) as P'. fold (own c votes) in P'.
    match type of P' with Permutation _ ?x => change x with (own c (due fm root (if fleb f0 w then w else f1) oob)) in P' end.
    rewrite own_due in P' by exact Hnd. unfold unseen_vote.
    destruct (in_dec Nat.eq_dec c oob) as [Ho|Ho], (in_dec Nat.eq_dec c sample) as [Hi|Hi].
    + apply Hin in Ho. tauto.
    + destruct (follow fm root c); [apply Permutation_sym, Permutation_length_1_inv in P'; exact P'|apply Permutation_sym, Permutation_nil in P'; exact P'].
    + apply Permutation_sym, Permutation_nil in P'. exact P'.
    + exfalso. apply Ho, Hin. auto.
  - eapply Permutation_Forall; [apply Permutation_sym; exact P|]. apply Forall_forall. intros [[c p] w'] Hv.
    unfold due in Hv. apply in_flat_map in Hv as (c' & Hc' & Hv). destruct (follow fm root c'); [|destruct Hv].
    destruct Hv as [Hv|[]]. inversion Hv; subst. apply Hin in Hc'. tauto.
Qed.

(** The votes for every case are, in order, those of the trees that were not trained on it,
    one vote for the leaf it reaches; no tree votes on a case of its own sample. *)
Theorem C114_unseen_trees_vote : forall fm nCases trees, Forall (votes_fine fm nCases) trees ->
  exists votes, oob_votes fm nCases trees = Ok votes /\
    (forall c, c < nCases -> own c votes = flat_map (unseen_vote fm c) trees) /\
    Forall (fun '(c, _, _) => c < nCases) votes.
Proof.
  intros fm nCases trees H. unfold oob_votes.
  enough (G : forall bb, exists votes, foreach trees (oob_tree fm nCases) bb = Ok (bb ++ votes) /\
    (forall c, c < nCases -> own c votes = flat_map (unseen_vote fm c) trees) /\ Forall (fun '(c, _, _) => c < nCases) votes).
  { destruct (G []) as (v & E & Hv). exists v. split; [exact E|exact Hv]. }
  induction H as [|t trees Ht H IH]; intros bb.
  - exists []. cbn. rewrite app_nil_r. repeat split; auto.
  - cbn [foreach]. destruct (oob_tree_votes fm nCases t bb Ht) as (v & E & Hv & Hl). rewrite E. cbn [bind].
    destruct (IH (bb ++ v)) as (v' & E' & Hv' & Hl'). rewrite E'. exists (v ++ v'). rewrite <- app_assoc. split; [reflexivity|]. split.
    + intros c Hc. rewrite own_app. cbn [flat_map]. rewrite (Hv c Hc), (Hv' c Hc). reflexivity.
    + apply Forall_app. auto.
Qed.
Print Assumptions C114_unseen_trees_vote.

(** ** What the boxes make of them *)
Lemma weights_own c name : forall votes : ballots, weights_for F64 c name votes = weights_for F64 c name (own c votes).
Proof.
  induction votes as [|[[c' p] w] votes IH]; [reflexivity|]. unfold own. cbn [filter].
  change (weights_for F64 c name ((c', p, w) :: votes)) with ((if (c' =? c) && String.eqb p name then [w] else []) ++ weights_for F64 c name votes).
  destruct (Nat.eqb_spec c' c) as [->|Hc]; [|cbn [andb app]; exact IH].
  change (weights_for F64 c name ((c, p, w) :: filter (fun '(c'', _, _) => c'' =? c) votes))
    with ((if (c =? c) && String.eqb p name then [w] else []) ++ weights_for F64 c name (own c votes)).
  rewrite Nat.eqb_refl, IH. reflexivity.
Qed.

(** The support of a category for a case among the trees not trained on it: the sum, in
    the order of the trees, of the weights of those with that prediction. *)
Definition unseen_support (fm : fmatrix) (trees : list trained) (c : nat) (name : string) : f64 :=
  total_for F64 c name (flat_map (unseen_vote fm c) trees).

(** Classification: the out of bag prediction of a case has the greatest support among the
    trees that have not seen it, and is NA if nobody supports anything. *)
Theorem C114_classification : forall fm nCases trees, Forall (votes_fine fm nCases) trees ->
  exists votes bb, oob_votes fm nCases trees = Ok votes /\ cast F64 votes (NewCatBallotBox F64 nCases) = Ok bb /\
    forall c b iter, nth_error (cbBox bb) c = Some b -> Permutation iter b ->
      exists ans, catTally F64 bb iter = Ok ans /\
        ((forall name, fltb f0 (unseen_support fm trees c name) = false) -> ans = "NA") /\
        ((exists name, fltb f0 (unseen_support fm trees c name) = true) ->
          fltb f0 (unseen_support fm trees c ans) = true /\
          forall name, fltb (unseen_support fm trees c ans) (unseen_support fm trees c name) = false).
Proof.
  intros fm nCases trees H. destruct (C114_unseen_trees_vote fm nCases trees H) as (votes & E & Hv & Hl).
  destruct (C19_cat_plurality nCases votes Hl) as (bb & Eb & Lb & Hb). exists votes, bb. split; [exact E|]. split; [exact Eb|].
  intros c b iter Hc Hp. destruct (Hb c b iter Hc Hp) as (ans & Ea & Ha). exists ans. split; [exact Ea|].
  assert (Hlt : c < nCases) by (rewrite <- Lb; apply nth_error_some_lt in Hc; exact Hc).
  assert (G : forall name, total_for F64 c name votes = unseen_support fm trees c name).
  { intros name. unfold unseen_support, total_for. rewrite (weights_own c name votes), (Hv c Hlt). reflexivity. }
  destruct Ha as [H1 H2]. split.
  - intros N. apply H1. intros name. rewrite G. apply N.
  - intros [name Hn]. destruct H2 as [H2 H3]; [exists name; rewrite G; exact Hn|]. rewrite <- G. split; [exact H2|].
    intros name'. rewrite <- G. apply H3.
Qed.
Print Assumptions C114_classification.

(** Regression, in exact arithmetic, for any reading [val] of the weights as real numbers:
    the out of bag prediction is the weighted mean of the numbers predicted by the trees
    that have not seen the case. *)
Definition read_weights (val : f64 -> R) (votes : ballots) : list (vote XR) :=
  map (fun '((c, p, w) : nat * string * f64) => (c, p, Some (val w) : XR)) votes.
Definition unseen_numbers (PF : string -> option XR) (val : f64 -> R) (fm : fmatrix) (trees : list trained) (c : nat) : list (R * R) :=
  real_pairs (numbers_for XR PF c (read_weights val (flat_map (unseen_vote fm c) trees))).

Lemma numbers_own PF val c : forall votes : ballots,
  numbers_for XR PF c (read_weights val votes) = numbers_for XR PF c (read_weights val (own c votes)).
Proof.
  induction votes as [|[[c' p] w] votes IH]; [reflexivity|]. unfold own. cbn [filter].
  destruct (Nat.eqb_spec c' c) as [->|Hc].
  - unfold read_weights, numbers_for in *. cbn [map flat_map]. rewrite IH. reflexivity.
  - rewrite <- (IH : _ = numbers_for XR PF c (read_weights val (filter _ votes))).
    unfold read_weights, numbers_for. cbn [map flat_map]. destruct (Nat.eqb_spec c' c); [contradiction|]. reflexivity.
Qed.

(** The weight a tree votes with is positive. *)
Definition weighs (val : f64 -> R) (t : trained) : Prop := let '(_, _, w) := t in (0 < val (if fleb f0 w then w else f1))%R.

Lemma unseen_positive PF val fm trees c : Forall (weighs val) trees -> Forall (fun '(_, w) => (0 < w)%R) (unseen_numbers PF val fm trees c).
Proof.
  intros H. unfold unseen_numbers. induction H as [|[[sample root] w] trees Ht H IH]; [constructor|].
  cbn [flat_map]. unfold read_weights, numbers_for, real_pairs in *. rewrite map_app, !flat_map_app. apply Forall_app. split; [|exact IH].
  unfold unseen_vote. destruct (in_dec Nat.eq_dec c sample); [constructor|]. destruct (follow fm root c) as [q|]; [|constructor].
  cbn [map flat_map]. rewrite app_nil_r, Nat.eqb_refl. destruct (PF (node_pred (at_path root q))) as [[v|]|]; cbn; repeat constructor. exact Ht.
Qed.

Theorem C114_regression : forall PF val fm nCases trees, Forall (votes_fine fm nCases) trees -> Forall (weighs val) trees ->
  exists votes bb, oob_votes fm nCases trees = Ok votes /\ ncast XR PF (read_weights val votes) (NewNumBallotBox XR nCases) = Ok bb /\
    forall c, c < nCases ->
      numTally XR bb c = Ok (match unseen_numbers PF val fm trees c with [] => None | l => Some (Some (wmean l)) end).
Proof.
  intros PF val fm nCases trees H Hpos. destruct (C114_unseen_trees_vote fm nCases trees H) as (votes & E & Hv & Hl).
  assert (Hl' : Forall (fun '(c, _, _) => c < nCases) (read_weights val votes)).
  { apply Forall_forall. intros [[c p] w] Hi. apply in_map_iff in Hi as ([[c' p'] w'] & Hi & Hin). inversion Hi; subst.
    rewrite Forall_forall in Hl. exact (Hl _ Hin). }
  destruct (C20_num_weighted_mean PF nCases (read_weights val votes) Hl') as (bb & Eb & Hb).
  exists votes, bb. split; [exact E|]. split; [exact Eb|]. intros c Hc. specialize (Hb c Hc).
  rewrite numbers_own, (Hv c Hc) in Hb. cbv zeta in Hb. fold (unseen_numbers PF val fm trees c) in Hb.
  pose proof (unseen_positive PF val fm trees c Hpos) as Hp.
  destruct Hb as [_ Hb]; [|rewrite Hb; destruct (unseen_numbers PF val fm trees c); reflexivity].
  destruct Hp as [|[v w] l Hx Hl2]; cbn; auto. split; auto. eapply Forall_impl; [|exact Hl2]. intros [? ?]; lra.
Qed.
Print Assumptions C114_regression.

(** Two trees on five cases. *)
Definition oob_trees : list trained := [([0; 0; 2], ex_tree, f1); ([1; 3; 3], ex_tree, f2)].
Example C114_example : Forall (votes_fine ex_fm 5) oob_trees /\
  oob_votes ex_fm 5 oob_trees = Ok [(1, "RL", f1); (3, "RR", f1); (0, "LL", f2); (2, "M", f2)] /\
  map (fun c => flat_map (unseen_vote ex_fm c) oob_trees) [0; 1; 2; 3; 4] =
    [[(0, "LL", f2)]; [(1, "RL", f1)]; [(2, "M", f2)]; [(3, "RR", f1)]; []].
Proof.
  split.
  - destruct C17_example as (W & U & _). unfold oob_trees.
    apply Forall_cons; [|apply Forall_cons; [|apply Forall_nil]]; (split; [intros c [<-|[<-|[<-|[]]]]; lia|]); (split; [discriminate|]); split; assumption.
  - split; vm_compute; reflexivity.
Qed.

(** Boosted regression: growforest votes its trees into a box that takes the weighted mean,
    while the forest predicts its intercept plus their weighted sum.  Here every tree is
    fitted perfectly, and the out of bag prediction is 3 instead of 13. *)
Definition oob_parse (s : string) : option F64 :=
  if (s =? "4")%string then Some (f_of_Z 4) else if (s =? "2")%string then Some f2 else None.
Definition oob_half : f64 := fdiv f1 f2.
Definition oob_boosted : list trained := [([1], ex_leaf "4", oob_half); ([1], ex_leaf "2", oob_half)].
Definition number (r : res (printed F64)) : option f64 := match r with Ok (PNum x) => Some x | _ => None end.
Theorem C114_boosted_sum_refuted : Forall (votes_fine ex_fm 2) oob_boosted /\
  oob_votes ex_fm 2 oob_boosted = Ok [(0, "4", oob_half); (0, "2", oob_half)] /\
  number (let* votes := oob_votes ex_fm 2 oob_boosted in
          let* b := box_votes F64 oob_parse (test_box F64 0 2) votes in
          box_tally F64 b 0 []) = Some (f_of_Z 3) /\
  number (let* votes := oob_votes ex_fm 2 oob_boosted in
          let* b := box_votes F64 oob_parse (apply_box F64 true false false "N:y" 2) votes in
          apply_result F64 (fun x => x) true false (f_of_Z 10) b 0 []) = Some (f_of_Z 13).
Proof.
  split.
  - unfold oob_boosted.
    apply Forall_cons; [|apply Forall_cons; [|apply Forall_nil]]; (split; [intros c [<-|[]]; lia|]); (split; [discriminate|]).
    all: cbn; repeat split; auto; unfold answers; cbn; auto.
  - split; [vm_compute; reflexivity|]. split; vm_compute; reflexivity.
Qed.
Print Assumptions C114_boosted_sum_refuted.

(** The rows of -caseoob: case by case the label, the tally and the actual value. *)
Theorem C114_caseoob_rows : forall (N : arith) labels (bb : box N) iters actual n,
  (forall i, i < n -> exists l t a, nth_error labels i = Some l /\ box_tally N bb i (iters i) = Ok t /\ actual i = Ok a) ->
  exists rows, caseoob_rows N labels bb iters actual n = Ok rows /\ length rows = n /\
    forall i, i < n -> exists l t a, nth_error rows i = Some (l, t, a) /\
      nth_error labels i = Some l /\ box_tally N bb i (iters i) = Ok t /\ actual i = Ok a.
Proof.
  intros N labels bb iters actual n H. unfold caseoob_rows.
  destruct (@for_up_total _ (fun i rows => length rows = i /\ forall j, j < i -> exists l t a, nth_error rows j = Some (l, t, a) /\
      nth_error labels j = Some l /\ box_tally N bb j (iters j) = Ok t /\ actual j = Ok a)
      (fun i rows => let* l := get labels i in let* t := box_tally N bb i (iters i) in let* a := actual i in Ok (rows ++ [(l, t, a)])) n 0 [])
    as (rows & E & Hl & Hr).
  - intros i rows [_ Hi] [Hl Hr]. cbn [plus] in Hi. destruct (H i Hi) as (l & t & a & E1 & E2 & E3).
    rewrite (get_nth labels i E1), E2, E3. cbn [bind]. eexists. split; [reflexivity|]. split; [rewrite app_length; cbn; lia|].
    intros j Hj. destruct (Nat.eq_dec j i) as [->|Hne].
    + exists l, t, a. split; [|auto]. rewrite nth_error_app2 by lia. rewrite Hl, Nat.sub_diag. reflexivity.
    + destruct (Hr j ltac:(lia)) as (l' & t' & a' & E4 & E5). exists l', t', a'. split; [|exact E5].
      rewrite nth_error_app1 by (apply nth_error_some_lt in E4; exact E4). exact E4.
  - split; [reflexivity|]. intros j Hj. lia.
  - exists rows. split; [exact E|]. auto.
Qed.
Print Assumptions C114_caseoob_rows.
Definition plain_rows (r : res (list (string * printed F64 * string))) : list (string * (option f64 * string) * string) :=
  match r with Ok rows => map (fun '(l, t, a) => (l, match t with PNum x => (Some x, "") | PStr s => (None, s) end, a)) rows | _ => [] end.
Example C114_caseoob_example :
  plain_rows (let* b := box_votes F64 oob_parse (test_box F64 0 2) [(0, "4", f1)] in
              caseoob_rows F64 ["a"; "b"] b (fun _ => []) (fun i => Ok (if i =? 0 then "5" else "NA")) 2)
    = [("a", (Some (f_of_Z 4), ""), "5"); ("b", (None, "NA"), "NA")].
Proof. vm_compute. reflexivity. Qed.
