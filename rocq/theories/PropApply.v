(** C139: the files applyforest writes for categorical forests. *)
From Verif Require Import Go GoLemmas F64 F64Order ModelFeature FeatureSpec FeatureProofs ModelText TextProofs ModelMatrix MatrixSpec MatrixProofs ModelSplit SplitSpec ModelTree
  TreeSpec TreeProofs PropTree ModelBallot BallotSpec BallotProofs PropBallot ModelCommands ModelCommands2 PropCommands3 PropOob ModelApply ApplySpec.
Local Open Scope string_scope.
Local Open Scope nat_scope.
Local Open Scope list_scope.

(** ** The votes *)
(** The vote of one tree on a case. *)
Definition vote_of (fm : fmatrix) (c : nat) (t : node * f64) : ballots :=
  match says fm c t with Some s => [(c, s, counts t)] | None => [] end.

Lemma one_tree_votes fm f t bb : nth_error (fmData fm) 0 = Some f -> askable fm (fLength f) t ->
  exists arr votes, TreeVote fm (fst t) (snd t) bb = Ok (arr, bb ++ votes) /\
    (forall c, c < fLength f -> own c votes = vote_of fm c t) /\ Forall (fun '(c, _, _) => c < fLength f) votes.
Proof.
  intros Hf (Hn & Hw & Hu). destruct (C18_vote_covers_all_cases fm (fst t) (snd t) f bb Hf Hn Hw Hu) as (arr & votes & E & P).
  exists arr, votes. split; [exact E|]. split.
  - intros c Hc. pose proof (filter_perm (fun '(c', _, _) => c' =? c) _ _ P) as P'. fold (own c votes) in P'.
    match type of P' with Permutation _ ?x => change x with (own c (due fm (fst t) (counts t) (seq 0 (fLength f)))) in P' end.
    rewrite own_due in P' by apply seq_NoDup. destruct (in_dec Nat.eq_dec c (seq 0 (fLength f))) as [_|H]; [|destruct H; apply in_seq; lia].
    unfold vote_of, says. destruct (follow fm (fst t) c); cbn [option_map];
      [apply Permutation_sym, Permutation_length_1_inv in P'; exact P'|apply Permutation_sym, Permutation_nil in P'; exact P'].
  - eapply Permutation_Forall; [apply Permutation_sym; exact P|]. apply Forall_forall. intros [[c p] w'] Hv.
    unfold due in Hv. apply in_flat_map in Hv as (c' & Hc' & Hv). destruct (follow fm (fst t) c'); [|destruct Hv].
    destruct Hv as [Hv|[]]. inversion Hv; subst. apply in_seq in Hc'. lia.
Qed.
Lemma forest_votes_ok fm f trees : nth_error (fmData fm) 0 = Some f -> Forall (askable fm (fLength f)) trees ->
  exists votes, forest_votes fm trees = Ok votes /\
    (forall c, c < fLength f -> own c votes = flat_map (vote_of fm c) trees) /\ Forall (fun '(c, _, _) => c < fLength f) votes.
Proof.
  intros Hf H. unfold forest_votes.
  enough (G : forall bb, exists votes, foreach trees (fun '((root, weight) : node * f64) bb =>
      let* (_, bb) := TreeVote fm root weight bb in Ok bb) bb = Ok (bb ++ votes) /\
    (forall c, c < fLength f -> own c votes = flat_map (vote_of fm c) trees) /\ Forall (fun '(c, _, _) => c < fLength f) votes).
  { destruct (G []) as (v & E & Hv). exists v. split; [exact E|exact Hv]. }
  induction H as [|t trees Ht H IH]; intros bb.
  - exists []. cbn. rewrite app_nil_r. repeat split; auto.
  - cbn [foreach]. destruct (one_tree_votes fm f t bb Hf Ht) as (arr & v & E & Hv & Hl). destruct t as [root w]. cbn [fst snd] in E. rewrite E. cbn [bind].
    destruct (IH (bb ++ v)) as (v' & E' & Hv' & Hl'). rewrite E'. exists (v ++ v'). rewrite <- app_assoc. split; [reflexivity|]. split.
    + intros c Hc. rewrite own_app. cbn [flat_map]. rewrite (Hv c Hc), (Hv' c Hc). reflexivity.
    + apply Forall_app. auto.
Qed.

(** The totals are the support. *)
Lemma weights_of_trees fm trees c name : weights_for F64 c name (flat_map (vote_of fm c) trees) = map counts (filter (says_name fm c name) trees).
Proof.
  induction trees as [|t trees IH]; [reflexivity|]. cbn [flat_map filter]. rewrite weights_for_app, IH. unfold vote_of, says_name.
  destruct (says fm c t) as [s|]; [|reflexivity]. cbn [weights_for flat_map]. rewrite Nat.eqb_refl. cbn [andb]. destruct (s =? name)%string; reflexivity.
Qed.
Lemma total_is_support fm n trees votes c name : c < n -> (forall c, c < n -> own c votes = flat_map (vote_of fm c) trees) ->
  total_for F64 c name votes = support fm trees c name.
Proof. intros Hc Hv. unfold total_for, support. rewrite (weights_own c name votes), (Hv c Hc), weights_of_trees. reflexivity. Qed.
Lemma voted_iff fm n trees votes c name : c < n -> (forall c, c < n -> own c votes = flat_map (vote_of fm c) trees) ->
  weights_for F64 c name votes <> [] <-> exists t, In t trees /\ says fm c t = Some name.
Proof.
  intros Hc Hv. rewrite (weights_own c name votes), (Hv c Hc), weights_of_trees. split.
  - intros H. destruct (filter (says_name fm c name) trees) as [|t l] eqn:E; [destruct H; reflexivity|].
    assert (Hi : In t (filter (says_name fm c name) trees)) by (rewrite E; left; reflexivity). apply filter_In in Hi as [Hi Hs]. exists t. split; [exact Hi|].
    unfold says_name in Hs. destruct (says fm c t); [|discriminate]. apply String.eqb_eq in Hs. congruence.
  - intros (t & Hi & Hs) E. assert (Hf : In t (filter (says_name fm c name) trees)).
    { apply filter_In. split; [exact Hi|]. unfold says_name. rewrite Hs. apply String.eqb_refl. }
    apply map_eq_nil in E. rewrite E in Hf. destruct Hf.
Qed.

(** The names of a box are those voted for. *)
Lemma cast_names (votes : list (vote F64)) : forall bb0 bb, cast F64 votes bb0 = Ok bb -> forall name, In name (cmBack (cbMap bb)) ->
  In name (cmBack (cbMap bb0)) \/ exists c w, In (c, name, w) votes.
Proof.
  unfold cast. induction votes as [|[[c p] w] votes IH]; intros bb0 bb E name Hn; cbn [foreach] in E.
  - inversion E; subst. left. exact Hn.
  - apply bind_ok in E as (bb1 & E1 & E2). destruct (IH _ _ E2 name Hn) as [H|(c' & w' & H)]; [|right; exists c', w'; right; exact H].
    unfold catVote in E1. destruct (CatToNum (cbMap bb0) p) as [cm k] eqn:Ec. apply bind_ok in E1 as (m & _ & E1). apply bind_ok in E1 as (box & _ & E1).
    inversion E1; subst bb1. cbn [cbMap] in H. unfold CatToNum in Ec. destruct (assoc p (cmMap (cbMap bb0))); inversion Ec; subst; [left; exact H|].
    cbn [cmBack] in H. apply in_app_iff in H as [H|[<-|[]]]; [left; exact H|right; exists c, w; left; reflexivity].
Qed.

(** ** The box of the forest *)
Lemma forest_box fm f trees : nth_error (fmData fm) 0 = Some f -> Forall (askable fm (fLength f)) trees ->
  exists votes bb, forest_votes fm trees = Ok votes /\ cast F64 votes (NewCatBallotBox F64 (fLength f)) = Ok bb /\
    length (cbBox bb) = fLength f /\ NoDup (cmBack (cbMap bb)) /\
    (forall name, In name (cmBack (cbMap bb)) <-> exists c t, c < fLength f /\ In t trees /\ says fm c t = Some name) /\
    (forall c b, nth_error (cbBox bb) c = Some b ->
       map (fun j => match bfind F64 j b with Some v => v | None => f0 end) (seq 0 (length (cmBack (cbMap bb)))) = map (support fm trees c) (cmBack (cbMap bb))) /\
    (forall c b iter, nth_error (cbBox bb) c = Some b -> Permutation iter b -> exists ans, catTally F64 bb iter = Ok ans /\
       ((forall name, fltb f0 (support fm trees c name) = false) -> ans = "NA") /\
       ((exists name, fltb f0 (support fm trees c name) = true) ->
          fltb f0 (support fm trees c ans) = true /\ forall name, fltb (support fm trees c ans) (support fm trees c name) = false)).
Proof.
  intros Hf Ht. destruct (forest_votes_ok fm f trees Hf Ht) as (votes & E & Hv & Hl). set (n := fLength f) in *.
  destruct (cast_ok F64 n votes Hl) as (bb & Eb & Hcm & Lb & Hb). exists votes, bb. split; [exact E|]. split; [exact Eb|]. split; [exact Lb|].
  pose proof (cm_ok_nodup _ Hcm) as Hnd. split; [exact Hnd|]. split; [|split].
  - intros name. split.
    + intros H. destruct (cast_names votes _ _ Eb name H) as [H'|(c & w & H')]; [destruct H'|]. rewrite Forall_forall in Hl. pose proof (Hl _ H') as Hc. cbn in Hc.
      exists c. assert (Hw : weights_for F64 c name votes <> []).
      { intros K. assert (In w (weights_for F64 c name votes)); [|rewrite K in H0; exact H0]. unfold weights_for. apply in_flat_map.
        exists (c, name, w). split; [exact H'|]. rewrite Nat.eqb_refl, String.eqb_refl. left. reflexivity. }
      apply (voted_iff fm n trees votes c name Hc Hv) in Hw as (t & Hi & Hs). exists t. auto.
    + intros (c & t & Hc & Hi & Hs). assert (Hw : weights_for F64 c name votes <> []) by (apply (voted_iff fm n trees votes c name Hc Hv); eauto).
      destruct (nth_error (cbBox bb) c) as [b|] eqn:Ec; [|apply nth_error_None in Ec; lia].
      destruct (Hb c b Ec) as [_ _ H3]. destruct (H3 name Hw) as (k & v & _ & Hk). eapply nth_error_In. exact Hk.
  - intros c b Ec. assert (Hc : c < n) by (rewrite <- Lb; apply nth_error_some_lt in Ec; exact Ec). destruct (Hb c b Ec) as [H1 H2 H3].
    apply nth_ext with (d := f0) (d' := f0); [rewrite !map_length, seq_length; reflexivity|]. intros j Hj. rewrite map_length, seq_length in Hj.
    set (h := fun j => match bfind F64 j b with Some v => v | None => f0 end).
    rewrite (nth_indep _ f0 (h 0)) by (rewrite map_length, seq_length; exact Hj).
    rewrite map_nth, seq_nth by exact Hj. cbn [plus]. unfold h. clear h.
    rewrite (nth_indep _ f0 (support fm trees c "")) by (rewrite map_length; exact Hj). rewrite map_nth.
    assert (Ej : nth_error (cmBack (cbMap bb)) j = Some (nth j (cmBack (cbMap bb)) "")) by (apply nth_error_nth'; exact Hj).
    set (name := nth j (cmBack (cbMap bb)) "") in *. rewrite <- (total_is_support fm n trees votes c name Hc Hv).
    destruct (bfind F64 j b) as [v|] eqn:Ef.
    + apply bfind_in in Ef; [|exact H1]. destruct (H2 _ _ Ef) as (name' & En & -> & _). congruence.
    + destruct (weights_for F64 c name votes) as [|w ws] eqn:Ew; [unfold total_for; rewrite Ew; reflexivity|].
      destruct (H3 name) as (k & v & Hi & Hk); [congruence|]. assert (k = j).
      { rewrite NoDup_nth_error in Hnd. apply Hnd; [eapply nth_error_some_lt; exact Hk|congruence]. }
      subst k. apply bfind_in in Hi; [congruence|exact H1].
  - intros c b iter Ec Hp. assert (Hc : c < n) by (rewrite <- Lb; apply nth_error_some_lt in Ec; exact Ec).
    destruct (C19_cat_plurality n votes Hl) as (bb' & Eb' & _ & Ha). assert (bb' = bb) by congruence. subst bb'.
    destruct (Ha c b iter Ec Hp) as (ans & E1 & A1 & A2). exists ans. split; [exact E1|].
    assert (G : forall name, total_for F64 c name votes = support fm trees c name) by (intros name; apply (total_is_support fm n trees votes c name Hc Hv)).
    split.
    + intros H. apply A1. intros name. rewrite G. apply H.
    + intros (name & H). destruct A2 as [A2 A3]; [exists name; rewrite G; exact H|]. rewrite <- G. split; [exact A2|]. intros name'. rewrite <- G. apply A3.
Qed.

(** A tab separated text is read back line by line and field by field. *)
Definition read_table (b : bytes) : list (list string) := map (fun l => map T (split tab l)) (removelast (split nl b)).
Definition bare_text (s : string) : Prop := no tab (B s) /\ no nl (B s).
Lemma read_file_of rs : Forall (fun r => r <> [] /\ Forall bare_text r) rs -> read_table (file_of rs) = rs.
Proof.
  intros H. unfold read_table.
  assert (Es : split nl (file_of rs) = map (fun r => join [tab] (map B r)) rs ++ [[]]).
  { induction H as [|r rs [_ Hr] H IH]; [reflexivity|]. unfold file_of. cbn [map concat]. rewrite <- app_assoc. cbn [app].
    rewrite split_cons; [cbn [map app]; f_equal; exact IH|]. apply join_no; [intros [X|[]]; discriminate|].
    apply Forall_forall. intros w Hw. apply in_map_iff in Hw as (s & <- & Hs). rewrite Forall_forall in Hr. apply (Hr s Hs). }
  rewrite Es, removelast_last, map_map. rewrite <- (map_id rs) at 2. apply map_ext_in. intros r Hi. rewrite Forall_forall in H. destruct (H r Hi) as [Hn Hr].
  rewrite split_join; [apply map_TB|destruct r; [congruence|discriminate]|]. apply Forall_forall. intros w Hw. apply in_map_iff in Hw as (s & <- & Hs).
  rewrite Forall_forall in Hr. apply (Hr s Hs).
Qed.

Lemma file_of_snoc rs r : file_of (rs ++ [r]) = file_of rs ++ tsv_line r.
Proof. unfold file_of. rewrite map_app, concat_app. cbn. rewrite app_nil_r. reflexivity. Qed.
Lemma rows_up (row : nat -> list string) body : forall n lo out,
  (forall i out, lo <= i < lo + n -> body i out = Ok (out ++ tsv_line (row i))) ->
  for_up n lo body out = Ok (out ++ file_of (map row (seq lo n))).
Proof.
  induction n as [|n IH]; intros lo out H; [cbn; rewrite app_nil_r; reflexivity|]. cbn [for_up seq map].
  rewrite H by lia. cbn [bind]. rewrite IH by (intros; apply H; lia). unfold file_of at 2. cbn [map concat]. rewrite <- app_assoc. reflexivity.
Qed.
Lemma rows_each {X} (row : nat -> list string) (body : nat * X -> bytes -> res bytes) : forall (xs : list X) lo out,
  (forall i x out, nth_error xs (i - lo) = Some x -> lo <= i -> body (i, x) out = Ok (out ++ tsv_line (row i))) ->
  foreach (combine (seq lo (length xs)) xs) body out = Ok (out ++ file_of (map row (seq lo (length xs)))).
Proof.
  induction xs as [|x xs IH]; intros lo out H; [cbn; rewrite app_nil_r; reflexivity|]. cbn [length seq combine foreach map].
  rewrite H by (rewrite ?Nat.sub_diag; auto). cbn [bind]. rewrite IH.
  - unfold file_of at 2. cbn [map concat]. rewrite <- app_assoc. reflexivity.
  - intros i x' o Hi Hl. apply H; [|lia]. replace (i - lo) with (S (i - S lo)) by lia. exact Hi.
Qed.

(** The balanced error is a number for every known target. *)
Definition known_target (g : catF) (n : nat) : Prop :=
  cLength g = n /\ length (cData g) = n /\ forall i, i < n -> exists s, cGetStr g i = Ok s.
Lemma error_total (bb : catBox F64) g n iters : known_target g n -> length (cbBox bb) = n ->
  (forall i, i < n -> exists ans, catTally F64 bb (iters i) = Ok ans) -> exists e, catTallyError F64 bb g iters = Ok e.
Proof.
  intros (L1 & L2 & Hg) Lb Ha. unfold catTallyError. rewrite L1.
  assert (Y : yields (for_up n 0 (fun i '((correct, total) : list nat * list nat) =>
        let* value := cGeti g i in
        let* _ := get (cbBox bb) i in
        let* predicted := catTally F64 bb (iters i) in
        let* m := cIsMissing g i in
        if m then Ok (correct, total)
        else
          let* t := get total value in
          let* total' := set total value (t + 1) in
          let* name := NumToCat (cMap g) value in
          if String.eqb name predicted then
            let* c := get correct value in
            let* correct' := set correct value (c + 1) in Ok (correct', total')
          else Ok (correct, total')) (repeat 0 (NCats (cMap g)), repeat 0 (NCats (cMap g))))
     (fun '((c, t) : list nat * list nat) => length c = NCats (cMap g) /\ length t = NCats (cMap g))).
  { eapply yields_weaken; [apply @for_up_total with (Inv := fun (_ : nat) '((c, t) : list nat * list nat) => length c = NCats (cMap g) /\ length t = NCats (cMap g))|].
    - intros i [c t] Hi [Lc Lt]. destruct (@get_ok _ (cData g) i) as (v & Ev & Nv); [lia|]. unfold cGeti. rewrite Ev. cbn [bind].
      destruct (@get_ok _ (cbBox bb) i) as (b & Eb & _); [lia|]. rewrite Eb. cbn [bind]. destruct (Ha i) as (ans & Ea); [lia|]. rewrite Ea. cbn [bind].
      destruct (@get_ok _ (cMissing g) i) as (m & Em & Nm); [unfold cLength in L1; lia|]. unfold cIsMissing. rewrite Em. cbn [bind].
      destruct m; [eexists; split; [reflexivity|split; assumption]|].
      destruct (Hg i) as (s & Es); [lia|]. unfold cGetStr, cIsMissing, cGeti in Es. rewrite Em in Es. cbn [bind] in Es. rewrite Ev in Es. cbn [bind] in Es.
      assert (Hv : v < NCats (cMap g)). { unfold get in Es. destruct (nth_error (cmBack (cMap g)) v) eqn:En; [|discriminate]. apply nth_error_some_lt in En. exact En. }
      destruct (@get_ok _ t v) as (t0 & Et & _); [lia|]. rewrite Et. cbn [bind]. rewrite set_ok by lia. cbn [bind].
      unfold NumToCat. rewrite Es. cbn [bind]. destruct (s =? ans)%string.
      + destruct (@get_ok _ c v) as (c0 & Ec & _); [lia|]. rewrite Ec. cbn [bind]. rewrite set_ok by lia. cbn [bind]. eexists. split; [reflexivity|]. cbn beta iota. rewrite ?upd_length. auto.
      + eexists. split; [reflexivity|]. cbn beta iota. rewrite ?upd_length. auto.
    - rewrite !repeat_length. auto.
    - intros [c t] H. exact H. }
  destruct Y as ([c t] & E & Lc & Lt).
  assert (Y2 : exists e, for_up (length c) 0 (fun i e => let* ncorrect := get c i in let* t0 := get t i in
      Ok (nadd F64 e (ndiv F64 (nofZ F64 (Z.of_nat ncorrect)) (nofZ F64 (Z.of_nat t0))))) (nofZ F64 0) = Ok e).
  { destruct (@for_up_total f64 (fun _ (_ : f64) => True) (fun i e => let* ncorrect := get c i in let* t0 := get t i in
      Ok (nadd F64 e (ndiv F64 (nofZ F64 (Z.of_nat ncorrect)) (nofZ F64 (Z.of_nat t0))))) (length c) 0 (nofZ F64 0)) as (e & Ee & _); [|exact I|eauto].
    intros i s Hi _. destruct (@get_ok _ c i) as (c0 & Ec & _); [lia|]. rewrite Ec. cbn [bind]. destruct (@get_ok _ t i) as (t0 & Et & _); [lia|]. rewrite Et. cbn [bind].
    eexists. split; [reflexivity|exact I]. }
  destruct Y2 as (e & Ee). rewrite E. cbn [bind]. rewrite Ee. cbn [bind]. eexists. reflexivity.
Qed.

Lemma cat_votes PF votes : forall b, box_votes F64 PF (BCat b) votes = let* b := cast F64 votes b in Ok (BCat b).
Proof.
  unfold box_votes, cast. induction votes as [|[[c p] w] votes IH]; intros b; cbn [foreach bind]; auto.
  cbn [box_vote]. destruct (catVote F64 b c p w); cbn [bind]; auto.
Qed.

(** ** The files.  A categorical forest without intercept is applied to a matrix with a label
    for every case.  [iters] are the orders in which the maps of the cases are iterated.  The
    file of votes has one column for every name that some tree says about some case, no
    others, and in the row of a case the support of that name; the file of predictions has
    for every case its label, a name with the greatest support (NA if none has any) and the
    known value. *)
Theorem C139_files : forall PF Expit fmtF fm f trees num cat expit wantPreds wantVotes target intercept,
  nth_error (fmData fm) 0 = Some f ->
  let n := fLength f in
  length (fmLabels fm) = n -> Forall (askable fm n) trees ->
  cat = true \/ (num = false /\ has_prefix (B "N") (B target) = false) ->
  fleb intercept f0 && fleb f0 intercept = true ->
  (forall t, assoc target (fmMap fm) = Some t -> exists g, nth_error (fmData fm) t = Some (FCat g) /\ known_target g n) ->
  exists votes bb names, forest_votes fm trees = Ok votes /\
    box_votes F64 PF (apply_box F64 false num cat target n) votes = Ok (BCat bb) /\
    forall iters, (forall i b, nth_error (cbBox bb) i = Some b -> Permutation (iters i) b) ->
    exists answer actual err,
      applyforest PF Expit fmtF fm false num cat expit wantPreds wantVotes target intercept trees iters =
        Ok (Some (mkOut err
          (if wantPreds : bool then file_of (map (fun c => [nth c (fmLabels fm) ""; answer c; actual c]) (seq 0 n)) else [])
          (if wantVotes : bool then
             file_of (("." :: names) :: map (fun c => nth c (fmLabels fm) "" :: map (fun name => fmtF (support fm trees c name)) names) (seq 0 n)) else []))) /\
      NoDup names /\
      (forall name, In name names <-> exists c t, c < n /\ In t trees /\ says fm c t = Some name) /\
      (forall c, c < n ->
        ((forall name, fltb f0 (support fm trees c name) = false) -> answer c = "NA") /\
        ((exists name, fltb f0 (support fm trees c name) = true) -> In (answer c) names /\ fltb f0 (support fm trees c (answer c)) = true /\
           forall name, fltb (support fm trees c (answer c)) (support fm trees c name) = false)) /\
      match assoc target (fmMap fm) with
      | None => err = None /\ forall c, actual c = "NA"
      | Some t => (exists e, err = Some e) /\ exists g, nth_error (fmData fm) t = Some (FCat g) /\ forall c, c < n -> cGetStr g c = Ok (actual c)
      end.
Proof.
  intros PF Expit fmtF fm f trees num cat expit wantPreds wantVotes target intercept Hf n Hl Ht Hc Hi Hg.
  destruct (forest_box fm f trees Hf Ht) as (votes & bb & Ev & Eb & Lb & Hnd & Hin & Htot & Hans). fold n in Eb, Lb, Hin.
  assert (Ebox : apply_box F64 false num cat target n = BCat (NewCatBallotBox F64 n)).
  { unfold apply_box. destruct Hc as [-> |[-> ->]]; [reflexivity|]. destruct cat; reflexivity. }
  assert (Ebv : box_votes F64 PF (apply_box F64 false num cat target n) votes = Ok (BCat bb)) by (rewrite Ebox, cat_votes, Eb; reflexivity).
  exists votes, bb, (cmBack (cbMap bb)). split; [exact Ev|]. split; [exact Ebv|]. intros iters Hit.
  assert (Hbox : forall i, i < n -> exists b, nth_error (cbBox bb) i = Some b).
  { intros i Hi'. destruct (nth_error (cbBox bb) i) eqn:E; [eauto|]. apply nth_error_None in E. lia. }
  set (answer := fun c => match catTally F64 bb (iters c) with Ok s => s | _ => "" end).
  assert (Ha : forall c, c < n -> catTally F64 bb (iters c) = Ok (answer c)).
  { intros c Hc'. destruct (Hbox c Hc') as (b & Eb'). destruct (Hans c b (iters c) Eb' (Hit c b Eb')) as (ans & Ea & _). unfold answer. rewrite Ea. reflexivity. }
  set (actual := fun c => match assoc target (fmMap fm) with
                     | Some t => match nth_error (fmData fm) t with Some (FCat g) => match cGetStr g c with Ok s => s | _ => "" end | _ => "" end
                     | None => "NA" end).
  assert (Eact : forall c, c < n -> match assoc target (fmMap fm) with
                     | Some t => let* f := get (fmData fm) t in fGetStr fmtF f c
                     | None => Ok "NA"
                     end = Ok (actual c)).
  { intros c Hc'. unfold actual. destruct (assoc target (fmMap fm)) as [t|] eqn:Et; [|reflexivity]. destruct (Hg t eq_refl) as (g & Eg & K1 & K2 & K3).
    unfold get. rewrite Eg. cbn [bind fGetStr]. destruct (K3 c Hc') as (s & Es). rewrite Es. reflexivity. }
  assert (Epf : preds_file Expit fmtF fm false expit target intercept (BCat bb) iters =
    Ok (file_of (map (fun c => [nth c (fmLabels fm) ""; answer c; actual c]) (seq 0 n)))).
  { unfold preds_file. rewrite Hl. rewrite (rows_up (fun c => [nth c (fmLabels fm) ""; answer c; actual c])); [reflexivity|].
    intros c out Hc'. destruct (@get_ok _ (fmLabels fm) c) as (l & El & Nl); [lia|]. rewrite El. cbn [bind]. rewrite Eact by lia. cbn [bind].
    unfold apply_result, not_zero. change (nleb F64) with fleb. change (nofZ F64 0) with f0. rewrite Hi. cbn [negb orb box_tally].
    destruct (Hbox c) as (b & Eb'); [lia|]. unfold get at 1. rewrite Eb'. cbn [bind]. rewrite Ha by lia. cbn [bind shown].
    rewrite (nth_error_nth _ _ "" Nl). reflexivity. }
  assert (Evf : votes_file fmtF fm (BCat bb) = Ok (file_of (("." :: cmBack (cbMap bb)) ::
     map (fun c => nth c (fmLabels fm) "" :: map (fun name => fmtF (support fm trees c name)) (cmBack (cbMap bb))) (seq 0 n)))).
  { unfold votes_file, vote_totals. cbn [bind]. rewrite map_length.
    match goal with |- foreach (combine _ ?rows) _ _ = _ => assert (Lr : length rows = n) by (rewrite map_length; exact Lb) end.
    rewrite <- Lr, <- (map_length (fun b => map (fun j => match bfind F64 j b with Some v => v | None => nofZ F64 0 end) (seq 0 (length (cmBack (cbMap bb))))) (cbBox bb)) at 1.
    rewrite (rows_each (fun c => nth c (fmLabels fm) "" :: map (fun name => fmtF (support fm trees c name)) (cmBack (cbMap bb)))).
    - rewrite Lr. reflexivity.
    - intros c row out Hr _. rewrite Nat.sub_0_r in Hr. rewrite nth_error_map in Hr. destruct (nth_error (cbBox bb) c) as [b|] eqn:Ebc; [|discriminate].
      cbn [option_map] in Hr. injection Hr as <-. assert (Hc' : c < n) by (rewrite <- Lb; apply nth_error_some_lt in Ebc; exact Ebc).
      destruct (@get_ok _ (fmLabels fm) c) as (l & El & Nl); [lia|]. rewrite El. cbn [bind]. rewrite (nth_error_nth _ _ "" Nl).
      rewrite <- (map_map (support fm trees c) fmtF), <- (Htot c b Ebc). reflexivity. }
  assert (Eerr : exists err, (match assoc target (fmMap fm) with
                  | Some t => let* f := get (fmData fm) t in
                              let* e := apply_error F64 (BCat bb) (actual_of f) iters in
                              Ok (match e with Some e => Some (Some e) | None => None end)
                  | None => Ok (Some None)
                  end) = Ok (Some err) /\ match assoc target (fmMap fm) with None => err = None | Some _ => exists e, err = Some e end).
  { destruct (assoc target (fmMap fm)) as [t|]; [|exists None; auto]. destruct (Hg t eq_refl) as (g & Eg & K). unfold get. rewrite Eg. cbn [bind actual_of apply_error].
    destruct (error_total bb g n iters K Lb) as (e & Ee); [intros c Hc'; eexists; apply Ha, Hc'|]. rewrite Ee. cbn [bind]. exists (Some e). eauto. }
  destruct Eerr as (err & Eerr & Hk). exists answer, actual, err. split; [|split; [exact Hnd|split; [exact Hin|split]]].
  - unfold applyforest. unfold get at 1. rewrite Hf. cbn [bind]. rewrite Ev. cbn [bind]. fold n. rewrite Ebv. cbn [bind].
    etransitivity; [apply (f_equal (fun r => bind r _)); exact Eerr|]. cbn [bind]. rewrite Epf, Evf. destruct wantPreds, wantVotes; reflexivity.
  - intros c Hc'. destruct (Hbox c Hc') as (b & Eb'). destruct (Hans c b (iters c) Eb' (Hit c b Eb')) as (ans & Ea & A1 & A2).
    assert (answer c = ans) by (rewrite Ha in Ea by exact Hc'; congruence). subst ans. split; [exact A1|]. intros Hp. destruct (A2 Hp) as [P1 P2]. split; [|auto].
    apply Hin. unfold support in P1. destruct (filter (says_name fm c (answer c)) trees) as [|t l] eqn:Efl; [discriminate P1|].
    assert (Hi' : In t (filter (says_name fm c (answer c)) trees)) by (rewrite Efl; left; reflexivity). apply filter_In in Hi' as [Hi' Hs].
    exists c, t. split; [exact Hc'|]. split; [exact Hi'|]. unfold says_name in Hs. destruct (says fm c t); [|discriminate]. apply String.eqb_eq in Hs. congruence.
  - destruct (assoc target (fmMap fm)) as [t|] eqn:Et; [|split; [exact Hk|intros c; unfold actual; rewrite ?Et; reflexivity]].
    split; [exact Hk|]. destruct (Hg t eq_refl) as (g & Eg & K1 & K2 & K3). exists g. split; [exact Eg|]. intros c Hc'. unfold actual. rewrite ?Et, Eg.
    destruct (K3 c Hc') as (s & Es). rewrite Es. reflexivity.
Qed.
Print Assumptions C139_files.

(** The files are read back as the tables, if no text has a tab or a new line. *)
Corollary C139_read_back : forall fmtF fm trees names answer actual n,
  Forall bare_text (fmLabels fm) -> Forall bare_text names -> (forall x, bare_text (fmtF x)) ->
  length (fmLabels fm) = n -> (forall c, c < n -> bare_text (answer c) /\ bare_text (actual c)) ->
  read_table (file_of (map (fun c => [nth c (fmLabels fm) ""; answer c; actual c]) (seq 0 n))) =
    map (fun c => [nth c (fmLabels fm) ""; answer c; actual c]) (seq 0 n) /\
  read_table (file_of (("." :: names) :: map (fun c => nth c (fmLabels fm) "" :: map (fun name => fmtF (support fm trees c name)) names) (seq 0 n))) =
    ("." :: names) :: map (fun c => nth c (fmLabels fm) "" :: map (fun name => fmtF (support fm trees c name)) names) (seq 0 n).
Proof.
  intros fmtF fm trees names answer actual n Hl Hn Hf Ln Ha.
  assert (Hlab : forall c, c < n -> bare_text (nth c (fmLabels fm) "")).
  { intros c Hc. rewrite Forall_forall in Hl. apply Hl, nth_In. lia. }
  split; apply read_file_of.
  - apply Forall_forall. intros r Hr. apply in_map_iff in Hr as (c & <- & Hc). apply in_seq in Hc. split; [discriminate|].
    destruct (Ha c) as [A1 A2]; [lia|]. repeat constructor; auto; try apply Hlab; try apply A1; try apply A2; lia.
  - constructor.
    + split; [discriminate|]. constructor; [|exact Hn]. split; intros H; cbn in H; repeat (destruct H as [H|H]; [discriminate|]); exact H.
    + apply Forall_forall. intros r Hr. apply in_map_iff in Hr as (c & <- & Hc). apply in_seq in Hc. split; [discriminate|].
      constructor; [apply Hlab; lia|]. apply Forall_forall. intros w Hw. apply in_map_iff in Hw as (name & <- & _). apply Hf.
Qed.
Print Assumptions C139_read_back.

(** Three cases and two trees: the first says [a] below 1 and [b] above, the second, of
    weight 2, always [a].  The target also has a category [c]. *)
Definition votes_fm : fmatrix :=
  mkFM [FNum (mkNum [f1; f2; f2] [false; false; false] "N:x" false);
        FCat (mkCat (mkCM [("a", 0); ("b", 1); ("c", 2)] ["a"; "b"; "c"]) [0; 1; 2] [false; false; false] "C:y" false false)]
       [("N:x", 0); ("C:y", 1)] ["p"; "q"; "r"].
Definition votes_trees : list (node * f64) :=
  [(Node (mkNd (CNum f1) 0 "" (Some (mkSpl "N:x" true f1 []))) (Node (mkNd CNil 0 "a" None) Nil Nil Nil) (Node (mkNd CNil 0 "b" None) Nil Nil Nil) Nil, f1);
   (Node (mkNd CNil 0 "a" None) Nil Nil Nil, f2)].
Definition digits (x : f64) : string := if fleb x f0 then "0" else if fleb x f1 then "1" else if fleb x f2 then "2" else "3".
Definition votes_iters (i : nat) : ballot F64 := match i with 0 => [(0, fadd f1 f2)] | _ => [(1, f1); (0, f2)] end.
Lemma votes_askable : Forall (askable votes_fm 3) votes_trees.
Proof.
  constructor; [|constructor; [|constructor]]; (split; [discriminate|]); (split; [cbn; repeat split; discriminate|]).
  - cbn -[flag_sound has_case column]. repeat split; auto; try lia.
    + intros [|[|[|c]]] H; try discriminate. destruct c; discriminate.
    + repeat constructor; cbn; lia.
  - cbn. auto.
Qed.
Example C139_case : exists e, applyforest (fun _ => None) (fun x => x) digits votes_fm false false false false true true "C:y" f0 votes_trees votes_iters =
  Ok (Some (mkOut (Some e) (file_of [["p"; "a"; "a"]; ["q"; "a"; "b"]; ["r"; "a"; "c"]])
                  (file_of [["."; "a"; "b"]; ["p"; "3"; "0"]; ["q"; "2"; "1"]; ["r"; "2"; "1"]]))).
Proof. eexists. vm_compute. reflexivity. Qed.
(** Its orders of iteration are as the theorem asks. *)
Example C139_applies :
  match forest_votes votes_fm votes_trees with
  | Ok votes => match box_votes F64 (fun _ => None) (apply_box F64 false false false "C:y" 3) votes with
                | Ok (BCat bb) => cmBack (cbMap bb) = ["a"; "b"] /\ map (@length _) (cbBox bb) = [1; 2; 2] /\ map (bfind F64 0) (cbBox bb) = [Some (fadd f1 f2); Some f2; Some f2]
                | _ => False
                end
  | _ => False
  end.
Proof. vm_compute. auto. Qed.

(** ** What the files do not say.  Categories that no tree names have no column, although they
    are categories of the target, *)
Theorem C139_absent_category_refuted : forall PF fm f trees target num cat g t name votes bb cats rows,
  nth_error (fmData fm) 0 = Some f -> Forall (askable fm (fLength f)) trees ->
  cat = true \/ (num = false /\ has_prefix (B "N") (B target) = false) ->
  assoc target (fmMap fm) = Some t -> nth_error (fmData fm) t = Some (FCat g) -> In name (cmBack (cMap g)) ->
  (forall c tr, c < fLength f -> In tr trees -> says fm c tr <> Some name) ->
  forest_votes fm trees = Ok votes -> box_votes F64 PF (apply_box F64 false num cat target (fLength f)) votes = Ok bb ->
  vote_totals F64 bb = Ok (cats, rows) -> ~ In name cats.
Proof.
  intros PF fm f trees target num cat g t name votes bb cats rows Hf Ht Hc _ _ _ Hs Ev Eb Et Hin.
  destruct (forest_box fm f trees Hf Ht) as (votes' & bb' & Ev' & Eb' & _ & _ & Hn & _). rewrite Ev' in Ev. injection Ev as ->.
  assert (Ebox : apply_box F64 false num cat target (fLength f) = BCat (NewCatBallotBox F64 (fLength f))).
  { unfold apply_box. destruct Hc as [-> |[-> ->]]; [reflexivity|]. destruct cat; reflexivity. }
  rewrite Ebox, cat_votes, Eb' in Eb. cbn [bind] in Eb. injection Eb as <-. cbn [vote_totals] in Et. injection Et as <- _.
  apply Hn in Hin as (c & tr & Hc' & Ht' & Hs'). exact (Hs c tr Hc' Ht' Hs').
Qed.
Print Assumptions C139_absent_category_refuted.
(** and a matrix with fewer labels than cases (as libsvm files give, C07) makes the votes file
    panic. *)
Theorem C139_unlabelled_refuted : forall fmtF fm (bb : catBox F64),
  length (fmLabels fm) < length (cbBox bb) -> votes_file fmtF fm (BCat bb) = Panic.
Proof.
  intros fmtF fm bb H. unfold votes_file. cbn [vote_totals bind]. rewrite map_length.
  match goal with |- foreach (combine _ ?rows) _ ?out = _ => assert (Lr : length rows = length (cbBox bb)) by apply map_length; revert Lr; generalize rows; generalize out end.
  intros out rows Lr. rewrite <- Lr. rewrite <- Lr in H. clear Lr.
  assert (G : forall rows lo out, length (fmLabels fm) < lo + length rows -> lo <= length (fmLabels fm) ->
    foreach (combine (seq lo (length rows)) rows) (fun '((i, row) : nat * list f64) out =>
      let* l := get (fmLabels fm) i in Ok (out ++ tsv_line (l :: map fmtF row))) out = Panic).
  { clear. induction rows as [|r rows IH]; intros lo out H1 H2; [cbn in H1; lia|]. cbn [length seq combine foreach].
    destruct (Nat.eq_dec lo (length (fmLabels fm))) as [E|E].
    - replace (get (fmLabels fm) lo) with (@Panic string); [reflexivity|]. unfold get. rewrite (proj2 (nth_error_None _ _)) by lia. reflexivity.
    - destruct (@get_ok _ (fmLabels fm) lo) as (l & El & _); [lia|]. rewrite El. cbn [bind]. apply IH; cbn [length] in H1; lia. }
  apply G; [exact H|apply Nat.le_0_l].
Qed.
Print Assumptions C139_unlabelled_refuted.
