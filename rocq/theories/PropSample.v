(** C11-C16: shuffling and sampling. *)
From Verif Require Import Go GoLemmas F64 ModelFeature ModelSample SampleSpec SampleProofs.
Local Open Scope string_scope.
Local Open Scope nat_scope.
Local Open Scope list_scope.

(** ** C11 *)

(** For every sequence of legal draws, Shuffle of a feature of [n] cases moves
    the (value, missing) pairs along one permutation [p] of the positions that
    depends only on the draws. *)
Theorem C11_shuffle_is_permutation : forall rnd n,
  exists p, Permutation p (seq 0 n) /\
  forall A (ms : list bool) (d : list A), length ms = n -> length d = n ->
  exists ms' d', shuffle rnd ms d = Ok (ms', d')
    /\ map Some ms' = map (nth_error ms) p /\ map Some d' = map (nth_error d) p.
Proof.
  intros rnd n.
  destruct (fy_perm rnd (seq 0 n) [] n) as (p & Ep & Hp); [cbn; rewrite seq_length; auto|].
  cbn [app length] in Ep. rewrite seq_length in Ep.
  exists p. split; [symmetry; auto|]. intros A ms d Hm Hd.
  rewrite shuffle_shuffleCases.
  destruct (shuffleCases_sim rnd (seq 0 (length ms)) ms d) as ([ms' d'] & E & p' & Ep' & H1 & H2);
    [apply seq_NoDup|congruence|apply Forall_forall; intros i Hi; apply in_seq in Hi; lia|].
  rewrite seq_length in Ep'. rewrite Hm, Ep in Ep'. inversion Ep'; subst p'; clear Ep'.
  exists ms', d'. split; auto.
  assert (G : forall B (l l' : list B), moved (seq 0 (length ms)) p l l' -> length l = n ->
              map Some l' = map (nth_error l) p).
  { intros B l l' (G1 & G2 & _) Gl. rewrite <- G2. rewrite Hm, <- Gl, <- G1.
    clear. induction l' as [|x l' IH]; cbn; auto. f_equal.
    rewrite <- seq_shift, map_map. rewrite IH. apply map_ext; auto. }
  split; apply G; auto.
Qed.

(** Every permutation is reached by exactly one sequence of legal draws, so
    that uniform draws give a uniform permutation. *)
Theorem C11_shuffle_uniform : forall n p, Permutation p (seq 0 n) ->
  let reaches rnd := forall A (ms : list bool) (d : list A), length ms = n -> length d = n ->
    exists ms' d', shuffle rnd ms d = Ok (ms', d')
      /\ map Some ms' = map (nth_error ms) p /\ map Some d' = map (nth_error d) p in
  exists rnd, legal n rnd /\ reaches rnd /\
    forall rnd', legal n rnd' -> reaches rnd' -> forall j, j < n -> rnd' j = rnd j.
Proof.
  intros n p Hp reaches.
  destruct (fy_onto (seq 0 n) [] p n) as (rnd & Hl & E & Hu);
    [cbn; rewrite seq_length; auto|apply seq_NoDup|symmetry; auto|].
  cbn [app length] in *. rewrite seq_length in *.
  assert (Key : forall rnd p', fy rnd n n 0 (seq 0 n) = Ok p' ->
      forall A (ms : list bool) (d : list A), length ms = n -> length d = n ->
      exists ms' d', shuffle rnd ms d = Ok (ms', d')
      /\ map Some ms' = map (nth_error ms) p' /\ map Some d' = map (nth_error d) p').
  { intros rnd0 p' E' A ms d Hm Hd.
    destruct (C11_shuffle_is_permutation rnd0 n) as (q & Hq & Hall).
    rewrite shuffle_shuffleCases.
    destruct (shuffleCases_sim rnd0 (seq 0 (length ms)) ms d) as ([ms' d'] & E2 & p2 & Ep2 & H1 & H2);
      [apply seq_NoDup|congruence|apply Forall_forall; intros i Hi; apply in_seq in Hi; lia|].
    rewrite seq_length, Hm, E' in Ep2. inversion Ep2; subst p2.
    exists ms', d'. split; auto.
    assert (G : forall B (l l' : list B), moved (seq 0 (length ms)) p' l l' -> length l = n ->
              map Some l' = map (nth_error l) p').
    { intros B l l' (G1 & G2 & _) Gl. rewrite <- G2. rewrite Hm, <- Gl, <- G1.
      clear. induction l' as [|x l' IH]; cbn; auto. f_equal.
      rewrite <- seq_shift, map_map. rewrite IH. apply map_ext; auto. }
    split; apply G; auto. }
  exists rnd. split; [intros j Hj; apply Hl; lia|]. split.
  - unfold reaches. apply Key; auto.
  - intros rnd' Hl' Hr j Hj. apply Hu; try lia; [intros; apply Hl'; lia|].
    destruct (fy_perm rnd' (seq 0 n) [] n) as (p' & Ep' & Hp'); [cbn; rewrite seq_length; auto|].
    cbn [app length] in Ep'. rewrite seq_length in Ep'. rewrite Ep'. f_equal.
    (* read the permutation off the shuffled identity column *)
    destruct (Key rnd' p' Ep' nat (repeat false n) (seq 0 n)) as (ms1 & d1 & S1 & _ & D1);
      [apply repeat_length|apply seq_length|].
    destruct (Hr nat (repeat false n) (seq 0 n)) as (ms2 & d2 & S2 & _ & D2);
      [apply repeat_length|apply seq_length|].
    rewrite S1 in S2. inversion S2; subst ms2 d2. rewrite D1 in D2.
    assert (I : forall q, Permutation q (seq 0 n) -> map (nth_error (seq 0 n)) q = map Some q).
    { intros q Hq. apply map_ext_in. intros a Ha.
      apply (Permutation_in _ Hq) in Ha. apply in_seq in Ha.
      pose proof (get_seq n a ltac:(lia)) as G. apply get_inv in G. auto. }
    rewrite I in D2 by (symmetry; auto). rewrite I in D2 by auto.
    assert (Inj : forall q1 q2 : list nat, map Some q1 = map Some q2 -> q1 = q2).
    { induction q1; intros [|b q2] Hq; try discriminate; auto. cbn in Hq. inversion Hq. f_equal; auto. }
    apply Inj; auto.
Qed.
Print Assumptions C11_shuffle_is_permutation.
Print Assumptions C11_shuffle_uniform.

(** The methods of the two feature types are exactly that function. *)
Example C11_example :
  cShuffle (fun j => 1) (mkCat (mkCM [] ["a"; "b"; "c"]) [0; 1; 2] [false; true; false] "f" false true)
  = Ok (mkCat (mkCM [] ["a"; "b"; "c"]) [1; 2; 0] [true; false; false] "f" false true).
Proof. reflexivity. Qed.

(** ** C12 *)

(** ShuffleCases succeeds, moves the pairs of the listed cases along a
    permutation of that list and leaves every other case alone. *)
Theorem C12_shuffleCases_frame : forall A rnd cases (ms : list bool) (d : list A),
  NoDup cases -> length d = length ms -> (forall c, In c cases -> c < length ms) ->
  exists p ms' d', shuffleCases rnd cases ms d = Ok (ms', d')
    /\ Permutation p cases /\ moved cases p ms ms' /\ moved cases p d d'.
Proof.
  intros A rnd cases ms d Hnd Hl Hin.
  destruct (shuffleCases_sim rnd cases ms d Hnd Hl) as ([ms' d'] & E & p & Ep & H1 & H2);
    [apply Forall_forall; auto|].
  destruct (fy_perm rnd cases [] (length cases) eq_refl) as (p' & Ep' & Hp).
  cbn [app length] in Ep'. rewrite Ep in Ep'. inversion Ep'; subst p'.
  exists p, ms', d'. repeat split; auto; try apply H1; try apply H2. symmetry; auto.
Qed.

(** ... and every rearrangement of the listed cases comes from exactly one
    sequence of draws. *)
Theorem C12_shuffleCases_uniform : forall cases p n,
  NoDup cases -> (forall c, In c cases -> c < n) -> Permutation p cases ->
  let reaches rnd := forall A (ms : list bool) (d : list A), length ms = n -> length d = n ->
    exists ms' d', shuffleCases rnd cases ms d = Ok (ms', d')
      /\ moved cases p ms ms' /\ moved cases p d d' in
  exists rnd, legal (length cases) rnd /\ reaches rnd /\
    forall rnd', legal (length cases) rnd' -> reaches rnd' ->
      forall j, j < length cases -> rnd' j = rnd j.
Proof.
  intros cases p n Hnd Hin Hp reaches.
  destruct (fy_onto cases [] p (length cases)) as (rnd & Hl & E & Hu); auto; [symmetry; auto|].
  cbn [app length] in *.
  assert (Key : forall rnd p', fy rnd (length cases) (length cases) 0 cases = Ok p' ->
      forall A (ms : list bool) (d : list A), length ms = n -> length d = n ->
      exists ms' d', shuffleCases rnd cases ms d = Ok (ms', d')
      /\ moved cases p' ms ms' /\ moved cases p' d d').
  { intros rnd0 p' E' A ms d Hm Hd.
    destruct (shuffleCases_sim rnd0 cases ms d Hnd) as ([ms' d'] & E2 & p2 & Ep2 & H1 & H2);
      [congruence|apply Forall_forall; intros c Hc; rewrite Hm; auto|].
    rewrite E' in Ep2. inversion Ep2; subst p2. exists ms', d'. auto. }
  exists rnd. split; [intros j Hj; apply Hl; lia|]. split; [unfold reaches; apply Key; auto|].
  intros rnd' Hl' Hr j Hj. apply Hu; try lia; [intros; apply Hl'; lia|].
  destruct (fy_perm rnd' cases [] (length cases) eq_refl) as (p' & Ep' & Hp').
  cbn [app length] in Ep'. rewrite Ep'. f_equal.
  destruct (Key rnd' p' Ep' nat (repeat false n) (seq 0 n)) as (ms1 & d1 & S1 & _ & (_ & D1 & _));
    [apply repeat_length|apply seq_length|].
  destruct (Hr nat (repeat false n) (seq 0 n)) as (ms2 & d2 & S2 & _ & (_ & D2 & _));
    [apply repeat_length|apply seq_length|].
  rewrite S1 in S2. inversion S2; subst ms2 d2. rewrite D1 in D2.
  assert (I : forall q, Permutation q cases -> map (nth_error (seq 0 n)) q = map Some q).
  { intros q Hq. apply map_ext_in. intros a Ha.
    apply (Permutation_in _ Hq) in Ha. apply Hin in Ha.
    pose proof (get_seq n a Ha) as G. apply get_inv in G. auto. }
  rewrite I in D2 by (symmetry; auto). rewrite I in D2 by auto.
  assert (Inj : forall q1 q2 : list nat, map Some q1 = map Some q2 -> q1 = q2).
  { induction q1; intros [|b q2] Hq; try discriminate; auto. cbn in Hq. inversion Hq. f_equal; auto. }
  apply Inj; auto.
Qed.

(** With repeated cases the multiset of all pairs is still preserved. *)
Theorem C12_shuffleCases_multiset : forall A rnd cases (ms : list bool) (d : list A),
  length d = length ms -> (forall c, In c cases -> c < length ms) ->
  exists ms' d', shuffleCases rnd cases ms d = Ok (ms', d')
    /\ length ms' = length ms /\ length d' = length d
    /\ Permutation (combine ms d) (combine ms' d').
Proof.
  intros A rnd cases ms d Hl Hin.
  destruct (shuffleCases_pairs rnd cases ms d Hl) as ([ms' d'] & E & H); [apply Forall_forall; auto|].
  exists ms', d'. tauto.
Qed.
Print Assumptions C12_shuffleCases_frame.
Print Assumptions C12_shuffleCases_uniform.
Print Assumptions C12_shuffleCases_multiset.

Example C12_example :
  shuffleCases (fun j => 1) [4; 0; 2] [true; false; false; true; false] [10; 11; 12; 13; 14]
  = Ok ([false; false; false; true; true], [12; 11; 14; 13; 10]).
Proof. reflexivity. Qed.

(** ** C13 *)
Theorem C13_sampleFirstN : forall rnd deck n nconst,
  exists deck' k, SampleFirstN rnd deck n nconst = Ok (deck', firstn k deck')
    /\ Permutation deck deck'
    /\ skipn (length deck - nconst) deck' = skipn (length deck - nconst) deck
    /\ k <= n /\ k <= length deck - nconst
    /\ (nconst = 0 -> k = Nat.min n (length deck)).
Proof.
  intros rnd deck n nconst. unfold SampleFirstN.
  destruct (sampleFirstN_loop_ok rnd n nconst deck n 0 deck 0 0) as (s & -> & H1 & H2 & H3 & H4 & H5);
    auto; try lia.
  cbn [bind]. assert (length (sfnCards s) = length deck) by (symmetry; apply Permutation_length; auto).
  rewrite slice_firstn by lia. cbn [bind].
  exists (sfnCards s), (sfnLast s). repeat split; auto.
Qed.

(** With no constants, every arrangement of [n] distinct entries is returned
    for exactly one sequence of legal draws. *)
Theorem C13_sampleFirstN_uniform : forall deck n q,
  NoDup deck -> n <= length deck -> NoDup q -> incl q deck -> length q = n ->
  let legal_n rnd := forall j, j < n -> rnd j < length deck - j in
  let reaches rnd := exists deck', SampleFirstN rnd deck n 0 = Ok (deck', q) in
  exists rnd, legal_n rnd /\ reaches rnd /\
    forall rnd', legal_n rnd' -> reaches rnd' -> forall j, j < n -> rnd' j = rnd j.
Proof.
  intros deck n q Hnd Hn Hndq Hincl Hq legal_n reaches.
  destruct (fy_prefix q [] deck (length deck) eq_refl Hnd Hndq Hincl) as (rnd & Hl & [rest E] & Hu).
  cbn [app length] in *. rewrite Hq in *.
  assert (Key : forall rnd, reaches rnd <->
            exists rest, fy rnd (length deck) n 0 deck = Ok (q ++ rest)).
  { intros rnd0. unfold reaches, SampleFirstN.
    rewrite (sampleFirstN_loop_fy rnd0 n (length deck) n 0 deck) by lia.
    destruct (fy rnd0 (length deck) n 0 deck) as [c| |] eqn:Ef; cbn [bind].
    - assert (Hlc : length c = length deck).
      { unfold fy in Ef.
        apply (for_up_partial (fun _ l => length l = length deck)) in Ef; auto.
        intros i s s' _ Hs Eb. apply bind_ok in Eb as (r & _ & Eb).
        rewrite (swapl_length _ _ _ Eb); auto. }
      rewrite slice_firstn by (cbn; lia). cbn [bind sfnCards sfnLast Nat.add].
      split.
      + intros [deck' X]. inversion X as [[X1 X2]]. exists (skipn n c).
        rewrite X2. rewrite <- X2 at 1. rewrite X1 at 1. subst deck'. rewrite firstn_skipn; auto.
      + intros [rest' X]. inversion X; subst c. exists (q ++ rest').
        rewrite firstn_app_exact; auto.
    - split; intros [? X]; discriminate.
    - split; intros [? X]; discriminate. }
  exists rnd. split; [intros j Hj; apply Hl; lia|]. split; [apply Key; eauto|].
  intros rnd' Hl' Hr j Hj. apply Hu; try lia; [intros; apply Hl'; lia|]. apply Key; auto.
Qed.
Print Assumptions C13_sampleFirstN.
Print Assumptions C13_sampleFirstN_uniform.

Example C13_example :
  SampleFirstN (fun j => 4 - j) [5; 6; 7; 8; 9] 3 2 = Ok ([7; 6; 5; 8; 9], [7]).
Proof. reflexivity. Qed.

(** ** C14 *)
Theorem C14_sampleWithReplacment : forall rnd n total, 0 < total ->
  exists cases, SampleWithReplacment rnd n total = Ok cases
    /\ length cases = n /\ (forall c, In c cases -> c < total)
    /\ (forall i, i < n -> rnd i < total -> nth_error cases i = Some (rnd i)).
Proof.
  intros rnd n total Ht. destruct (SampleWithReplacment_ok rnd n total Ht) as (cs & -> & ->).
  eexists. split; [reflexivity|]. rewrite map_length, seq_length. repeat split; auto.
  - intros c Hc. apply in_map_iff in Hc as (i & <- & _). apply Nat.mod_upper_bound; lia.
  - intros i Hi Hr. rewrite nth_error_map.
    rewrite (nth_error_nth' (seq 0 n) 0) by (rewrite seq_length; auto).
    rewrite seq_nth by auto. cbn. rewrite Nat.mod_small; auto.
Qed.

(** The rejection loop of growforest: what it returns has the requested size and
    only cases whose target is present. *)
Theorem C14_bag : forall rnd f nCases nSamples fuel cases,
  bag rnd f nCases nSamples fuel = Ok cases ->
  length cases = nSamples /\
  forall c, In c cases -> c < nCases /\ fIsMissing f c = Ok false.
Proof.
  intros rnd f nCases nSamples fuel cases E. apply bag_ok in E as [H1 H2].
  rewrite Forall_forall in H2. auto.
Qed.

(** In-bag and out-of-bag lists are complementary; the latter has no repetition
    and is ascending. *)
Theorem C14_oob_complement : forall nCases cases,
  (forall c, In c cases -> c < nCases) ->
  exists oob, oob_list nCases cases = Ok oob
    /\ (forall i, In i oob <-> i < nCases /\ ~ In i cases)
    /\ NoDup oob
    /\ (forall i j a b, i < j -> nth_error oob i = Some a -> nth_error oob j = Some b -> a < b).
Proof.
  intros nCases cases Hin. rewrite oob_list_ok by (apply Forall_forall; auto).
  eexists; split; [reflexivity|]. split; [|split].
  - intros i. rewrite filter_In, in_seq, negb_true_iff.
    split.
    + intros [H1 H2]. split; [lia|]. intros Hi.
      assert (existsb (Nat.eqb i) cases = true).
      { apply existsb_exists. exists i; split; auto. apply Nat.eqb_refl. }
      congruence.
    + intros [H1 H2]. split; [lia|]. destruct (existsb (Nat.eqb i) cases) eqn:E; auto.
      apply existsb_exists in E as (c & Hc & Hic). apply Nat.eqb_eq in Hic; subst; contradiction.
  - apply NoDup_filter, seq_NoDup.
  - generalize (fun i : nat => negb (existsb (Nat.eqb i) cases)) as p. generalize 0 as lo.
    clear Hin. induction nCases as [|n IH]; intros lo p i j a b Hij Ha Hb; cbn in *.
    + destruct i; discriminate.
    + destruct (p lo).
      * destruct i as [|i], j as [|j]; cbn in *; try lia.
        -- inversion Ha; subst a. apply nth_error_In in Hb. apply filter_In in Hb as [Hb _].
           apply in_seq in Hb. lia.
        -- eapply IH; [|exact Ha|exact Hb]. lia.
      * eapply IH; eauto.
Qed.
Print Assumptions C14_sampleWithReplacment.
Print Assumptions C14_bag.
Print Assumptions C14_oob_complement.

Example C14_example :
  bag (fun j => nth j [1; 5; 2; 0; 1] 0)
    (FNum (mkNum [f0; f1; f2; f0] [false; false; true; false] "t" true)) 4 3 10 = Ok [1; 1; 0]
  /\ oob_list 4 [1; 1; 0] = Ok [2; 3].
Proof. split; reflexivity. Qed.

(** The rejection loop ends as soon as enough usable cases have been drawn. *)
Theorem C14_bag_terminates : forall rnd f nCases nSamples,
  0 < nCases -> nCases <= fLength f ->
  (forall j, exists j', j <= j' /\ fIsMissing f (rnd j' mod nCases) = Ok false) ->
  exists fuel cases, bag rnd f nCases nSamples fuel = Ok cases.
Proof.
  intros rnd f nCases nSamples Hn Hlen Hfair. unfold bag.
  set (body := fun '((j, cases) : nat * list nat) =>
    if length cases <? nSamples then
      let* r := intn (rnd j) nCases in
      let* m := fIsMissing f r in
      Ok (Next (S j, if m then cases else cases ++ [r]))
    else Ok (Done cases)).
  enough (G : forall m d j j' cases, nSamples - length cases <= m -> j' = j + d ->
     fIsMissing f (rnd j' mod nCases) = Ok false ->
     exists fuel cs, loop fuel body (j, cases) = Ok cs).
  { destruct (Hfair 0) as (j' & Hj & Hm). apply (G nSamples j' 0 j'); auto. cbn; lia. }
  assert (Hmiss : forall j, exists b, fIsMissing f (rnd j mod nCases) = Ok b).
  { intros j. assert (rnd j mod nCases < fLength f).
    { pose proof (Nat.mod_upper_bound (rnd j) nCases ltac:(lia)). lia. }
    destruct f as [g|g]; cbn in *; unfold nIsMissing, cIsMissing, nLength, cLength in *.
    - destruct (@get_ok _ (nMissing g) (rnd j mod nCases)) as (b & -> & _); eauto.
    - destruct (@get_ok _ (cMissing g) (rnd j mod nCases)) as (b & -> & _); eauto. }
  induction m as [|m IHm]; intros d; induction d as [|d IHd]; intros j j' cases Hm Ej Hj'.
  1,2: exists 1, cases; cbn [loop]; unfold body; replace (length cases <? nSamples) with false
         by (symmetry; apply Nat.ltb_ge; lia); reflexivity.
  - rewrite Nat.add_0_r in Ej. subst j'.
    destruct (Nat.ltb_spec (length cases) nSamples) as [Hlt|Hge].
    + destruct (Hfair (S j)) as (j2 & Hj2 & Hm2).
      destruct (IHm (j2 - S j) (S j) j2 (cases ++ [rnd j mod nCases])) as (fuel & cs & E);
        [rewrite app_length; cbn; lia|lia|auto|].
      exists (S fuel), cs. cbn [loop]. unfold body at 1.
      replace (length cases <? nSamples) with true by (symmetry; apply Nat.ltb_lt; lia).
      destruct (intn_ok (rnd j) nCases Hn) as [-> _]. cbn [bind]. rewrite Hj'. cbn [bind]. exact E.
    + exists 1, cases. cbn [loop]; unfold body; replace (length cases <? nSamples) with false
         by (symmetry; apply Nat.ltb_ge; lia); reflexivity.
  - destruct (Nat.ltb_spec (length cases) nSamples) as [Hlt|Hge].
    + destruct (Hmiss j) as [b Hb].
      destruct (IHd (S j) j' (if b then cases else cases ++ [rnd j mod nCases])) as (fuel & cs & E);
        [destruct b; rewrite ?app_length; cbn; lia|lia|auto|].
      exists (S fuel), cs. cbn [loop]. unfold body at 1.
      replace (length cases <? nSamples) with true by (symmetry; apply Nat.ltb_lt; lia).
      destruct (intn_ok (rnd j) nCases Hn) as [-> _]. cbn [bind]. rewrite Hb. cbn [bind]. exact E.
    + exists 1, cases. cbn [loop]; unfold body; replace (length cases <? nSamples) with false
         by (symmetry; apply Nat.ltb_ge; lia); reflexivity.
Qed.
Print Assumptions C14_bag_terminates.

(** ** C15 *)

(** A feature whose arrays have one entry per case and whose present values are
    known categories. *)
Definition valid_column (f : catF) : Prop :=
  length (cMissing f) = length (cData f) /\
  forall i c, has_class (cMissing f) (cData f) c i -> c < NCats (cMap f).

(** When every category of the feature occurs, sample number [i] is the case
    picked by draw [2i+1] from the ascending list of the present cases of the
    class picked by draw [2i]. *)
Theorem C15_balanced : forall f rnd n, valid_column f -> 0 < NCats (cMap f) ->
  (forall c, c < NCats (cMap f) -> exists i, has_class (cMissing f) (cData f) c i) ->
  exists cs samples, newBalanced f = Ok cs /\ balancedSample cs rnd n = Ok samples
    /\ length samples = n
    /\ forall i s, nth_error samples i = Some s ->
       let c := rnd (2 * i) mod NCats (cMap f) in
       let members := class_cases (cMissing f) (cData f) c in
       has_class (cMissing f) (cData f) c s
       /\ nth_error members (rnd (2 * i + 1) mod length members) = Some s.
Proof.
  intros f rnd n [Hl Hv] Hn Hocc.
  destruct (newBalanced_ok f Hl Hv) as (cs & E & Hlen & Hcs).
  destruct (balancedSample_ok cs rnd n) as (samples & E2 & Hls & Hs).
  - intros ->. cbn in Hlen. lia.
  - intros l Hin. apply In_nth_error in Hin as [c Hc].
    assert (Hcl : c < NCats (cMap f)) by (rewrite <- Hlen; eapply nth_error_some_lt; eauto).
    rewrite (Hcs c Hcl) in Hc. inversion Hc; subst l.
    destruct (Hocc c Hcl) as [i Hi]. intros Hnil.
    assert (In i (class_cases (cMissing f) (cData f) c)).
    { apply filter_In. split; [|apply has_classb_spec; auto]. apply in_seq.
      destruct Hi as [_ Hi]. apply nth_error_some_lt in Hi. lia. }
    rewrite Hnil in H; contradiction.
  - exists cs, samples. repeat split; auto.
    + destruct (Hs i s H) as [H1 H2]. rewrite Hlen in *.
      rewrite (nth_error_nth _ _ _ (Hcs _ H1)) in H2.
      apply nth_error_In in H2. apply filter_In in H2 as [_ H2]. apply has_classb_spec in H2.
      apply H2.
    + destruct (Hs i s H) as [H1 H2]. rewrite Hlen in *.
      rewrite (nth_error_nth _ _ _ (Hcs _ H1)) in H2.
      apply nth_error_In in H2. apply filter_In in H2 as [_ H2]. apply has_classb_spec in H2.
      apply H2.
    + destruct (Hs i s H) as [H1 H2]. rewrite Hlen in *.
      rewrite (nth_error_nth _ _ _ (Hcs _ H1)) in H2. exact H2.
Qed.

(** The two level sampler: whatever it returns carries the target class of its
    second draw and the secondary class whose block of cases its first draw hit. *)
Theorem C15_secondary : forall target balanceby rnd n samples s,
  valid_column target -> valid_column balanceby ->
  length (cData target) = length (cData balanceby) ->
  newSecondary target balanceby = Ok s -> secondarySample s rnd n = Ok samples ->
  length samples = n /\
  forall i x, nth_error samples i = Some x ->
    exists b, in_block (secCounts s) (rnd (3 * i) mod secTotal s) b
      /\ has_class (cMissing balanceby) (cData balanceby) b x
      /\ has_class (cMissing target) (cData target) (rnd (3 * i + 1) mod NCats (cMap target)) x.
Proof.
  intros target balanceby rnd n samples s [H1 H2] [H3 H4] H5 E E2.
  destruct (newSecondary_ok target balanceby H1 H3 H5 H2 H4) as (s' & E' & Hs).
  rewrite E in E'. inversion E'; subst s'.
  eapply (secondarySample_partial target balanceby); eauto.
Qed.

(** The blocks have the sizes of the secondary classes among the cases present in
    both features, and they fill the range drawn from. *)
Theorem C15_secondary_blocks : forall target balanceby,
  valid_column target -> valid_column balanceby ->
  length (cData target) = length (cData balanceby) ->
  exists s, newSecondary target balanceby = Ok s
    /\ list_sum (secCounts s) = secTotal s
    /\ length (secCounts s) = NCats (cMap balanceby)
    /\ forall b, b < NCats (cMap balanceby) -> nth_error (secCounts s) b =
         Some (length (filter (fun i =>
           match nth_error (cMissing target) i with
           | Some false => has_classb (cMissing balanceby) (cData balanceby) b i
           | _ => false end) (seq 0 (length (cData target))))).
Proof.
  intros target balanceby [H1 H2] [H3 H4] H5.
  destruct (newSecondary_ok target balanceby H1 H3 H5 H2 H4) as (s & E & [S1 S2 S3 S4 S5]).
  exists s. repeat split; auto.
Qed.

(** It succeeds when each secondary class in use contains every target class. *)
Theorem C15_secondary_total : forall target balanceby rnd n s,
  valid_column target -> valid_column balanceby ->
  length (cData target) = length (cData balanceby) ->
  newSecondary target balanceby = Ok s ->
  (exists i b c, has_class (cMissing balanceby) (cData balanceby) b i
                 /\ has_class (cMissing target) (cData target) c i) ->
  (forall b c i, c < NCats (cMap target) ->
     nth_error (cMissing target) i = Some false ->
     has_class (cMissing balanceby) (cData balanceby) b i ->
     exists k, has_class (cMissing balanceby) (cData balanceby) b k
               /\ has_class (cMissing target) (cData target) c k) ->
  exists samples, secondarySample s rnd n = Ok samples.
Proof.
  intros target balanceby rnd n s [H1 H2] [H3 H4] H5 E (i0 & b0 & c0 & Hb0 & Hc0) Hcells.
  destruct (newSecondary_ok target balanceby H1 H3 H5 H2 H4) as (s' & E' & Hs).
  rewrite E in E'. inversion E'; subst s'.
  apply (secondarySample_total target balanceby); auto.
  - destruct Hs as [S1 S2 S3 S4 S5]. rewrite S1.
    pose proof (S4 b0 (H4 _ _ Hb0)) as Hn.
    assert (Hin : In i0 (filter (rowb target balanceby b0) (seq 0 (length (cData target))))).
    { apply filter_In. split.
      - apply in_seq. destruct Hc0 as [_ Hc0]. apply nth_error_some_lt in Hc0. lia.
      - unfold rowb. destruct Hc0 as [-> _]. apply has_classb_spec; auto. }
    pose proof (list_sum_upd _ _ _ 0 Hn).
    destruct (filter (rowb target balanceby b0) (seq 0 (length (cData target)))); [contradiction|].
    cbn in *. lia.
  - pose proof (H2 _ _ Hc0). lia.
  - intros b c Hc (i & Hi & Hrow). unfold rowb in Hrow.
    destruct (nth_error (cMissing target) i) as [[|]|] eqn:Em; try discriminate.
    apply has_classb_spec in Hrow.
    destruct (Hcells b c i Hc Em Hrow) as (k & Hk1 & Hk2).
    exists k. split; [destruct Hk2 as [_ Hk2]; apply nth_error_some_lt in Hk2; auto|].
    unfold cellb. apply andb_true_iff. split; apply has_classb_spec; auto.
Qed.
Print Assumptions C15_balanced.
Print Assumptions C15_secondary.
Print Assumptions C15_secondary_blocks.
Print Assumptions C15_secondary_total.

Definition ex_t : catF := mkCat (mkCM [] ["a"; "b"]) [0; 1; 0; 1; 0] [false; false; false; false; true] "t" false true.
Definition ex_b : catF := mkCat (mkCM [] ["x"; "y"]) [0; 0; 1; 1; 1] [false; false; false; false; false] "b" false false.
Example C15_example :
  (let* cs := newBalanced ex_t in balancedSample cs (fun j => j * j / 3) 4) = Ok [0; 3; 1; 0]
  /\ (let* s := newSecondary ex_t ex_b in secondarySample s (fun j => j) 3) = Ok [1; 2; 3].
Proof. split; reflexivity. Qed.

(** ** C16 *)

(** The claim is false: two features in which every category occurs, but not
    every combination, make Sample ask for a random number from an empty range. *)
Theorem C16_secondary_can_panic_refuted :
  exists target balanceby rnd,
    valid_column target /\ valid_column balanceby
    /\ length (cData target) = length (cData balanceby)
    /\ (forall c, c < NCats (cMap target) -> exists i, has_class (cMissing target) (cData target) c i)
    /\ (forall b, b < NCats (cMap balanceby) -> exists i, has_class (cMissing balanceby) (cData balanceby) b i)
    /\ (let* s := newSecondary target balanceby in secondarySample s rnd 1) = Panic.
Proof.
  exists (mkCat (mkCM [("a", 0); ("b", 1)] ["a"; "b"]) [0; 1] [false; false] "t" false false).
  exists (mkCat (mkCM [("x", 0); ("y", 1)] ["x"; "y"]) [0; 1] [false; false] "b" false false).
  exists (fun j => nth j [0; 1; 0] 0). unfold valid_column, has_class; cbn [cMissing cData cMap NCats].
  split; [|split; [|split; [|split; [|split]]]]; try reflexivity.
  - split; auto. intros [|[|[|i]]] c [_ H]; cbn in H; inversion H; cbn; lia.
  - split; auto. intros [|[|[|i]]] c [_ H]; cbn in H; inversion H; cbn; lia.
  - intros [|[|c]] Hc; cbn in Hc; try lia; [exists 0|exists 1]; split; reflexivity.
  - intros [|[|c]] Hc; cbn in Hc; try lia; [exists 0|exists 1]; split; reflexivity.
Qed.
Print Assumptions C16_secondary_can_panic_refuted.
