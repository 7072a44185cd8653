(** Lemmas for C19-C25, C27, C28. *)
From Verif Require Import Go GoLemmas F64 F64Order Exact ModelFeature FeatureProofs Conc ModelBallot BallotSpec.
Local Open Scope string_scope.
Local Open Scope nat_scope.
Local Open Scope list_scope.

(** ** Ballot maps *)
Section Maps.
  Variable N : arith.

  Lemma bput_keys k v (m : ballot N) : NoDup (map fst m) ->
    NoDup (map fst (bput N k v m))
    /\ (forall k' v', In (k', v') (bput N k v m) <->
          (k' = k /\ v' = v) \/ (k' <> k /\ In (k', v') m)).
  Proof.
    induction m as [|[a b] m IH]; cbn; intros Hn.
    - split; [constructor; auto; constructor|]. intros k' v'. split.
      + intros [E|[]]; inversion E; auto.
      + intros [[-> ->]|[_ []]]; auto.
    - inversion Hn as [|? ? Hna Hn']; subst. destruct (IH Hn') as [I1 I2].
      destruct (Nat.eqb_spec k a) as [->|Hne]; cbn.
      + split; [constructor; auto|]. intros k' v'. split.
        * intros [E|Hi]; [inversion E; auto|]. right. split; auto. intros ->.
          apply Hna. apply in_map_iff. exists (a, v'); auto.
        * intros [[-> ->]|[Hk [E|Hi]]]; auto. inversion E; congruence.
      + split.
        * constructor; auto. intros Hi. apply in_map_iff in Hi as ((k', v') & E & Hi); cbn in E; subst.
          apply I2 in Hi as [[E _]|[_ Hi]]; [congruence|].
          apply Hna. apply in_map_iff. exists (a, v'); auto.
        * intros k' v'. rewrite I2. split.
          -- intros [E|[?|[? ?]]]; auto. inversion E; subst; auto.
          -- intros [[-> ->]|[Hk [E|Hi]]]; auto.
  Qed.

  Lemma bfind_in k v (m : ballot N) : NoDup (map fst m) ->
    (bfind N k m = Some v <-> In (k, v) m).
  Proof.
    induction m as [|[a b] m IH]; cbn; intros Hn; [split; [discriminate|tauto]|].
    inversion Hn as [|? ? Hna Hn']; subst. specialize (IH Hn').
    destruct (Nat.eqb_spec k a) as [->|Hne].
    - split; [intros E; inversion E; auto|]. intros [E|Hi]; [inversion E; auto|].
      exfalso. apply Hna. apply in_map_iff. exists (a, v); auto.
    - rewrite IH. split; auto. intros [E|Hi]; auto. inversion E; congruence.
  Qed.

  Lemma bfind_bput k v k' (m : ballot N) :
    bfind N k' (bput N k v m) = if k' =? k then Some v else bfind N k' m.
  Proof.
    induction m as [|[a b] m IH]; cbn.
    - destruct (k' =? k); auto.
    - destruct (Nat.eqb_spec k a) as [->|Hne]; cbn.
      + destruct (k' =? a); auto.
      + destruct (Nat.eqb_spec k' a) as [->|Hne']; auto.
        destruct (Nat.eqb_spec a k); congruence.
  Qed.

  Lemma bput_bput k v v' (m : ballot N) : bput N k v (bput N k v' m) = bput N k v m.
  Proof.
    induction m as [|[a b] m IH]; cbn.
    - rewrite Nat.eqb_refl; auto.
    - destruct (Nat.eqb_spec k a) as [->|Hne]; cbn.
      + rewrite Nat.eqb_refl; auto.
      + destruct (Nat.eqb_spec k a); [congruence|]. f_equal; auto.
  Qed.

  Lemma credit_eq m k w :
    credit N m k w = bput N k (nadd N (match bfind N k m with Some v => v | None => nofZ N 0 end) w) m.
  Proof.
    unfold credit. destruct (bfind N k m) as [v|] eqn:E; [rewrite E; auto|].
    rewrite bfind_bput, Nat.eqb_refl, bput_bput. reflexivity.
  Qed.

  Lemma weights_for_app i name (a b : list (vote N)) :
    weights_for N i name (a ++ b) = weights_for N i name a ++ weights_for N i name b.
  Proof. unfold weights_for. rewrite flat_map_app. reflexivity. Qed.
  Lemma total_for_snoc i name (a : list (vote N)) c p w :
    total_for N i name (a ++ [(c, p, w)]) =
    if (c =? i) && String.eqb p name then nadd N (total_for N i name a) w else total_for N i name a.
  Proof.
    unfold total_for. rewrite weights_for_app, fold_left_app. cbn.
    destruct (_ && _); reflexivity.
  Qed.

  (** What the ballot of case [i] holds after the votes [vs]. *)
  Record ballot_ok (cm : catmap) (vs : list (vote N)) (i : nat) (b : ballot N) : Prop := {
    b_nodup : NoDup (map fst b);
    b_sound : forall k v, In (k, v) b -> exists name,
        nth_error (cmBack cm) k = Some name /\ v = total_for N i name vs
        /\ weights_for N i name vs <> [];
    b_all : forall name, weights_for N i name vs <> [] -> exists k v,
        In (k, v) b /\ nth_error (cmBack cm) k = Some name
  }.

  Lemma ballot_ok_extend cm cm' vs i b ext :
    cmBack cm' = cmBack cm ++ ext -> ballot_ok cm vs i b -> ballot_ok cm' vs i b.
  Proof.
    intros E [H1 H2 H3]. split; auto.
    - intros k v Hi. destruct (H2 k v Hi) as (name & Hn & Hv). exists name; split; auto.
      rewrite E, nth_error_app1; auto. eapply nth_error_some_lt; eauto.
    - intros name Hw. destruct (H3 name Hw) as (k & v & Hi & Hn). exists k, v; split; auto.
      rewrite E, nth_error_app1; auto. eapply nth_error_some_lt; eauto.
  Qed.

  Lemma catVote_ok bb vs casei pred w :
    cm_ok (cbMap bb) ->
    (forall i b, nth_error (cbBox bb) i = Some b -> ballot_ok (cbMap bb) vs i b) ->
    casei < length (cbBox bb) ->
    yields (catVote N bb casei pred w) (fun bb' =>
      cm_ok (cbMap bb') /\ length (cbBox bb') = length (cbBox bb)
      /\ forall i b, nth_error (cbBox bb') i = Some b ->
           ballot_ok (cbMap bb') (vs ++ [(casei, pred, w)]) i b).
  Proof.
    intros Hcm Hb Hc. unfold catVote.
    destruct (CatToNum (cbMap bb) pred) as [cm n] eqn:Ec.
    destruct (CatToNum_ok _ _ _ _ Hcm Ec) as (Hcm' & Hn & _ & _).
    destruct (CatToNum_extends _ _ _ _ Ec) as (ext & Hext).
    destruct (@get_ok _ (cbBox bb) casei Hc) as (m & Eg & Em). rewrite Eg; cbn [bind].
    rewrite set_ok by auto. cbn [bind]. eexists; split; [reflexivity|]. cbn [cbMap cbBox].
    split; [auto|]. split; [apply upd_length|].
    intros i b Hi. apply upd_cases in Hi as [[-> ->]|[Hne Hi]].
    - pose proof (ballot_ok_extend _ _ _ _ _ _ Hext (Hb _ _ Em)) as [H1 H2 H3].
      rewrite credit_eq.
      destruct (bput_keys n (nadd N (match bfind N n m with Some v => v | None => nofZ N 0 end) w) m H1)
        as [K1 K2].
      assert (Hcur : match bfind N n m with Some v => v | None => nofZ N 0 end
                     = total_for N casei pred vs).
      { destruct (bfind N n m) as [v|] eqn:Ef.
        - apply bfind_in in Ef; auto. destruct (H2 _ _ Ef) as (name & Hn' & -> & _). congruence.
        - destruct (weights_for N casei pred vs) eqn:Ew.
          + unfold total_for. rewrite Ew. reflexivity.
          + destruct (H3 pred) as (k & v & Hi & Hk); [congruence|].
            assert (k = n).
            { pose proof (cm_ok_nodup _ Hcm') as Hnd. rewrite NoDup_nth_error in Hnd.
              apply Hnd; [eapply nth_error_some_lt; eauto|congruence]. }
            subst. apply bfind_in in Hi; auto. congruence. }
      split; auto.
      + intros k v Hi. apply K2 in Hi as [[-> ->]|[Hk Hi]].
        * exists pred. split; [auto|]. split.
          -- rewrite total_for_snoc, Nat.eqb_refl, String.eqb_refl, Hcur. reflexivity.
          -- rewrite weights_for_app; cbn. rewrite Nat.eqb_refl, String.eqb_refl; cbn.
             destruct (weights_for N casei pred vs); discriminate.
        * destruct (H2 _ _ Hi) as (name & Hn' & -> & Hw). exists name. split; [auto|].
          assert (pred <> name) by (intros ->; apply Hk;
            pose proof (cm_ok_nodup _ Hcm') as Hnd; rewrite NoDup_nth_error in Hnd;
            apply Hnd; [eapply nth_error_some_lt; eauto|congruence]).
          apply String.eqb_neq in H. split.
          -- rewrite total_for_snoc, H, andb_false_r. reflexivity.
          -- rewrite weights_for_app; cbn. rewrite H, andb_false_r; cbn. rewrite app_nil_r; auto.
      + intros name Hw. destruct (string_dec name pred) as [->|Hne].
        * eexists n, _. split; [apply K2; left; split; reflexivity|auto].
        * rewrite weights_for_app in Hw; cbn in Hw.
          assert (String.eqb pred name = false) as Hf by (apply String.eqb_neq; auto).
          rewrite Hf, andb_false_r in Hw; cbn in Hw. rewrite app_nil_r in Hw.
          destruct (H3 name Hw) as (k & v & Hi & Hk). exists k, v. split; [|auto].
          apply K2. right. split; auto. intros ->. congruence.
    - pose proof (ballot_ok_extend _ _ _ _ _ _ Hext (Hb _ _ Hi)) as [H1 H2 H3].
      assert (Hwf : forall name, weights_for N i name (vs ++ [(casei, pred, w)]) = weights_for N i name vs).
      { intros name. rewrite weights_for_app; cbn.
        assert (casei =? i = false) as -> by (apply Nat.eqb_neq; auto). cbn. apply app_nil_r. }
      split; auto.
      + intros k v Hk. destruct (H2 _ _ Hk) as (name & ? & -> & ?). exists name.
        unfold total_for. rewrite Hwf. auto.
      + intros name. rewrite Hwf. auto.
  Qed.

  Definition cast (votes : list (vote N)) (bb : catBox N) : res (catBox N) :=
    foreach votes (fun '(c, p, w) bb => catVote N bb c p w) bb.

  Lemma cast_ok size (votes : list (vote N)) :
    Forall (fun '(c, _, _) => c < size) votes ->
    yields (cast votes (NewCatBallotBox N size)) (fun bb =>
      cm_ok (cbMap bb) /\ length (cbBox bb) = size
      /\ forall i b, nth_error (cbBox bb) i = Some b -> ballot_ok (cbMap bb) votes i b).
  Proof.
    intros Hall. unfold cast.
    pose proof (@foreach_total _ _ (fun '(c, p, w) bb => catVote N bb c p w)
      (fun before after bb => votes = before ++ after /\ 
        cm_ok (cbMap bb) /\ length (cbBox bb) = size
        /\ forall i b, nth_error (cbBox bb) i = Some b -> ballot_ok (cbMap bb) before i b)) as H.
    eapply yields_weaken; [apply H with (l := votes) (pre := [])|].
    - intros before a after bb (E & I1 & I2 & I3). destruct a as [[c p] w].
      assert (c < size).
      { rewrite Forall_forall in Hall. apply (Hall (c, p, w)). rewrite E. apply in_or_app; cbn; auto. }
      eapply yields_weaken; [apply catVote_ok; eauto; lia|]. cbn. intros bb' (J1 & J2 & J3).
      split; [rewrite <- app_assoc; auto|]. split; [auto|]. split; [lia|auto].
    - cbn. split; auto. split; [apply cm_ok_empty|]. split; [apply repeat_length|].
      intros i b Hi. apply nth_error_In, repeat_spec in Hi. subst. split; cbn.
      + constructor.
      + tauto.
      + intros name Hw; elim Hw; reflexivity.
    - cbn. intros bb (E & I). rewrite app_nil_r in E. subst; tauto.
  Qed.
End Maps.

(** ** Tally of categorical ballots *)
Lemma tally_loop_ok es : forall k0 v0 k v,
  tally_loop F64 es k0 v0 = (k, v) ->
  ((k, v) = (k0, v0) /\ forall k' v', In (k', v') es -> fltb v0 v' = false)
  \/ (In (k, v) es /\ fltb v0 v = true /\ forall k' v', In (k', v') es -> fltb v v' = false).
Proof.
  induction es as [|[k1 v1] es IH]; cbn; intros k0 v0 k v E.
  - left; split; [congruence|tauto].
  - destruct (fltb v0 v1) eqn:El.
    + right. destruct (IH _ _ _ _ E) as [[E' H]|(Hi & Hl & H)].
      * inversion E'; subst. split; auto. split; auto. intros k' v' [E2|Hi]; eauto.
        inversion E2; subst. apply flt_irrefl.
      * split; auto. split; [eapply flt_trans; eauto|]. intros k' v' [E2|Hi']; eauto.
        inversion E2; subst. clear - Hl. ford.
    + destruct (IH _ _ _ _ E) as [[E' H]|(Hi & Hl & H)].
      * left. split; auto. intros k' v' [E2|Hi]; eauto. inversion E2; subst; auto.
      * right. split; auto. split; auto. intros k' v' [E2|Hi']; eauto.
        inversion E2; subst. clear - Hl El. ford.
Qed.

Lemma catTally_ok (bb : catBox F64) votes i b iter :
  ballot_ok F64 (cbMap bb) votes i b -> Permutation iter b ->
  yields (catTally F64 bb iter) (fun ans =>
    ((forall name, fltb f0 (total_for F64 i name votes) = false) -> ans = "NA")
    /\ ((exists name, fltb f0 (total_for F64 i name votes) = true) ->
        fltb f0 (total_for F64 i ans votes) = true
        /\ forall name, fltb (total_for F64 i ans votes) (total_for F64 i name votes) = false)).
Proof.
  intros [H1 H2 H3] Hp. unfold catTally.
  change (nofZ F64 0) with f0.
  destruct (tally_loop F64 iter 0 f0) as [k v] eqn:Et.
  assert (Hin : forall k v, In (k, v) iter <-> In (k, v) b).
  { intros; split; apply Permutation_in; auto. symmetry; auto. }
  assert (Hz : forall name, weights_for F64 i name votes = [] -> total_for F64 i name votes = f0).
  { intros name E. unfold total_for. rewrite E. reflexivity. }
  change (nltb F64) with fltb.
  destruct (tally_loop_ok _ _ _ _ _ Et) as [[E H]|(Hi & Hl & H)].
  - inversion E; subst. rewrite flt_irrefl. eexists; split; [reflexivity|]. split; auto.
    intros [name Hn]. exfalso. destruct (weights_for F64 i name votes) eqn:Ew.
    + rewrite (Hz _ Ew) in Hn. rewrite flt_irrefl in Hn; discriminate.
    + destruct (H3 name) as (k & v & Hi & Hk); [congruence|].
      destruct (H2 _ _ Hi) as (name' & Hk' & -> & _). assert (name' = name) by congruence; subst.
      apply Hin in Hi. rewrite (H _ _ Hi) in Hn. discriminate.
  - rewrite Hl. apply Hin in Hi. destruct (H2 _ _ Hi) as (name & Hk & -> & Hw).
    rewrite (get_nth _ _ Hk). eexists; split; [reflexivity|]. split.
    + intros Hno. rewrite Hno in Hl; discriminate.
    + intros _. split; auto. intros name'. destruct (weights_for F64 i name' votes) eqn:Ew.
      * rewrite (Hz _ Ew). clear - Hl. ford.
      * destruct (H3 name') as (k' & v' & Hi' & Hk'); [congruence|].
        destruct (H2 _ _ Hi') as (name'' & Hk'' & -> & _). assert (name'' = name') by congruence; subst.
        apply Hin in Hi'. eapply H; eauto.
Qed.

(** ** Running means *)
Section Numbers.
  Variable N : arith.
  Variable PF : string -> option N.

  Definition ncast (votes : list (vote N)) (bb : numBox N) : res (numBox N) :=
    foreach votes (fun '(c, p, w) bb => numVote N PF bb c p w) bb.
  Definition scast (votes : list (vote N)) (bb : sumBox N) : res (sumBox N) :=
    foreach votes (fun '(c, p, w) bb => sumVote N PF bb c p w) bb.

  Definition addpairs (l : list (N * N)) (rm : rmean N) : rmean N :=
    fold_left (fun rm '(v, w) => WeightedAdd N rm v w) l rm.
  Definition sumpairs (l : list (N * N)) (s : N) : N :=
    fold_left (fun s '(v, w) => nadd N s (nmul N v w)) l s.

  Lemma numbers_for_app i a b : numbers_for N PF i (a ++ b) = numbers_for N PF i a ++ numbers_for N PF i b.
  Proof. apply flat_map_app. Qed.

  Lemma ncast_ok (votes : list (vote N)) : forall bb,
    Forall (fun '(c, _, _) => c < length bb) votes ->
    yields (ncast votes bb) (fun bb' => length bb' = length bb /\
      forall i rm, nth_error bb i = Some rm ->
        nth_error bb' i = Some (addpairs (numbers_for N PF i votes) rm)).
  Proof.
    induction votes as [|[[c p] w] votes IH]; cbn; intros bb Hall.
    - exists bb; split; auto.
    - inversion Hall as [|? ? Hc Hall']; subst. unfold numVote at 1.
      destruct (PF p) as [v|] eqn:Ep.
      + destruct (@get_ok _ bb c Hc) as (rm & Eg & En). rewrite Eg; cbn [bind].
        rewrite set_ok by auto; cbn [bind].
        eapply yields_weaken; [apply IH; rewrite upd_length; auto|]. cbn.
        intros bb' (L & H). rewrite upd_length in L. split; auto. intros i rm' Hi.
        destruct (Nat.eqb_spec c i) as [->|Hne].
        * assert (rm' = rm) by congruence; subst.
          rewrite (H i (WeightedAdd N rm v w)); [reflexivity|]. apply nth_error_upd_eq; auto.
        * apply H. rewrite nth_error_upd_neq; auto.
      + cbn [bind]. eapply yields_weaken; [apply IH; auto|]. cbn. intros bb' (L & H). split; auto.
        intros i rm Hi. destruct (c =? i); cbn; apply H; auto.
  Qed.

  Lemma scast_ok (votes : list (vote N)) : forall bb,
    Forall (fun '(c, _, _) => c < length bb) votes ->
    yields (scast votes bb) (fun bb' => length bb' = length bb /\
      forall i s, nth_error bb i = Some s ->
        nth_error bb' i = Some (sumpairs (numbers_for N PF i votes) s)).
  Proof.
    induction votes as [|[[c p] w] votes IH]; cbn; intros bb Hall.
    - exists bb; split; auto.
    - inversion Hall as [|? ? Hc Hall']; subst. unfold sumVote at 1.
      destruct (PF p) as [v|] eqn:Ep.
      + destruct (@get_ok _ bb c Hc) as (s & Eg & En). rewrite Eg; cbn [bind].
        rewrite set_ok by auto; cbn [bind].
        eapply yields_weaken; [apply IH; rewrite upd_length; auto|]. cbn.
        intros bb' (L & H). rewrite upd_length in L. split; auto. intros i s' Hi.
        destruct (Nat.eqb_spec c i) as [->|Hne].
        * assert (s' = s) by congruence; subst.
          rewrite (H i (nadd N s (nmul N v w))); [reflexivity|]. apply nth_error_upd_eq; auto.
        * apply H. rewrite nth_error_upd_neq; auto.
      + cbn [bind]. eapply yields_weaken; [apply IH; auto|]. cbn. intros bb' (L & H). split; auto.
        intros i s Hi. destruct (c =? i); cbn; apply H; auto.
  Qed.
End Numbers.

Definition nonneg (l : list (R * R)) : Prop := Forall (fun '(_, w) => 0 <= w)%R l.

Lemma wsum_nonneg l : nonneg l -> (0 <= wsum l)%R.
Proof.
  unfold wsum. induction 1 as [|[v w] l Hw _ IH]; cbn; lra.
Qed.

(** The running mean of exact numbers once the count is positive. *)
Lemma addpairs_exact l : forall M C,
  (0 < C)%R -> nonneg (real_pairs l) ->
  addpairs XR l (mkRM (N := XR) (Some M) (Some C)) =
  mkRM (N := XR)
    (Some ((M * C + wvsum (real_pairs l)) / (C + wsum (real_pairs l))))%R
    (Some (C + wsum (real_pairs l)))%R.
Proof.
  induction l as [|[v w] l IH]; intros M C HC Hp.
  - cbn. unfold wsum, wvsum; cbn. rewrite !Rplus_0_r. do 2 f_equal. field. lra.
  - change (addpairs XR ((v, w) :: l) ?x) with (addpairs XR l (WeightedAdd XR x v w)).
    destruct v as [v|]; [destruct w as [w|]|].
    + change (real_pairs ((Some v, Some w) :: l)) with ((v, w) :: real_pairs l) in *.
      inversion Hp as [|? ? Hw Hp']; subst.
      unfold WeightedAdd; cbn [nnan XR negb andb rmMean rmCount nadd nmul ndiv lift2].
      rewrite xdiv_some by lra. rewrite IH by (auto; lra).
      unfold wsum, wvsum; cbn [map Rsum snd].
      pose proof (wsum_nonneg _ Hp') as Hs. unfold wsum in Hs.
      f_equal; f_equal; [|lra]. field. lra.
    + change (real_pairs ((Some v, None) :: l)) with (real_pairs l) in *. apply IH; auto.
    + change (real_pairs ((None, w) :: l)) with (real_pairs l) in *.
      unfold WeightedAdd; cbn. apply IH; auto.
Qed.

(** From an empty ballot, if the first number has positive weight. *)
Lemma addpairs_new l :
  match real_pairs l with
  | [] => True
  | (_, w) :: t => (0 < w)%R /\ nonneg t
  end ->
  addpairs XR l (@rm0 XR) =
  match real_pairs l with
  | [] => @rm0 XR
  | p => mkRM (N := XR) (Some (wmean p)) (Some (wsum p))
  end.
Proof.
  induction l as [|[v w] l IH]; intros Hp; [reflexivity|].
  change (addpairs XR ((v, w) :: l) ?x) with (addpairs XR l (WeightedAdd XR x v w)).
  destruct v as [v|]; [destruct w as [w|]|].
  - change (real_pairs ((Some v, Some w) :: l)) with ((v, w) :: real_pairs l) in *.
    destruct Hp as [Hw Hp]. unfold WeightedAdd;
      cbn [nnan XR negb andb rmMean rmCount nadd nmul ndiv nofZ lift2 rm0].
    rewrite xdiv_some by lra. rewrite addpairs_exact by (auto; lra).
    pose proof (wsum_nonneg _ Hp) as Hs.
    unfold wmean, wsum, wvsum in *; cbn [map Rsum snd].
    f_equal; f_equal; [|lra]. field. split; lra.
  - change (real_pairs ((Some v, None) :: l)) with (real_pairs l) in *. apply IH; auto.
  - change (real_pairs ((None, w) :: l)) with (real_pairs l) in *.
    unfold WeightedAdd; cbn. apply IH; auto.
Qed.

Lemma real_pairs_app a b : real_pairs (a ++ b) = real_pairs a ++ real_pairs b.
Proof. apply flat_map_app. Qed.

Lemma flat_map_perm {A B} (f : A -> list B) l l' :
  Permutation l l' -> Permutation (flat_map f l) (flat_map f l').
Proof.
  induction 1; cbn; auto.
  - apply Permutation_app_head; auto.
  - rewrite !app_assoc. apply Permutation_app_tail. apply Permutation_app_comm.
  - etransitivity; eauto.
Qed.

Lemma wmean_perm l l' : Permutation l l' -> wmean l = wmean l'.
Proof.
  intros H. unfold wmean, wsum, wvsum.
  assert (E1 := Rsum_perm _ _ (Permutation_map snd H)).
  assert (E2 := Rsum_perm _ _ (Permutation_map (fun '(v, w) => (v * w)%R) H)).
  rewrite E1, E2. reflexivity.
Qed.

(** Exact sums. *)
Lemma sumpairs_exact l : forall s,
  Forall (fun '(v, w) => v <> None /\ w <> None) l ->
  sumpairs XR l (Some s) = Some (s + wvsum (real_pairs l))%R.
Proof.
  induction l as [|[v w] l IH]; intros s H.
  - unfold wvsum; cbn. f_equal; lra.
  - inversion H as [|? ? Hh H']; subst; cbn in Hh; destruct Hh as [H1 H2]. destruct v as [v|], w as [w|]; try congruence.
    change (sumpairs XR ((Some v, Some w) :: l) (Some s)) with (sumpairs XR l (Some (s + v * w)%R)).
    rewrite IH by auto. change (real_pairs ((Some v, Some w) :: l)) with ((v, w) :: real_pairs l). unfold wvsum; cbn [map Rsum]. f_equal; lra.
Qed.

(** ** Critical sections of the ballots *)
Lemma WeightedAdd_runacts N v w x r :
  negb (nnan N v) && negb (nnan N w) = true ->
  fst (runacts (WeightedAdd_acts N v w) (x, r)) = WeightedAdd N x v w.
Proof. intros H. unfold WeightedAdd. rewrite H. reflexivity. Qed.

Lemma sumVote_runacts N v w x r :
  fst (runacts (sumVote_acts N v w) (x, r)) = nadd N x (nmul N v w).
Proof. reflexivity. Qed.

Lemma scAdd_runacts i j v m r : fst (runacts (scAdd_acts i j v) (m, r)) = scAdd i j v m.
Proof. reflexivity. Qed.

(** Interleavings of filtered threads. *)
Lemma concat_upd_length {A} (a : A) l : forall ts t, nth_error ts t = Some (a :: l) ->
  length (concat ts) = S (length (concat (upd ts t l))).
Proof.
  intros ts. induction ts as [|u ts IH]; intros [|t] H; cbn in *; try discriminate.
  - inversion H; subst; cbn. reflexivity.
  - rewrite !app_length, (IH _ H). lia.
Qed.

Lemma interleave_filter {A} (p : A -> bool) : forall n ts l,
  length (concat ts) = n -> interleave (map (filter p) ts) l ->
  exists l', interleave ts l' /\ filter p l' = l.
Proof.
  induction n as [n IH] using lt_wf_ind; intros ts l En H.
  destruct (Forall_Exists_dec (fun t => match t with a :: _ => p a = true | [] => True end))
    with (l := ts) as [Hall|Hex].
  { intros [|a t]; [left; auto|]. destruct (p a); [left|right]; auto. }
  - inversion H as [? Hnil E1 E2|? t a r xs Ht Hr E1 E2]; subst.
    + exists []. split; auto. apply il_nil. rewrite Forall_map in Hnil.
      rewrite Forall_forall in *. intros t Ht. specialize (Hall t Ht). specialize (Hnil t Ht).
      destruct t as [|a t]; auto. cbn in Hnil. rewrite Hall in Hnil. discriminate.
    + rewrite nth_error_map in Ht. destruct (nth_error ts t) as [[|b th]|] eqn:Et; try discriminate.
      rewrite Forall_forall in Hall. pose proof (Hall _ (nth_error_In _ _ Et)) as Hb.
      cbn in Ht. rewrite Hb in Ht. inversion Ht; subst; clear Ht.
      pose proof (concat_upd_length _ _ _ _ Et) as Hl.
      rewrite <- map_upd in Hr.
      destruct (IH (length (concat (upd ts t th)))) with (ts := upd ts t th) (l := xs) as (l' & H1 & H2);
        [lia|auto|auto|].
      exists (a :: l'). split; [eapply il_cons; eauto|]. cbn. rewrite Hb. f_equal; auto.
  - apply Exists_exists in Hex as (th & Hin & Hb). destruct th as [|b th]; [elim Hb; auto|].
    apply In_nth_error in Hin as [t Et].
    assert (p b = false) by (destruct (p b); auto; elim Hb; auto).
    pose proof (concat_upd_length _ _ _ _ Et) as Hl.
    destruct (IH (length (concat (upd ts t th)))) with (ts := upd ts t th) (l := l) as (l' & H1 & H2);
      [lia|auto| |].
    { rewrite map_upd, upd_same; auto. rewrite nth_error_map, Et; cbn. rewrite H0. auto. }
    exists (b :: l'). split; [eapply il_cons; eauto|]. cbn. rewrite H0. auto.
Qed.

(** ** Concurrent votes *)
Section Concurrent.
  Variable N : arith.
  Variable PF : string -> option N.

  (** Does the vote reach the critical section? *)
  Definition num_eff (v : vote N) : bool :=
    let '(_, p, w) := v in
    match PF p with Some x => negb (nnan N x) && negb (nnan N w) | None => false end.
  Definition sum_eff (v : vote N) : bool :=
    let '(_, p, w) := v in match PF p with Some x => true | None => false end.

  Definition vcase (v : vote N) : nat := fst (fst v).
  Definition vval (v : vote N) : N :=
    match PF (snd (fst v)) with Some x => x | None => nofZ N 0 end.

  (** Actions and meaning of a vote; total functions, only used on effective votes. *)
  Definition num_app (v : vote N) (rm : rmean N) : rmean N :=
    if num_eff v then WeightedAdd N rm (vval v) (snd v) else rm.
  Definition num_acts (v : vote N) : list (rmean N -> wregs N -> rmean N * wregs N) :=
    if num_eff v then WeightedAdd_acts N (vval v) (snd v) else [].

  Lemma num_acts_app v x r : fst (runacts (num_acts v) (x, r)) = num_app v x.
  Proof.
    unfold num_acts, num_app. destruct (num_eff v) eqn:E; [|reflexivity].
    apply WeightedAdd_runacts. destruct v as [[c p] w]; unfold vval; cbn in *.
    destruct (PF p); [auto|discriminate].
  Qed.

  Lemma num_code_eq l :
    flat_map (numVote_code N PF) l = compile vcase num_acts (filter num_eff l).
  Proof.
    induction l as [|[[c p] w] l IH]; [reflexivity|].
    cbn [flat_map filter]. rewrite IH. unfold numVote_code, num_eff.
    destruct (PF p) as [x|] eqn:Ep; [|reflexivity].
    destruct (_ && _) eqn:En; [|reflexivity].
    cbn [compile flat_map]. unfold critical, num_acts, num_eff, vval; cbn [vcase fst snd].
    rewrite Ep, En. reflexivity.
  Qed.

  Lemma num_seq_step v bb : vcase v < length bb ->
    (let '(c, p, w) := v in numVote N PF bb c p w) =
    Ok (if num_eff v then apply1 vcase num_app bb v else bb).
  Proof.
    destruct v as [[c p] w]; cbn [vcase fst]. intros Hc. unfold numVote, apply1, num_app, num_eff, vval; cbn [vcase fst snd].
    destruct (PF p) as [x|]; [|reflexivity].
    destruct (@get_ok _ bb c Hc) as (rm & Eg & En). rewrite Eg, En; cbn [bind].
    rewrite set_ok by auto. unfold WeightedAdd. destruct (_ && _); auto.
    rewrite upd_same; auto.
  Qed.

  Lemma num_seq l : forall bb, Forall (fun v => vcase v < length bb) l ->
    ncast N PF l bb = Ok (seqrun vcase num_app (filter num_eff l) bb).
  Proof.
    induction l as [|v l IH]; intros bb H; [reflexivity|].
    inversion H as [|? ? Hv H']; subst. unfold ncast; cbn [foreach].
    assert (E := num_seq_step v bb Hv). destruct v as [[c p] w]. rewrite E; cbn [bind].
    fold (ncast N PF l).
    change (foreach l (fun '(c, p, w) bb => numVote N PF bb c p w) ?x) with (ncast N PF l x).
    cbn [filter]. destruct (num_eff (c, p, w)).
    - rewrite IH; [reflexivity|]. rewrite apply1_length. auto.
    - apply IH; auto.
  Qed.

  Definition sum_app (v : vote N) (s : N) : N := nadd N s (nmul N (vval v) (snd v)).
  Definition sum_acts (v : vote N) : list (N -> N -> N * N) := sumVote_acts N (vval v) (snd v).
  Lemma sum_acts_app v x r : fst (runacts (sum_acts v) (x, r)) = sum_app v x.
  Proof. reflexivity. Qed.

  Lemma sum_code_eq l :
    flat_map (sumVote_code N PF) l = compile vcase sum_acts (filter sum_eff l).
  Proof.
    induction l as [|[[c p] w] l IH]; [reflexivity|].
    cbn [flat_map filter]. rewrite IH. unfold sumVote_code, sum_eff.
    destruct (PF p) as [x|] eqn:Ep; [|reflexivity].
    cbn [compile flat_map]. unfold critical, sum_acts, vval; cbn [vcase fst snd].
    rewrite Ep. reflexivity.
  Qed.

  Lemma sum_seq l : forall bb, Forall (fun v => vcase v < length bb) l ->
    scast N PF l bb = Ok (seqrun vcase sum_app (filter sum_eff l) bb).
  Proof.
    induction l as [|[[c p] w] l IH]; intros bb H; [reflexivity|].
    inversion H as [|? ? Hv H']; subst. unfold scast; cbn [foreach].
    change (foreach l (fun '(c, p, w) bb => sumVote N PF bb c p w)) with (scast N PF l).
    cbn [vcase fst] in Hv. unfold sumVote at 1. cbn [filter sum_eff].
    destruct (PF p) as [x|] eqn:Ep; cbn [bind].
    - destruct (@get_ok _ bb c Hv) as (s & Eg & En). rewrite Eg; cbn [bind].
      rewrite set_ok by auto; cbn [bind]. rewrite IH by (rewrite upd_length; auto).
      assert (Ea : apply1 vcase sum_app bb (c, p, w) = upd bb c (nadd N s (nmul N x w))).
      { unfold apply1; cbn [vcase fst]. rewrite En. unfold sum_app, vval; cbn [snd fst].
        rewrite Ep. reflexivity. }
      unfold seqrun; cbn [fold_left]. rewrite Ea. reflexivity.
    - apply IH; auto.
  Qed.

  Lemma Forall_filter_map {A} (P : A -> Prop) (p : A -> bool) ts :
    Forall (Forall P) ts -> Forall (Forall P) (map (filter p) ts).
  Proof.
    rewrite Forall_map. apply Forall_impl. intros l H.
    rewrite Forall_forall in *. intros x Hx. apply filter_In in Hx as []. auto.
  Qed.

  Lemma interleave_Forall {A} (P : A -> Prop) ts l :
    interleave ts l -> Forall (Forall P) ts -> Forall P l.
  Proof.
    intros H Hf. apply interleave_perm in H. rewrite Forall_forall. intros x Hx.
    apply Permutation_in with (l' := concat ts) in Hx; [|symmetry; auto].
    apply in_concat in Hx as (t & Ht & Hx). rewrite Forall_forall in Hf.
    specialize (Hf _ Ht). rewrite Forall_forall in Hf. auto.
  Qed.

  Lemma num_concurrent size ths sched m' :
    Forall (Forall (fun v => vcase v < size)) ths ->
    exec sched (numVotes_start N PF size ths) = Some m' -> finished m' ->
    exists l, interleave ths l /\ ncast N PF l (NewNumBallotBox N size) = Ok (mCells m').
  Proof.
    intros Hr E Hf. unfold numVotes_start in E.
    replace (map (fun l => (flat_map (numVote_code N PF) l, wregs0 N)) ths)
      with (map (fun l => (compile vcase num_acts l, wregs0 N)) (map (filter num_eff) ths)) in E
      by (rewrite map_map; apply map_ext; intros; rewrite num_code_eq; reflexivity).
    assert (HL : length (NewNumBallotBox N size) = size) by apply repeat_length.
    change (exec sched (mkM (NewNumBallotBox N size) (repeat false size)
      (map (fun l => (compile vcase num_acts l, wregs0 N)) (map (filter num_eff) ths))) = Some m') in E.
    rewrite <- HL in E at 2. 
    apply linearize with (app := num_app) in E; auto.
    - destruct E as (l & Hi & Hc & _). apply interleave_filter with (n := length (concat ths)) in Hi; auto.
      destruct Hi as (l' & Hi & <-). exists l'. split; auto. rewrite Hc. apply num_seq.
      rewrite HL. eapply interleave_Forall; eauto.
    - apply num_acts_app.
    - apply Forall_filter_map. rewrite HL. auto.
  Qed.

  Lemma num_progress size ths sched m' :
    Forall (Forall (fun v => vcase v < size)) ths ->
    exec sched (numVotes_start N PF size ths) = Some m' -> ~ finished m' ->
    exists t m'', step t m' = Some m''.
  Proof.
    intros Hr E Hf. unfold numVotes_start in E.
    replace (map (fun l => (flat_map (numVote_code N PF) l, wregs0 N)) ths)
      with (map (fun l => (compile vcase num_acts l, wregs0 N)) (map (filter num_eff) ths)) in E
      by (rewrite map_map; apply map_ext; intros; rewrite num_code_eq; reflexivity).
    assert (HL : length (NewNumBallotBox N size) = size) by apply repeat_length.
    change (exec sched (mkM (NewNumBallotBox N size) (repeat false size)
      (map (fun l => (compile vcase num_acts l, wregs0 N)) (map (filter num_eff) ths))) = Some m') in E.
    rewrite <- HL in E at 2. 
    apply no_deadlock with (app := num_app) in E; auto.
    - apply num_acts_app.
    - apply Forall_filter_map. rewrite HL. auto.
  Qed.

  Lemma sum_concurrent size ths sched m' :
    Forall (Forall (fun v => vcase v < size)) ths ->
    exec sched (sumVotes_start N PF size ths) = Some m' -> finished m' ->
    exists l, interleave ths l /\ scast N PF l (NewSumBallotBox N size) = Ok (mCells m').
  Proof.
    intros Hr E Hf. unfold sumVotes_start in E.
    replace (map (fun l => (flat_map (sumVote_code N PF) l, nofZ N 0)) ths)
      with (map (fun l => (compile vcase sum_acts l, nofZ N 0)) (map (filter sum_eff) ths)) in E
      by (rewrite map_map; apply map_ext; intros; rewrite sum_code_eq; reflexivity).
    assert (HL : length (NewSumBallotBox N size) = size) by apply repeat_length.
    change (exec sched (mkM (NewSumBallotBox N size) (repeat false size)
      (map (fun l => (compile vcase sum_acts l, nofZ N 0)) (map (filter sum_eff) ths))) = Some m') in E.
    rewrite <- HL in E at 2. 
    apply linearize with (app := sum_app) in E; auto.
    - destruct E as (l & Hi & Hc & _). apply interleave_filter with (n := length (concat ths)) in Hi; auto.
      destruct Hi as (l' & Hi & <-). exists l'. split; auto. rewrite Hc. apply sum_seq.
      rewrite HL. eapply interleave_Forall; eauto.
    - apply Forall_filter_map. rewrite HL. auto.
  Qed.

  Lemma sum_progress size ths sched m' :
    Forall (Forall (fun v => vcase v < size)) ths ->
    exec sched (sumVotes_start N PF size ths) = Some m' -> ~ finished m' ->
    exists t m'', step t m' = Some m''.
  Proof.
    intros Hr E Hf. unfold sumVotes_start in E.
    replace (map (fun l => (flat_map (sumVote_code N PF) l, nofZ N 0)) ths)
      with (map (fun l => (compile vcase sum_acts l, nofZ N 0)) (map (filter sum_eff) ths)) in E
      by (rewrite map_map; apply map_ext; intros; rewrite sum_code_eq; reflexivity).
    assert (HL : length (NewSumBallotBox N size) = size) by apply repeat_length.
    change (exec sched (mkM (NewSumBallotBox N size) (repeat false size)
      (map (fun l => (compile vcase sum_acts l, nofZ N 0)) (map (filter sum_eff) ths))) = Some m') in E.
    rewrite <- HL in E at 2. 
    apply no_deadlock with (app := sum_app) in E; auto.
    apply Forall_filter_map. rewrite HL. auto.
  Qed.
End Concurrent.

(** ** Sparse counters *)
Section IntMaps.
  Context {V : Type}.
  Lemma mput_keys k v (m : list (nat * V)) : NoDup (map fst m) ->
    NoDup (map fst (mput k v m))
    /\ (forall k' v', In (k', v') (mput k v m) <->
          (k' = k /\ v' = v) \/ (k' <> k /\ In (k', v') m)).
  Proof.
    induction m as [|[a b] m IH]; cbn; intros Hn.
    - split; [constructor; auto; constructor|]. intros k' v'. split.
      + intros [E|[]]; inversion E; auto.
      + intros [[-> ->]|[_ []]]; auto.
    - inversion Hn as [|? ? Hna Hn']; subst. destruct (IH Hn') as [I1 I2].
      destruct (Nat.eqb_spec k a) as [->|Hne]; cbn.
      + split; [constructor; auto|]. intros k' v'. split.
        * intros [E|Hi]; [inversion E; auto|]. right. split; auto. intros ->.
          apply Hna. apply in_map_iff. exists (a, v'); auto.
        * intros [[-> ->]|[Hk [E|Hi]]]; auto. inversion E; congruence.
      + split.
        * constructor; auto. intros Hi. apply in_map_iff in Hi as ((k', v') & E & Hi); cbn in E; subst.
          apply I2 in Hi as [[E _]|[_ Hi]]; [congruence|].
          apply Hna. apply in_map_iff. exists (a, v'); auto.
        * intros k' v'. rewrite I2. split.
          -- intros [E|[?|[? ?]]]; auto. inversion E; subst; auto.
          -- intros [[-> ->]|[Hk [E|Hi]]]; auto.
  Qed.

  Lemma mfind_in k v (m : list (nat * V)) : NoDup (map fst m) -> (mfind k m = Some v <-> In (k, v) m).
  Proof.
    induction m as [|[a b] m IH]; cbn; intros Hn; [split; [discriminate|tauto]|].
    inversion Hn as [|? ? Hna Hn']; subst. specialize (IH Hn').
    destruct (Nat.eqb_spec k a) as [->|Hne].
    - split; [intros E; inversion E; auto|]. intros [E|Hi]; [inversion E; auto|].
      exfalso. apply Hna. apply in_map_iff. exists (a, v); auto.
    - rewrite IH. split; auto. intros [E|Hi]; auto. inversion E; congruence.
  Qed.

  Lemma mfind_mput k v k' (m : list (nat * V)) :
    mfind k' (mput k v m) = if k' =? k then Some v else mfind k' m.
  Proof.
    induction m as [|[a b] m IH]; cbn.
    - destruct (k' =? k); auto.
    - destruct (Nat.eqb_spec k a) as [->|Hne]; cbn.
      + destruct (k' =? a); auto.
      + destruct (Nat.eqb_spec k' a) as [->|Hne']; auto.
        destruct (Nat.eqb_spec a k); congruence.
  Qed.

  Lemma mput_mput k v v' (m : list (nat * V)) : mput k v (mput k v' m) = mput k v m.
  Proof.
    induction m as [|[a b] m IH]; cbn.
    - rewrite Nat.eqb_refl; auto.
    - destruct (Nat.eqb_spec k a) as [->|Hne]; cbn.
      + rewrite Nat.eqb_refl; auto.
      + destruct (Nat.eqb_spec k a); [congruence|]. f_equal; auto.
  Qed.
End IntMaps.

(** The entry (i,j) of a counter. *)
Definition sc_lookup (m : scounter) (i j : nat) : option Z :=
  match m with
  | None => None
  | Some mm => match mfind i mm with None => None | Some row => mfind j row end
  end.
Definition sc_wf (m : scounter) : Prop :=
  match m with
  | None => True
  | Some mm => NoDup (map fst mm) /\ Forall (fun p => NoDup (map fst (snd p))) mm
  end.

Lemma mput_Forall {V} (P : nat * V -> Prop) k v m : Forall P m -> P (k, v) -> Forall P (mput k v m).
Proof.
  intros H Hv. induction H as [|[a b] m Hab H IH]; cbn; auto.
  destruct (k =? a); auto.
Qed.

Lemma scAdd_eq i j v m :
  scAdd i j v m =
  let mm := match m with Some mm => mm | None => [] end in
  let row := match mfind i mm with Some row => row | None => [] end in
  Some (mput i (mput j (match mfind j row with Some x => x | None => 0 end + v)%Z row) mm).
Proof.
  unfold scAdd. cbn zeta. set (mm := match m with Some mm => mm | None => [] end).
  assert (sc_init m = Some mm) as -> by (destruct m; reflexivity).
  unfold sc_row. destruct (mfind i mm) as [row|] eqn:Ei.
  - unfold sc_cell. rewrite Ei. destruct (mfind j row) as [x|] eqn:Ej.
    + unfold sc_write, sc_read. rewrite Ei, Ej. reflexivity.
    + unfold sc_write, sc_read. rewrite !mfind_mput, Nat.eqb_refl, !mfind_mput, Nat.eqb_refl, !mput_mput.
      reflexivity.
  - unfold sc_cell. rewrite mfind_mput, Nat.eqb_refl. cbn [mfind].
    unfold sc_write, sc_read. rewrite !mfind_mput, Nat.eqb_refl, !mfind_mput, Nat.eqb_refl, !mput_mput.
    reflexivity.
Qed.

Lemma scAdd_lookup i j v m a b :
  sc_lookup (scAdd i j v m) a b =
  if (a =? i) && (b =? j) then Some (match sc_lookup m i j with Some x => x | None => 0 end + v)%Z
  else sc_lookup m a b.
Proof.
  rewrite scAdd_eq. cbn zeta. unfold sc_lookup at 1. rewrite mfind_mput.
  destruct (Nat.eqb_spec a i) as [->|Ha]; cbn [andb].
  - rewrite mfind_mput. destruct m as [mm|]; cbn.
    + destruct (mfind i mm); destruct (b =? j); auto.
    + destruct (b =? j); auto.
  - destruct m; reflexivity.
Qed.

Lemma scAdd_wf i j v m : sc_wf m -> sc_wf (scAdd i j v m).
Proof.
  intros H. rewrite scAdd_eq. cbn zeta. cbn [sc_wf].
  assert (Hmm : NoDup (map fst (match m with Some mm => mm | None => [] end))
     /\ Forall (fun p => NoDup (map fst (snd p))) (match m with Some mm => mm | None => [] end)).
  { destruct m as [mm|]; auto. cbn. split; constructor. }
  set (mm := match m with Some mm => mm | None => [] end) in *. destruct Hmm as [H1 H2].
  split; [apply mput_keys; auto|]. apply mput_Forall; auto. cbn [snd].
  apply mput_keys. destruct (mfind i mm) as [row|] eqn:E; [|constructor].
  apply mfind_in in E; auto. rewrite Forall_forall in H2. apply (H2 _ E).
Qed.

Definition addall (adds : list (nat * nat * Z)) (m : scounter) : scounter :=
  fold_left (fun m '(i, j, v) => scAdd i j v m) adds m.

Lemma addall_wf adds : forall m, sc_wf m -> sc_wf (addall adds m).
Proof.
  induction adds as [|[[i j] v] adds IH]; cbn; intros m H; auto. apply IH. apply scAdd_wf; auto.
Qed.

Lemma addall_lookup adds : forall m a b,
  sc_lookup (addall adds m) a b =
  if existsb (fun '(i, j, _) => (a =? i) && (b =? j)) adds
  then Some (match sc_lookup m a b with Some x => x | None => 0 end + sum_added a b adds)%Z
  else sc_lookup m a b.
Proof.
  induction adds as [|[[i j] v] adds IH]; intros m a b; [reflexivity|].
  change (addall ((i, j, v) :: adds) m) with (addall adds (scAdd i j v m)).
  rewrite IH, scAdd_lookup. cbn [existsb sum_added fold_right].
  fold (sum_added a b adds). rewrite (Nat.eqb_sym i a), (Nat.eqb_sym j b).
  destruct (Nat.eqb_spec a i) as [->|Ha]; cbn [andb orb]; auto.
  destruct (Nat.eqb_spec b j) as [->|Hb]; cbn [andb orb]; auto.
  destruct (existsb _ adds) eqn:E.
  - f_equal. lia.
  - f_equal. assert (sum_added i j adds = 0%Z) as ->; [|lia].
    clear - E. induction adds as [|[[i' j'] v'] adds IH]; [reflexivity|].
    cbn in *. apply orb_false_iff in E as [E1 E2].
    rewrite (Nat.eqb_sym i' i), (Nat.eqb_sym j' j), E1. auto.
Qed.

(** Some order of iteration over both levels of the map. *)
Definition iterated (m : scounter) (outer : list (nat * list (nat * Z))) : Prop :=
  exists o, Permutation o (match m with Some mm => mm | None => [] end)
    /\ Forall2 (fun p q => fst p = fst q /\ Permutation (snd p) (snd q)) outer o.

Lemma WriteTsv_ok m outer : sc_wf m -> iterated m outer ->
  NoDup (map fst (WriteTsv outer))
  /\ forall i j v, In (i, j, v) (WriteTsv outer) <-> sc_lookup m i j = Some v.
Proof.
  intros Hwf (o & Hp & H2).
  assert (Hw : NoDup (map fst (match m with Some mm => mm | None => [] end))
     /\ Forall (fun p => NoDup (map fst (snd p))) (match m with Some mm => mm | None => [] end)).
  { destruct m as [mm|]; auto. cbn. split; constructor. }
  assert (Hl : forall i j v, sc_lookup m i j = Some v <->
     exists row, In (i, row) o /\ In (j, v) row).
  { intros i j v. destruct Hw as [Hw1 Hw2]. unfold sc_lookup. destruct m as [mm|].
    - split.
      + destruct (mfind i mm) as [row|] eqn:E; [|discriminate]. intros Hj.
        apply mfind_in in E; auto. exists row. split; [eapply Permutation_in; [symmetry; eauto|auto]|].
        apply mfind_in in Hj; auto. rewrite Forall_forall in Hw2. apply (Hw2 _ E).
      + intros (row & Hi & Hj). eapply Permutation_in in Hi; [|eauto].
        assert (Hr := Hi). apply mfind_in in Hi; auto. rewrite Hi. apply mfind_in; auto.
        rewrite Forall_forall in Hw2. apply (Hw2 _ Hr).
    - split; [discriminate|]. intros (row & Hi & _). apply Permutation_sym, Permutation_nil in Hp.
      subst; contradiction. }
  assert (Hno : NoDup (map fst o)).
  { eapply Permutation_NoDup; [apply Permutation_map; symmetry; eauto|apply Hw]. }
  assert (Hro : Forall (fun p => NoDup (map fst (snd p))) o).
  { rewrite Forall_forall. intros p Hi. destruct Hw as [_ Hw]. rewrite Forall_forall in Hw.
    apply Hw. eapply Permutation_in; eauto. }
  clear Hw Hp Hwf.
  assert (Hin : forall i j v, In (i, j, v) (WriteTsv outer) <-> exists row, In (i, row) o /\ In (j, v) row).
  { clear - H2. intros i j v. unfold WriteTsv. rewrite in_flat_map. split.
    - intros ((a & row) & Hi & Hj). apply in_map_iff in Hj as ((b & w) & E & Hj). inversion E; subst.
      clear E. induction H2 as [|[a1 p1] [a2 p2] l l' [E P] _ IH]; [contradiction|]. cbn in E, P.
      destruct Hi as [E'|Hi].
      + inversion E'; subst. exists p2. cbn; split; auto. eapply Permutation_in; eauto.
      + destruct (IH Hi) as (r & H & H'). exists r; cbn; auto.
    - intros (row & Hi & Hj).
      induction H2 as [|[a1 p1] [a2 p2] l l' [E P] _ IH]; [contradiction|]. cbn in E, P.
      destruct Hi as [E'|Hi].
      + inversion E'; subst. exists (i, p1). cbn; split; auto. apply in_map_iff.
        exists (j, v); split; auto. eapply Permutation_in; [symmetry; eauto|auto].
      + destruct (IH Hi) as (r & H & H'). exists r; cbn; auto. }
  split; [|intros; rewrite Hin, Hl; reflexivity].
  clear Hl. unfold WriteTsv.
  assert (Hfst : map fst outer = map fst o).
  { clear - H2. induction H2 as [|p q ? ? [E _] _ IH]; cbn; auto. f_equal; auto. }
  assert (Hrow : Forall (fun p => NoDup (map fst (snd p))) outer).
  { clear - H2 Hro. induction H2 as [|p q ? ? [_ P] _ IH]; auto. inversion Hro; subst. constructor; auto.
    eapply Permutation_NoDup; [apply Permutation_map; symmetry; eauto|auto]. }
  rewrite <- Hfst in Hno. clear - Hno Hrow.
  induction outer as [|[i row] outer IH]; cbn; [constructor|].
  inversion Hno as [|? ? Hni Hno']; subst. inversion Hrow as [|? ? Hr Hrow']; subst; cbn in Hr.
  rewrite map_app, map_map.
  assert (Hnd : forall A (l1 l2 : list A), NoDup l1 -> NoDup l2 -> (forall x, In x l1 -> ~ In x l2) -> NoDup (l1 ++ l2)).
  { intros A l1 l2 N1 N2 Hd. induction N1; cbn; auto. constructor.
    - rewrite in_app_iff. intros [?|?]; [contradiction|]. eapply Hd; [left; reflexivity|eauto].
    - apply IHN1. intros y Hy. apply Hd; cbn; auto. }
  apply Hnd; auto.
  - clear - Hr. induction row as [|[j v] row IH]; cbn in *; [constructor|].
    inversion Hr; subst. constructor; auto. intros Hi. apply in_map_iff in Hi as ((j' & v') & E & Hi).
    cbn in E. inversion E; subst. apply H1. apply in_map_iff. exists (j, v'); auto.
  - intros [a b] Ha Hb. apply in_map_iff in Ha as ((j & v) & E & Ha). cbn in E. inversion E; subst.
    apply in_map_iff in Hb as (((x & y) & z) & E2 & Hb). cbn in E2. inversion E2; subst.
    apply in_flat_map in Hb as ((i' & row') & Hi' & Hb). apply in_map_iff in Hb as ((j' & v') & E3 & _).
    inversion E3; subst. apply Hni. apply in_map_iff. exists (a, row'); auto.
Qed.

Definition sc_op : Type := nat * nat * Z.
Lemma sc_code_eq l :
  flat_map scAdd_code l =
  compile (fun _ : sc_op => 0) (fun '((i, j, v) : sc_op) => scAdd_acts i j v) l.
Proof.
  induction l as [|[[i j] v] l IH]; [reflexivity|]. cbn [flat_map compile]. rewrite IH. reflexivity.
Qed.

Lemma sc_seq l : forall m,
  seqrun (fun _ : sc_op => 0) (fun '((i, j, v) : sc_op) => scAdd i j v) l [m] = [addall l m].
Proof.
  induction l as [|[[i j] v] l IH]; intros m; [reflexivity|].
  unfold seqrun in *. cbn [fold_left]. unfold apply1 at 2; cbn [nth_error upd]. apply IH.
Qed.

Lemma sc_concurrent ths sched m' :
  exec sched (scAdds_start ths) = Some m' -> finished m' ->
  exists l, interleave ths l /\ mCells m' = [addall l None].
Proof.
  intros E Hf. unfold scAdds_start in E.
  replace (map (fun l => (flat_map scAdd_code l, 0%Z)) ths) with
    (map (fun l => (compile (fun _ : sc_op => 0) (fun '((i, j, v) : sc_op) => scAdd_acts i j v) l, 0%Z)) ths) in E
    by (apply map_ext; intros; rewrite sc_code_eq; reflexivity).
  apply linearize with (cs0 := [None]) (app := fun '((i, j, v) : sc_op) => scAdd i j v) in E; auto.
  - destruct E as (l & Hi & Hc & _). exists l. split; auto. rewrite Hc. apply sc_seq.
  - intros [[i j] v] x r. reflexivity.
  - rewrite Forall_forall. intros l _. rewrite Forall_forall. intros o _. cbn. lia.
Qed.

(** ** Balanced error *)
Lemma count_S P n : count P (S n) = count P n + (if P n then 1 else 0).
Proof.
  unfold count. rewrite seq_S, filter_app, app_length; cbn. destruct (P n); cbn; lia.
Qed.

Lemma nth_error_map_seq {A} (f : nat -> A) n c : c < n -> nth_error (map f (seq 0 n)) c = Some (f c).
Proof.
  intros H. rewrite nth_error_map. rewrite nth_error_nth' with (d := 0) by (rewrite seq_length; auto).
  rewrite seq_nth by auto. reflexivity.
Qed.

Lemma upd_map_seq {A} (f : nat -> A) n c x :
  upd (map f (seq 0 n)) c x = map (fun k => if k =? c then x else f k) (seq 0 n).
Proof.
  apply nth_error_ext'. intros k. rewrite nth_error_upd, map_length, seq_length.
  destruct (lt_dec k n) as [Hk|Hk].
  - rewrite !nth_error_map_seq by auto. destruct (Nat.eqb_spec k c) as [->|]; cbn [andb]; auto.
    apply Nat.ltb_lt in Hk. rewrite Hk. reflexivity.
  - assert (Hn : forall g : nat -> A, nth_error (map g (seq 0 n)) k = None)
      by (intros; apply nth_error_None; rewrite map_length, seq_length; lia).
    rewrite !Hn. destruct (Nat.eqb_spec k c) as [->|]; cbn [andb]; auto.
    assert (c <? n = false) as -> by (apply Nat.ltb_ge; lia). reflexivity.
Qed.

Section Balanced.
  Variable f : catF.
  Variable bb : catBox XR.
  Variable iters : nat -> ballot XR.
  Variable answers : list string.
  Let n := cLength f.
  Let K := NCats (cMap f).

  (** Case [i] counts for category [c] / is predicted right. *)
  Definition counts_for (c i : nat) : bool :=
    negb (nth i (cMissing f) true) && (nth i (cData f) 0 =? c).
  Definition right_for (c i : nat) : bool :=
    counts_for c i && String.eqb (nth c (cmBack (cMap f)) "") (nth i answers "").

  Hypothesis Hlen : length (cData f) = n.
  Hypothesis Hdata : forall i, i < n -> nth i (cMissing f) true = false -> nth i (cData f) 0 < K.
  Hypothesis Hbox : n <= length (cbBox bb).
  Hypothesis Hans : forall i, i < n -> catTally XR bb (iters i) = Ok (nth i answers "").

  Lemma catTallyError_counts :
    catTallyError XR bb f iters =
    (let* e := for_up K 0 (fun i e =>
        Ok (lift2 Rplus e (xdiv (Some (INR (count (right_for i) n)))
                                (Some (INR (count (counts_for i) n)))))) (Some 0%R) in
     Ok (lift2 Rminus (Some 1%R) (xdiv e (Some (INR K))))).
  Proof.
    unfold catTallyError. fold K. fold n.
    assert (Hloop : yields
      (for_up n 0 (fun i '((correct, total) : list nat * list nat) =>
        let* value := cGeti f i in
        let* _ := get (cbBox bb) i in
        let* predicted := catTally XR bb (iters i) in
        let* m := cIsMissing f i in
        if m then Ok (correct, total)
        else
          let* t := get total value in
          let* total' := set total value (t + 1) in
          let* name := NumToCat (cMap f) value in
          if String.eqb name predicted then
            let* c := get correct value in
            let* correct' := set correct value (c + 1) in Ok (correct', total')
          else Ok (correct, total')) (repeat 0 K, repeat 0 K))
      (fun '((correct, total) : list nat * list nat) =>
         correct = map (fun c => count (right_for c) n) (seq 0 K)
         /\ total = map (fun c => count (counts_for c) n) (seq 0 K))).
    { eapply yields_weaken.
      - apply @for_up_total with (Inv := fun k '((correct, total) : list nat * list nat) =>
          correct = map (fun c => count (right_for c) k) (seq 0 K)
          /\ total = map (fun c => count (counts_for c) k) (seq 0 K)).
        + intros i [correct total] Hi [-> ->].
          assert (Hin : i < n) by lia.
          unfold cGeti, cIsMissing.
          destruct (@get_ok _ (cData f) i) as (v & E1 & N1); [lia|]. rewrite E1; cbn [bind].
          destruct (@get_ok _ (cbBox bb) i) as (b & E2 & N2); [lia|]. rewrite E2; cbn [bind].
          rewrite Hans by auto; cbn [bind].
          destruct (@get_ok _ (cMissing f) i) as (m & E3 & N3); [auto|]. rewrite E3; cbn [bind].
          assert (Hm : nth i (cMissing f) true = m) by (apply nth_error_nth; auto).
          assert (Hv : nth i (cData f) 0 = v) by (apply nth_error_nth; auto).
          destruct m.
          * eexists; split; [reflexivity|]. split; apply map_ext; intros c; rewrite count_S.
            -- assert (right_for c i = false) as -> by (unfold right_for, counts_for; rewrite Hm; reflexivity). lia.
            -- assert (counts_for c i = false) as -> by (unfold counts_for; rewrite Hm; reflexivity). lia.
          * assert (HvK : v < K) by (rewrite <- Hv; apply Hdata; auto).
            rewrite (get_nth _ _ (nth_error_map_seq (fun c => count (counts_for c) i) K v HvK)); cbn [bind].
            rewrite set_ok by (rewrite map_length, seq_length; auto). cbn [bind].
            unfold NumToCat.
            destruct (@get_ok _ (cmBack (cMap f)) v) as (nm & E4 & N4); [auto|]. rewrite E4; cbn [bind].
            assert (Hnm : nth v (cmBack (cMap f)) "" = nm) by (apply nth_error_nth; auto).
            assert (Ht : upd (map (fun c => count (counts_for c) i) (seq 0 K)) v (count (counts_for v) i + 1)
                    = map (fun c => count (counts_for c) (S i)) (seq 0 K)).
            { rewrite upd_map_seq. apply map_ext. intros c. rewrite count_S.
              assert (counts_for c i = (v =? c)) as -> by (unfold counts_for; rewrite Hm, Hv; reflexivity).
              rewrite (Nat.eqb_sym v c). destruct (Nat.eqb_spec c v) as [->|]; lia. }
            destruct (String.eqb nm (nth i answers "")) eqn:Es.
            -- rewrite (get_nth _ _ (nth_error_map_seq (fun c => count (right_for c) i) K v HvK)); cbn [bind].
               rewrite set_ok by (rewrite map_length, seq_length; auto). cbn [bind].
               eexists; split; [reflexivity|]. split; auto.
               rewrite upd_map_seq. apply map_ext. intros c. rewrite count_S.
               assert (right_for c i = (v =? c) && String.eqb (nth c (cmBack (cMap f)) "") (nth i answers "")) as ->
                 by (unfold right_for, counts_for; rewrite Hm, Hv; reflexivity).
               rewrite (Nat.eqb_sym v c). destruct (Nat.eqb_spec c v) as [->|]; cbn [andb]; [|lia].
               rewrite Hnm, Es. lia.
            -- eexists; split; [reflexivity|]. split; auto.
               apply map_ext. intros c. rewrite count_S.
               assert (right_for c i = (v =? c) && String.eqb (nth c (cmBack (cMap f)) "") (nth i answers "")) as ->
                 by (unfold right_for, counts_for; rewrite Hm, Hv; reflexivity).
               destruct (Nat.eqb_spec v c) as [->|]; cbn [andb]; [|lia].
               rewrite Hnm, Es. lia.
        + split; (apply nth_error_ext'; intros k; destruct (lt_dec k K) as [Hk|Hk];
            [rewrite nth_error_map_seq by auto; rewrite nth_error_repeat by auto; reflexivity|
             rewrite (proj2 (nth_error_None _ k)) by (rewrite repeat_length; lia);
             symmetry; apply nth_error_None; rewrite map_length, seq_length; lia]).
      - intros [correct total] H. exact H. }
    destruct Hloop as ([correct total] & -> & -> & ->). cbn [bind].
    rewrite map_length, seq_length.
    assert (Hext : forall k lo e, lo + k <= K ->
      for_up k lo (fun i e =>
        let* ncorrect := get (map (fun c => count (right_for c) n) (seq 0 K)) i in
        let* t := get (map (fun c => count (counts_for c) n) (seq 0 K)) i in
        Ok (nadd XR e (ndiv XR (nofZ XR (Z.of_nat ncorrect)) (nofZ XR (Z.of_nat t))))) e =
      for_up k lo (fun i e =>
        Ok (lift2 Rplus e (xdiv (Some (INR (count (right_for i) n)))
                                (Some (INR (count (counts_for i) n)))))) e).
    { induction k as [|k IH]; intros lo e Hk; [reflexivity|]. cbn [for_up].
      rewrite (get_nth _ _ (nth_error_map_seq (fun c => count (right_for c) n) K lo ltac:(lia))); cbn [bind].
      rewrite (get_nth _ _ (nth_error_map_seq (fun c => count (counts_for c) n) K lo ltac:(lia))); cbn [bind].
      rewrite IH by lia. rewrite !INR_IZR_INZ. reflexivity. }
    rewrite Hext by lia. rewrite INR_IZR_INZ. reflexivity.
  Qed.

  Hypothesis Hcats : forall c, c < K -> 0 < count (counts_for c) n.

  Definition recall (c : nat) : R := (INR (count (right_for c) n) / INR (count (counts_for c) n))%R.

  Lemma for_up_recall k : forall lo e, lo + k <= K ->
    for_up k lo (fun i e =>
        Ok (lift2 Rplus e (xdiv (Some (INR (count (right_for i) n)))
                                (Some (INR (count (counts_for i) n)))))) (Some e)
    = Ok (Some (e + Rsum (map recall (seq lo k))))%R.
  Proof.
    induction k as [|k IH]; intros lo e Hk.
    - cbn. do 2 f_equal. lra.
    - cbn [for_up]. rewrite xdiv_some.
      2: { apply not_0_INR. specialize (Hcats lo). lia. }
      cbn [lift2 bind]. rewrite IH by lia. cbn [seq map Rsum]. unfold recall at 2. do 2 f_equal. lra.
  Qed.

  Lemma catTallyError_exact : 0 < K ->
    catTallyError XR bb f iters = Ok (Some (1 - Rsum (map recall (seq 0 K)) / INR K))%R.
  Proof.
    intros HK. rewrite catTallyError_counts, for_up_recall by lia. cbn [bind].
    rewrite Rplus_0_l, xdiv_some by (apply not_0_INR; lia). reflexivity.
  Qed.

  Lemma count_le (P Q : nat -> bool) k : (forall i, P i = true -> Q i = true) -> count P k <= count Q k.
  Proof.
    intros H. induction k as [|k IH]; [unfold count; cbn; lia|]. rewrite !count_S.
    specialize (H k). destruct (P k), (Q k); try lia.
  Qed.

  Lemma recall_range c : c < K -> (0 <= recall c <= 1)%R.
  Proof.
    intros Hc. unfold recall. specialize (Hcats c Hc).
    assert (count (right_for c) n <= count (counts_for c) n).
    { apply count_le. unfold right_for. intros i H. apply andb_true_iff in H as []; auto. }
    assert (0 < INR (count (counts_for c) n))%R by (apply lt_0_INR; auto).
    assert (0 <= INR (count (right_for c) n))%R by apply pos_INR.
    apply le_INR in H. split.
    - apply Rmult_le_pos; auto. left. apply Rinv_0_lt_compat; auto.
    - apply Rmult_le_reg_r with (INR (count (counts_for c) n)); auto.
      unfold Rdiv. rewrite Rmult_assoc, Rinv_l by lra. lra.
  Qed.
End Balanced.

Lemma Rsum_bounds l lo hi : Forall (fun x => lo <= x <= hi)%R l ->
  (INR (length l) * lo <= Rsum l <= INR (length l) * hi)%R.
Proof.
  induction 1 as [|x l Hx _ IH]; cbn [Rsum length]; [cbn; lra|]. rewrite S_INR. lra.
Qed.

Lemma tally_loop_in es : forall k0 (v0 : xr),
  tally_loop XR es k0 v0 = (k0, v0) \/ In (tally_loop XR es k0 v0) es.
Proof.
  induction es as [|[k v] es IH]; intros k0 v0; [left; reflexivity|].
  cbn [tally_loop]. destruct (nltb XR v0 v).
  - destruct (IH k v) as [E|E]; [rewrite E; right; left; reflexivity|right; right; auto].
  - destruct (IH k0 v0) as [E|E]; [left; auto|right; right; auto].
Qed.

Lemma catTally_total (bb : catBox XR) votes i b iter :
  ballot_ok XR (cbMap bb) votes i b -> Permutation iter b ->
  exists ans, catTally XR bb iter = Ok ans.
Proof.
  intros [H1 H2 H3] Hp. unfold catTally.
  destruct (tally_loop XR iter 0 (nofZ XR 0)) as [k v] eqn:Et.
  destruct (tally_loop_in iter 0 (nofZ XR 0)) as [E|E]; rewrite Et in E.
  - inversion E; subst. cbn. unfold Rltb. destruct (Rlt_dec 0 0); [lra|]. eauto.
  - destruct (nltb XR (nofZ XR 0) v); [|eauto].
    apply Permutation_in with (l' := b) in E; auto.
    destruct (H2 _ _ E) as (name & Hn & _). exists name. apply get_nth; auto.
Qed.

(** ** Squared error *)
Section SqErr.
  Variable bb : numBox XR.
  Variable data : list R.
  Variable miss : list bool.
  Variable pred : list R.
  Hypothesis Hl1 : length data = length miss.
  Hypothesis Hl2 : length miss <= length bb.
  Hypothesis Hp : forall i, i < length miss -> nth i miss true = false -> 
    numTallyNum XR bb i = Ok (Some (nth i pred 0%R)).

  (** squared errors of the cases that are present *)
  Definition sqerrs (k : nat) : list R :=
    flat_map (fun i => if nth i miss true then []
                       else [((nth i data 0 - nth i pred 0) * (nth i data 0 - nth i pred 0))%R]) (seq 0 k).

  Lemma sqerrs_S k : sqerrs (S k) = sqerrs k ++ (if nth k miss true then []
                       else [((nth k data 0 - nth k pred 0) * (nth k data 0 - nth k pred 0))%R]).
  Proof. unfold sqerrs. rewrite seq_S, flat_map_app; cbn. rewrite app_nil_r. reflexivity. Qed.

  Lemma TallySquaredError_exact :
    TallySquaredError XR bb (map Some data) miss =
    Ok (match sqerrs (length miss) with
        | [] => None
        | l => Some (Some (Rsum l / INR (length l))%R)
        end).
  Proof.
    unfold TallySquaredError.
    assert (H : yields
      (for_up (length miss) 0 (fun i '((e, c) : XR * nat) =>
        let* predicted := numTallyNum XR bb i in
        let* m := get miss i in
        if negb m && negb (nnan XR predicted) then
          let* value := get (map Some data) i in
          let d := nsub XR value predicted in
          Ok (nadd XR e (nmul XR d d), c + 1)
        else Ok (e, c)) (nofZ XR 0, 0))
      (fun '((e, c) : XR * nat) => e = Some (Rsum (sqerrs (length miss))) /\ c = length (sqerrs (length miss)))).
    { apply (@for_up_total _ (fun k '((e, c) : XR * nat) => e = Some (Rsum (sqerrs k)) /\ c = length (sqerrs k))).
      - intros i [e c] Hi [-> ->]. 
        destruct (@get_ok _ bb i) as (rm & E1 & N1); [lia|].
        destruct (@get_ok _ miss i) as (m & E2 & N2); [lia|].
        assert (Hm : nth i miss true = m) by (apply nth_error_nth; auto).
        assert (Hpr : exists p, numTallyNum XR bb i = Ok p) by (unfold numTallyNum; rewrite E1; cbn; eauto).
        destruct Hpr as [p Epr]. rewrite Epr, E2; cbn [bind].
        destruct m; cbn [negb andb].
        + eexists; split; [reflexivity|]. cbn beta iota. rewrite sqerrs_S, Hm, app_nil_r. auto.
        + rewrite Hp in Epr by (auto; lia). inversion Epr; subst p. cbn [nnan XR negb].
          destruct (@get_ok _ (map Some data) i) as (d & E3 & N3); [rewrite map_length; lia|].
          rewrite E3; cbn [bind]. rewrite nth_error_map in N3.
          destruct (nth_error data i) as [x|] eqn:Ex; inversion N3; subst d.
          eexists; split; [reflexivity|]. cbn beta iota.
          rewrite sqerrs_S, Hm, (nth_error_nth _ _ 0%R Ex), Rsum_app, app_length. cbn. split; auto. f_equal. lra.
      - cbn. auto. }
    destruct H as ([e c] & E0 & -> & ->).
    refine (eq_trans (f_equal (fun m => bind m _) E0) _). cbn [bind].
    destruct (sqerrs (length miss)) as [|x l] eqn:E; [reflexivity|].
    cbn [length Nat.eqb]. do 2 f_equal. rewrite INR_IZR_INZ.
    change (ndiv XR) with xdiv. cbn [nofZ XR]. apply xdiv_some.
    rewrite <- INR_IZR_INZ. apply not_0_INR. lia.
  Qed.
End SqErr.
