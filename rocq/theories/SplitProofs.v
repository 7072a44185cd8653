(** Proofs about the in-place splits. *)
From Verif Require Import Go GoLemmas F64 F64Order ModelFeature ModelSplit SplitSpec.

Lemma split_loop_ok miss left isM isL cases :
  (forall c, In c cases -> miss c = Ok (isM c)) ->
  (forall c, In c cases -> isM c = false -> left c = Ok (isL c)) ->
  yields (split_loop miss left cases)
    (fun '(cs, ll, lr) => exists L M R, cs = L ++ M ++ R /\
       ll = length L /\ lr = length L + length M /\ Permutation cases cs /\
       Forall (fun c => isM c = false /\ isL c = true) L /\
       Forall (fun c => isM c = true) M /\
       Forall (fun c => isM c = false /\ isL c = false) R).
Proof.
  intros Hm Hl. unfold split_loop.
  apply (@loop_total _ _
    (fun '(cs, i, ll, lr) => exists L M U R, cs = L ++ M ++ U ++ R /\
       ll = length L /\ i = length L + length M /\ lr = length L + length M + length U /\
       Permutation cases cs /\
       Forall (fun c => isM c = false /\ isL c = true) L /\
       Forall (fun c => isM c = true) M /\
       Forall (fun c => isM c = false /\ isL c = false) R)
    (fun '(cs, i, ll, lr) => (lr - i) + 2 * (lr - ll))); [| |lia].
  2:{ exists [], [], cases, []. rewrite app_nil_r. cbn. repeat split; auto. }
  intros [[[cs i] ll] lr] (L & M & U & R & -> & -> & -> & -> & HP & FL & FM & FR).
  destruct (Nat.ltb_spec (length L + length M) (length L + length M + length U)) as [H|H].
  2:{ destruct U; cbn in H; [|lia]. apply yields_ok. exists L, M, R. cbn. repeat split; auto; lia. }
  destruct U as [|x U]; cbn in H; [lia|]. clear H.
  assert (Hin : In x cases).
  { eapply Permutation_in; [symmetry; exact HP|]. rewrite !in_app_iff. cbn. auto. }
  replace (L ++ M ++ (x :: U) ++ R) with ((L ++ M) ++ x :: U ++ R) by (rewrite <- app_assoc; auto).
  rewrite get_mid by (rewrite app_length; auto). cbn [bind].
  rewrite (Hm x Hin). cbn [bind]. destruct (isM x) eqn:EM.
  { apply yields_ok. split; [|cbn; lia].
    exists L, (M ++ [x]), U, R. rewrite <- !app_assoc. cbn. rewrite !app_length. cbn.
    repeat split; auto; try lia.
    apply Forall_app; auto. }
  rewrite (Hl x Hin EM). cbn [bind]. destruct (isL x) eqn:EL.
  - destruct (Nat.eqb_spec (length L + length M) (length L)) as [E|E].
    + destruct M; cbn in E; [|lia]. apply yields_ok. split; [|cbn; lia].
      exists (L ++ [x]), [], U, R. rewrite app_nil_r, !app_length. rewrite <- !app_assoc. cbn in *.
      repeat split; auto; try lia. apply Forall_app; auto.
    + destruct M as [|m M]; cbn in E; [lia|].
      replace ((L ++ m :: M) ++ x :: U ++ R) with (L ++ m :: M ++ x :: U ++ R)
        by (rewrite <- app_assoc; auto).
      rewrite (proj2 (@swapl_split _ L M (U ++ R) m x (length L) (length L + length (m :: M))
                        eq_refl ltac:(cbn; lia))).
      cbn [bind]. apply yields_ok. split; [|cbn; lia].
      inversion FM; subst.
      exists (L ++ [x]), M, (m :: U), R. rewrite <- !app_assoc. rewrite app_length. cbn.
      repeat split; auto; try lia.
      * etransitivity; [exact HP|]. cbn. apply perm_swap_mid.
      * apply Forall_app; auto.
  - destruct U as [|u U] using rev_ind; [|clear IHU].
    + replace (length L + length M + length [x] - 1) with (length L + length M) by (cbn; lia).
      rewrite swapl_self by (rewrite app_length; auto). cbn [bind].
      apply yields_ok. split; [|cbn; lia].
      exists L, M, [], (x :: R). cbn in *. rewrite <- app_assoc. repeat split; auto; cbn; lia.
    + replace ((L ++ M) ++ x :: (U ++ [u]) ++ R) with ((L ++ M) ++ x :: U ++ u :: R)
        by (rewrite <- (app_assoc U); auto).
      cbn [length]. rewrite !app_length. cbn [length].
      rewrite (proj1 (@swapl_split _ (L ++ M) U R x u (length L + length M)
         (length L + length M + S (length U + 1) - 1)
         ltac:(rewrite app_length; auto) ltac:(rewrite app_length; lia))).
      cbn [bind]. apply yields_ok. split; [|cbn; lia].
      exists L, M, (u :: U), (x :: R). rewrite <- !app_assoc. cbn.
      repeat split; auto; try lia.
      etransitivity; [exact HP|]. cbn.
      rewrite (app_assoc L M (x :: _)), (app_assoc L M (u :: _)), <- (app_assoc U [u] R).
      apply perm_swap_mid.
Qed.

Lemma three_way_of_parts isL isM cases L M R :
  Permutation cases (L ++ M ++ R) ->
  Forall (fun c => isM c = false /\ isL c = true) L ->
  Forall (fun c => isM c = true) M ->
  Forall (fun c => isM c = false /\ isL c = false) R ->
  three_way isL isM cases (mkSR (L ++ M ++ R) L R M).
Proof.
  intros HP FL FM FR.
  assert (Filt : forall p, Permutation (filter p cases) (filter p L ++ filter p M ++ filter p R)).
  { intros p. rewrite <- !filter_app. apply Permutation_filter; auto. }
  assert (T : forall (p : nat -> bool) l, Forall (fun x => p x = true) l -> filter p l = l) by (intros; apply filter_true; auto).
  assert (F : forall (p : nat -> bool) l, Forall (fun x => p x = false) l -> filter p l = [])
    by (intros; apply filter_false; auto).
  constructor; cbn; auto.
  - symmetry. rewrite Filt. rewrite T, F, F; [rewrite app_nil_r; auto| | |];
      eapply Forall_impl; try eassumption; cbn; intros a;
      [intros [-> ->]|intros ->|intros [-> ->]]; auto.
  - symmetry. rewrite Filt. rewrite F, T, F; [rewrite app_nil_r; auto| | |];
      eapply Forall_impl; try eassumption; cbn; intros a; tauto.
  - symmetry. rewrite Filt. rewrite F, F, T; [auto| | |];
      eapply Forall_impl; try eassumption; cbn; intros a;
      [intros [-> ->]|intros ->|intros [-> ->]]; auto.
Qed.

Lemma cut3_ok isL isM cases miss left :
  (forall c, In c cases -> miss c = Ok (isM c)) ->
  (forall c, In c cases -> isM c = false -> left c = Ok (isL c)) ->
  exists cs ll lr r, split_loop miss left cases = Ok (cs, ll, lr) /\ cut3 (cs, ll, lr) = Ok r /\
    three_way isL isM cases r /\ srCases r = cs /\
    ll = length (srL r) /\ lr = length (srL r) + length (srM r).
Proof.
  intros Hm Hl.
  destruct (split_loop_ok miss left isM isL cases Hm Hl)
    as ([[cs ll] lr] & E & L & M & R & -> & -> & -> & HP & FL & FM & FR).
  exists (L ++ M ++ R), (length L), (length L + length M), (mkSR (L ++ M ++ R) L R M).
  split; auto. split.
  - unfold cut3. rewrite (@slice_app _ [] L (M ++ R)) by auto. cbn [bind].
    replace (L ++ M ++ R) with ((L ++ M) ++ R ++ []) at 1 by (rewrite app_nil_r, app_assoc; auto).
    rewrite (@slice_app _ (L ++ M) R []) by (rewrite ?app_length; lia). cbn [bind].
    rewrite (@slice_app _ L M R) by lia. reflexivity.
  - split; auto. apply three_way_of_parts; auto.
Qed.

(** ** The tests of the loops, on existing cases *)

Lemma get_default {A} (l : list A) c d : c < length l -> get l c = Ok (nth c l d).
Proof. intros H. unfold get. rewrite (nth_error_nth' l d H). reflexivity. Qed.

Lemma missq_ok has ms c (s : forall c, nth c ms false = true -> has = true) :
  c < length ms -> missq has ms c = Ok (nth c ms false).
Proof.
  intros H. unfold missq. destruct has.
  - apply get_default; auto.
  - destruct (nth c ms false) eqn:E; auto. specialize (s c E). discriminate.
Qed.

Lemma existsb_in_dec v l :
  existsb (String.eqb v) l = if in_dec string_dec v l then true else false.
Proof.
  destruct (in_dec string_dec v l) as [H|H].
  - apply existsb_exists. exists v. split; auto. apply String.eqb_refl.
  - apply not_true_is_false. intros E. apply existsb_exists in E as (x & Hx & Ex).
    apply String.eqb_eq in Ex. subst; auto.
Qed.

Lemma fSplit_ok f code cases :
  code_fits f code -> flag_sound f -> Forall (has_case f) cases ->
  exists cs ll lr r, fSplitPoints f code cases = Ok (cs, ll, lr) /\ fSplit f code cases = Ok r /\
    three_way (coded_left f code) (fmissing f) cases r /\ srCases r = cs /\
    ll = length (srL r) /\ lr = length (srL r) + length (srM r).
Proof.
  intros Hc Hf Hin. rewrite Forall_forall in Hin.
  destruct f as [f|f], code as [x|z|z|]; cbn in Hc; try contradiction; unfold fSplit, fSplitPoints, nSplit, nSplitPoints, cSplit, cSplitPoints.
  - destruct (cut3_ok (coded_left (FNum f) (CNum x)) (fmissing (FNum f)) cases
        (missq (nHas f) (nMissing f)) (fun c => let* v := get (nData f) c in Ok (fleb v x)))
      as (cs & ll & lr & r & E & E' & H).
    + intros c Hc'. apply missq_ok; [intros c' H'; apply (Hf c'); auto|]. apply Hin; auto.
    + intros c Hc' _. rewrite (get_default (nData f) c S754_nan); [reflexivity|apply Hin; auto].
    + exists cs, ll, lr, r. unfold nSplitPoints, nSplit. rewrite E. cbn [bind]. auto.
  - destruct (cut3_ok (coded_left (FCat f) (CInt z)) (fmissing (FCat f)) cases
        (missq (cHas f) (cMissing f)) (cLeftCoded f (CInt z)))
      as (cs & ll & lr & r & E & E' & H).
    + intros c Hc'. apply missq_ok; [intros c' H'; apply (Hf c'); auto|]. apply Hin; auto.
    + intros c Hc' _. cbn. rewrite (get_default (cData f) c 0); [reflexivity|apply Hin; auto].
    + exists cs, ll, lr, r. unfold cSplitPoints, cSplit. rewrite E. cbn [bind]. auto.
  - destruct (cut3_ok (coded_left (FCat f) (CBig z)) (fmissing (FCat f)) cases
        (missq (cHas f) (cMissing f)) (cLeftCoded f (CBig z)))
      as (cs & ll & lr & r & E & E' & H).
    + intros c Hc'. apply missq_ok; [intros c' H'; apply (Hf c'); auto|]. apply Hin; auto.
    + intros c Hc' _. cbn. rewrite (get_default (cData f) c 0); [reflexivity|apply Hin; auto].
    + exists cs, ll, lr, r. unfold cSplitPoints, cSplit. rewrite E. cbn [bind]. auto.
Qed.

Lemma splSplitF_ok f s cases :
  flag_sound f -> Forall (has_case f) cases ->
  exists r, splSplitF f s cases = Ok r /\ three_way (splitter_left f s) (fmissing f) cases r.
Proof.
  intros Hf Hin. rewrite Forall_forall in Hin. unfold splSplitF.
  destruct (cut3_ok (splitter_left f s) (fmissing f) cases
     (fun c => if fMissingVals f then fIsMissing f c else Ok false) (fun c => fGoesLeft f c s))
    as (cs & ll & lr & r & E & E' & H & _).
  - intros c Hc. destruct (fMissingVals f) eqn:EM.
    + specialize (Hin c Hc). destruct f; cbn in *; apply get_default; tauto.
    + destruct (fmissing f c) eqn:Em; auto. rewrite (Hf c Em) in EM. discriminate.
  - intros c Hc _. specialize (Hin c Hc). destruct f as [f|f]; cbn in *.
    + unfold nGoesLeft. rewrite (get_default (nData f) c S754_nan) by tauto. reflexivity.
    + unfold cGoesLeft. rewrite (get_default (cData f) c 0) by tauto. cbn [bind].
      rewrite (get_default (cmBack (cMap f)) _ EmptyString) by tauto. cbn [bind].
      unfold inleft. rewrite existsb_in_dec. reflexivity.
  - rewrite E. cbn [bind]. eauto.
Qed.

(** ** Coded and decoded splits *)

Lemma in_decode_left bit back v :
  In v (decode_left bit back) <->
  exists j, nth_error back j = Some v /\ bit j = true.
Proof.
  unfold decode_left. rewrite in_map_iff. split.
  - intros ([j w] & <- & H). apply filter_In in H as [H1 H2]. cbn in *.
    exists j. split; auto. apply In_nth_error in H1 as [k Hk].
    assert (Hk' : nth_error (combine (seq 0 (length back)) back) k = Some (j, w)) by auto.
    clear - Hk'.
    assert (forall (l : list string) o k, nth_error (combine (seq o (length l)) l) k = Some (j, w) ->
              nth_error l k = Some w /\ j = o + k).
    { induction l as [|a l IH]; intros o [|k0]; cbn; try discriminate.
      - intros H; inversion H; subst. split; auto; lia.
      - intros H. apply IH in H as [H ->]. split; auto; lia. }
    apply H in Hk' as [H1 ->]. exact H1.
  - intros (j & Hj & Hb). exists (j, v). split; auto. apply filter_In. split; auto.
    assert (forall (l : list string) o k, nth_error l k = Some v ->
              In (o + k, v) (combine (seq o (length l)) l)).
    { induction l as [|a l IH]; intros o [|k0]; cbn; try discriminate.
      - intros H; inversion H; subst. left. f_equal. lia.
      - intros H. right. replace (o + S k0) with (S o + k0) by lia. apply IH; auto. }
    apply (H back 0 j Hj).
Qed.

Lemma decode_left_bit bit back c :
  NoDup back -> c < length back ->
  (if in_dec string_dec (nth c back EmptyString) (decode_left bit back) then true else false) = bit c.
Proof.
  intros ND Hc. pose proof (nth_error_nth' back EmptyString Hc) as Hn.
  destruct (in_dec string_dec (nth c back EmptyString) (decode_left bit back)) as [H|H].
  - apply in_decode_left in H as (j & Hj & Hb).
    assert (j = c); [|congruence].
    apply (proj1 (NoDup_nth_error back) ND); [|congruence].
    apply nth_error_Some. congruence.
  - destruct (bit c) eqn:E; auto. exfalso. apply H. apply in_decode_left. eauto.
Qed.

Lemma decoded_left f code s c :
  code_fits f code -> fDecodeSplit f code = Ok s -> names_distinct f -> has_case f c ->
  splitter_left f s c = coded_left f code c.
Proof.
  intros Hc Hd Hn Hh.
  destruct f as [f|f], code as [x|z|z|]; cbn in Hc; try contradiction; cbn in Hd.
  - inversion Hd; subst. reflexivity.
  - inversion Hd; subst. cbn. unfold cvalue. destruct Hh as (_ & _ & Hh).
    rewrite (decode_left_bit (intbit z)); auto.
  - inversion Hd; subst. cbn. unfold cvalue. destruct Hh as (_ & _ & Hh).
    rewrite (decode_left_bit (bigbit z)); auto.
Qed.

(** The result of the loop depends only on the tests. *)
Lemma split_loop_ext miss left miss' left' cases :
  (forall c, In c cases -> miss c = miss' c) ->
  (forall c, In c cases -> left c = left' c) ->
  split_loop miss left cases = split_loop miss' left' cases.
Proof.
  intros Hm Hl. unfold split_loop.
  apply (loop_ext (fun '(cs, _, _, _) => Permutation cases cs)); auto.
  - intros [[[cs i] ll] lr] HP. destruct (i <? lr); auto.
    destruct (get cs i) as [c| |] eqn:Ec; auto. cbn [bind].
    assert (Hin : In c cases).
    { apply get_inv in Ec. apply nth_error_In in Ec. eapply Permutation_in; [symmetry; exact HP|auto]. }
    rewrite (Hm c Hin), (Hl c Hin). reflexivity.
  - intros [[[cs i] ll] lr] s' HP E. inv_ok E; try discriminate; auto;
      etransitivity; try exact HP; eapply swapl_perm; eauto.
Qed.

Lemma decoded_same f code s cases :
  code_fits f code -> fDecodeSplit f code = Ok s -> names_distinct f ->
  Forall (has_case f) cases ->
  splSplitF f s cases = fSplit f code cases.
Proof.
  intros Hc Hd Hn Hin. rewrite Forall_forall in Hin. unfold splSplitF.
  assert (Hleft : forall c, In c cases -> fGoesLeft f c s = Ok (splitter_left f s c)).
  { intros c Hcc. specialize (Hin c Hcc). destruct f as [f|f]; cbn in *.
    + unfold nGoesLeft. rewrite (get_default (nData f) c S754_nan) by tauto. reflexivity.
    + unfold cGoesLeft. rewrite (get_default (cData f) c 0) by tauto. cbn [bind].
      rewrite (get_default (cmBack (cMap f)) _ EmptyString) by tauto. cbn [bind].
      unfold inleft. rewrite existsb_in_dec. reflexivity. }
  destruct f as [f|f], code as [x|z|z|]; cbn in Hc; try contradiction; unfold fSplit, nSplit, cSplit, fMissingVals, fIsMissing.
  - erewrite split_loop_ext; [reflexivity| |].
    + intros c _. unfold missq, nIsMissing. reflexivity.
    + intros c Hcc. rewrite Hleft by auto. rewrite (decoded_left (FNum f) (CNum x) _ _ I Hd Hn) by (apply Hin; auto).
      cbn. rewrite (get_default (nData f) c S754_nan) by (apply Hin; auto). reflexivity.
  - erewrite split_loop_ext; [reflexivity| |].
    + intros c _. unfold missq, cIsMissing. reflexivity.
    + intros c Hcc. rewrite Hleft by auto. rewrite (decoded_left (FCat f) (CInt z) _ _ I Hd Hn) by (apply Hin; auto).
      cbn. rewrite (get_default (cData f) c 0) by (apply Hin; auto). reflexivity.
  - erewrite split_loop_ext; [reflexivity| |].
    + intros c _. unfold missq, cIsMissing. reflexivity.
    + intros c Hcc. rewrite Hleft by auto. rewrite (decoded_left (FCat f) (CBig z) _ _ I Hd Hn) by (apply Hin; auto).
      cbn. rewrite (get_default (cData f) c 0) by (apply Hin; auto). reflexivity.
Qed.
