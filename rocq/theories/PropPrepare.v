(** C115: how growforest prepares the data (growforest/growforest.go). *)
From Verif Require Import Go GoLemmas F64 ModelFeature FeatureSpec ModelSample FeatureProofs ModelText TextProofs ModelMatrix MatrixSpec MatrixProofs
  PropSample PropMatrix PropEncode PropLibSVM ModelTargets2 ModelExport PropARFF PropLibSVM2 PropLibSVM3 ModelCommands ModelCommands2.
Local Open Scope string_scope.
Local Open Scope nat_scope.
Local Open Scope list_scope.

(** The same feature with its cases in another order. *)
Definition rearranged (f g : feature) : Prop :=
  fName g = fName f /\ is_numerical g = is_numerical f /\ categories g = categories f /\ fLength g = fLength f /\ aligned g /\
  exists p, Permutation p (seq 0 (fLength f)) /\ forall i c, nth_error p i = Some c -> value_at g i = value_at f c.

Lemma fShuffle_ok rnd f : aligned f -> exists g, fShuffle rnd f = Ok g /\ rearranged f g.
Proof.
  intros Ha. destruct f as [f|f]; cbn in Ha; cbn [fShuffle].
  - destruct (C11_shuffle_is_permutation rnd (length (nMissing f))) as (p & Hp & H).
    destruct (H _ (nMissing f) (nData f) eq_refl Ha) as (ms' & d' & E & E1 & E2).
    unfold nShuffle. rewrite E. cbn [bind]. eexists. split; [reflexivity|].
    assert (L : length ms' = length (nMissing f)).
    { apply (f_equal (@length _)) in E1. rewrite !map_length in E1. rewrite E1. apply Permutation_length in Hp. rewrite seq_length in Hp. exact Hp. }
    assert (L' : length d' = length (nMissing f)).
    { apply (f_equal (@length _)) in E2. rewrite !map_length in E2. rewrite E2. apply Permutation_length in Hp. rewrite seq_length in Hp. exact Hp. }
    unfold rearranged. cbn [fName is_numerical categories fLength aligned nName nMissing nData]. unfold nLength. cbn [nMissing].
    repeat split; try congruence. exists p. split; [exact Hp|]. intros i c Hc. cbn [value_at nMissing nData].
    assert (G : forall A (l l' : list A), map Some l' = map (nth_error l) p -> nth_error l' i = nth_error l c).
    { intros A l l' X. apply (f_equal (fun z => nth_error z i)) in X. rewrite !nth_error_map, Hc in X. cbn in X.
      destruct (nth_error l' i); cbn in X; congruence. }
    rewrite (G _ _ _ E1), (G _ _ _ E2). reflexivity.
  - destruct (C11_shuffle_is_permutation rnd (length (cMissing f))) as (p & Hp & H).
    destruct (H _ (cMissing f) (cData f) eq_refl Ha) as (ms' & d' & E & E1 & E2).
    unfold cShuffle. rewrite E. cbn [bind]. eexists. split; [reflexivity|].
    assert (L : length ms' = length (cMissing f)).
    { apply (f_equal (@length _)) in E1. rewrite !map_length in E1. rewrite E1. apply Permutation_length in Hp. rewrite seq_length in Hp. exact Hp. }
    assert (L' : length d' = length (cMissing f)).
    { apply (f_equal (@length _)) in E2. rewrite !map_length in E2. rewrite E2. apply Permutation_length in Hp. rewrite seq_length in Hp. exact Hp. }
    unfold rearranged. cbn [fName is_numerical categories fLength aligned cName cMissing cData cMap]. unfold cLength. cbn [cMissing].
    repeat split; try congruence. exists p. split; [exact Hp|]. intros i c Hc. cbn [value_at cMissing cData cMap].
    assert (G : forall A (l l' : list A), map Some l' = map (nth_error l) p -> nth_error l' i = nth_error l c).
    { intros A l l' X. apply (f_equal (fun z => nth_error z i)) in X. rewrite !nth_error_map, Hc in X. cbn in X.
      destruct (nth_error l' i); cbn in X; congruence. }
    rewrite (G _ _ _ E1), (G _ _ _ E2). reflexivity.
Qed.

(** Which features are shuffled. *)
Definition to_shuffle (permutate : bool) (shuffleRE : option (string -> bool)) (targeti i : nat) (f : feature) : bool :=
  if i =? targeti then permutate else match shuffleRE with Some re => re (fName f) | None => false end.

Lemma shuffle_at_ok rnd i data f : Forall aligned data -> nth_error data i = Some f ->
  exists g, shuffle_at rnd i data = Ok (upd data i g) /\ rearranged f g /\ i < length data.
Proof.
  intros Ha Hi. unfold shuffle_at. rewrite (get_nth data i Hi). cbn [bind].
  assert (Hf : aligned f) by (eapply Forall_forall; [exact Ha|eapply nth_error_In; exact Hi]).
  destruct (fShuffle_ok (rnd i) f Hf) as (g & -> & Hg). cbn [bind].
  assert (Hlt : i < length data) by (apply nth_error_some_lt in Hi; exact Hi).
  exists g. split; [apply set_ok; exact Hlt|auto].
Qed.

Lemma upd_aligned data i g : Forall aligned data -> aligned g -> i < length data -> Forall aligned (upd data i g).
Proof.
  intros Ha Hg Hi. apply Forall_forall. intros x Hx. apply In_nth_error in Hx as [j Hj].
  destruct (Nat.eq_dec j i) as [->|Hne].
  - rewrite nth_error_upd_eq in Hj by exact Hi. inversion Hj; subst. exact Hg.
  - rewrite nth_error_upd_neq in Hj by auto. eapply Forall_forall; [exact Ha|eapply nth_error_In; exact Hj].
Qed.

(** Without -impute: the target is rearranged with -permutate, the other features that match
    -shuffleRE are rearranged, and everything else is as it was. *)
Theorem C115_shuffled_as_asked : forall permutate shuffleRE targeti rnd fm,
  Forall aligned (fmData fm) -> targeti < length (fmData fm) ->
  exists fm', prepare false permutate shuffleRE targeti rnd fm = Ok fm' /\
    fmMap fm' = fmMap fm /\ fmLabels fm' = fmLabels fm /\ length (fmData fm') = length (fmData fm) /\
    forall i f, nth_error (fmData fm) i = Some f -> exists f', nth_error (fmData fm') i = Some f' /\
      if to_shuffle permutate shuffleRE targeti i f then rearranged f f' else f' = f.
Proof.
  intros permutate shuffleRE targeti rnd fm Ha Ht. unfold prepare. cbn [bind].
  destruct (nth_error (fmData fm) targeti) as [tf|] eqn:Etf; [|apply nth_error_None in Etf; lia].
  assert (H1 : exists data, (if permutate then shuffle_at rnd targeti (fmData fm) else Ok (fmData fm)) = Ok data /\
    length data = length (fmData fm) /\ Forall aligned data /\
    forall i f, nth_error (fmData fm) i = Some f -> exists f', nth_error data i = Some f' /\
      if (i =? targeti) && permutate then rearranged f f' else f' = f).
  { destruct permutate.
    - destruct (shuffle_at_ok rnd targeti _ _ Ha Etf) as (g & E & Hg & Hlt). exists (upd (fmData fm) targeti g). split; [exact E|].
      split; [apply upd_length|]. split; [apply upd_aligned; auto; apply Hg|]. intros i f Hf.
      destruct (Nat.eqb_spec i targeti) as [->|Hne].
      + exists g. split; [apply nth_error_upd_eq; exact Hlt|]. cbn [andb]. congruence.
      + exists f. split; [rewrite nth_error_upd_neq by auto; exact Hf|reflexivity].
    - exists (fmData fm). repeat split; auto. intros i f Hf. exists f. rewrite andb_false_r. auto. }
  destruct H1 as (data & E1 & L1 & A1 & D1). rewrite E1. cbn [bind].
  enough (H2 : exists data', match shuffleRE with None => Ok data | Some re =>
        for_up (length data) 0 (fun i data => let* f := get data i in
          if negb (targeti =? i) && re (fName f) then shuffle_at rnd i data else Ok data) data end = Ok data' /\
      length data' = length data /\ forall i f, nth_error data i = Some f -> exists f', nth_error data' i = Some f' /\
        if negb (targeti =? i) && (match shuffleRE with Some re => re (fName f) | None => false end) then rearranged f f' else f' = f).
  { destruct H2 as (data' & E2 & L2 & D2). rewrite E2. cbn [bind]. eexists. split; [reflexivity|]. cbn [fmMap fmLabels fmData].
    split; [reflexivity|]. split; [reflexivity|]. split; [congruence|]. intros i f Hf.
    destruct (D1 i f Hf) as (f1 & Hf1 & R1). destruct (D2 i f1 Hf1) as (f2 & Hf2 & R2). exists f2. split; [exact Hf2|].
    unfold to_shuffle. rewrite (Nat.eqb_sym targeti i) in R2. destruct (i =? targeti); cbn [andb negb] in R1, R2.
    - subst f2. exact R1.
    - subst f1. exact R2. }
  destruct shuffleRE as [re|].
  2: { exists data. repeat split; auto. intros i f Hf. exists f. rewrite andb_false_r. auto. }
  destruct (@for_up_total _ (fun k d => length d = length data /\ Forall aligned d /\
      forall i f, nth_error data i = Some f -> exists f', nth_error d i = Some f' /\
        if (i <? k) && (negb (targeti =? i) && re (fName f)) then rearranged f f' else f' = f)
      (fun i data => let* f := get data i in if negb (targeti =? i) && re (fName f) then shuffle_at rnd i data else Ok data) (length data) 0 data)
    as (data' & E2 & L2 & A2 & D2).
  - intros k d Hk (Ld & Ad & Dd). cbn [plus] in Hk.
    destruct (nth_error data k) as [f|] eqn:Ef; [|apply nth_error_None in Ef; lia].
    destruct (Dd k f Ef) as (f' & Ef' & Hf'). rewrite Nat.ltb_irrefl in Hf'. cbn [andb] in Hf'. subst f'.
    rewrite (get_nth d k Ef'). cbn [bind].
    destruct (negb (targeti =? k) && re (fName f)) eqn:Ec.
    + destruct (shuffle_at_ok rnd k d f Ad Ef') as (g & E & Hg & Hlt). exists (upd d k g). split; [exact E|].
      split; [rewrite upd_length; exact Ld|]. split; [apply upd_aligned; auto; apply Hg|]. intros i f0 Hf0.
      destruct (Nat.eq_dec i k) as [->|Hne].
      * rewrite Ef in Hf0. inversion Hf0; subst f0. exists g. split; [apply nth_error_upd_eq; exact Hlt|].
        assert (X : (k <? S k) = true) by (apply Nat.ltb_lt; lia). rewrite X, Ec. exact Hg.
      * destruct (Dd i f0 Hf0) as (f1 & H1 & H2). exists f1. split; [rewrite nth_error_upd_neq by auto; exact H1|].
        assert (X : (i <? S k) = (i <? k)). { destruct (Nat.ltb_spec i (S k)), (Nat.ltb_spec i k); auto; lia. } rewrite X. exact H2.
    + exists d. split; [reflexivity|]. split; [exact Ld|]. split; [exact Ad|]. intros i f0 Hf0.
      destruct (Dd i f0 Hf0) as (f1 & H1 & H2). exists f1. split; [exact H1|].
      destruct (Nat.eq_dec i k) as [->|Hne].
      * rewrite Ef in Hf0. inversion Hf0; subst f0. rewrite Ec, andb_false_r. rewrite Nat.ltb_irrefl in H2. exact H2.
      * assert (X : (i <? S k) = (i <? k)). { destruct (Nat.ltb_spec i (S k)), (Nat.ltb_spec i k); auto; lia. } rewrite X. exact H2.
  - split; [reflexivity|]. split; [exact A1|]. intros i f Hf. exists f. split; [exact Hf|]. reflexivity.
  - exists data'. split; [exact E2|]. split; [exact L2|]. intros i f Hf. destruct (D2 i f Hf) as (f' & H1 & H2). exists f'. split; [exact H1|].
    cbn [plus] in H2. assert (X : (i <? length data) = true) by (apply Nat.ltb_lt; apply nth_error_some_lt in Hf; exact Hf). rewrite X in H2. exact H2.
Qed.
Print Assumptions C115_shuffled_as_asked.

(** [h] is [f] with its missing values filled in and its other values kept. *)
Definition completes (f h : feature) : Prop :=
  fName h = fName f /\ is_numerical h = is_numerical f /\ fLength h = fLength f /\ categories h = categories f /\ aligned h /\
  (forall i, value_at h i <> Some VMissing) /\ (forall i v, value_at f i = Some v -> v <> VMissing -> value_at h i = Some v).
(** The missing flags of a feature. *)
Definition mask (f : feature) : list bool := match f with FNum f => nMissing f | FCat f => cMissing f end.

Lemma fImpute_ok f : in_range f -> exists h, fImputeMissing f = Ok h /\ completes f h /\ mask h = repeat false (fLength f).
Proof.
  intros Hr. assert (E : exists h, fImputeMissing f = Ok h /\ mask h = repeat false (fLength f)).
  { destruct Hr as [Ha Hr]. destruct f as [f|f]; cbn in Ha, Hr; cbn [fImputeMissing].
    - rewrite nImpute_ok by exact Ha. cbn [bind]. eexists. split; reflexivity.
    - destruct (cImpute_ok f Ha Hr) as (k & -> & _). cbn [bind]. eexists. split; reflexivity. }
  destruct E as (h & E & Em). exists h. split; [exact E|]. split; [|exact Em]. exact (imputed_complete f h Hr E).
Qed.
Lemma fmImpute_ok fm : Forall in_range (fmData fm) ->
  exists hs, fmImputeMissing fm = Ok (mkFM hs (fmMap fm) (fmLabels fm)) /\
    Forall2 (fun f h => completes f h /\ mask h = repeat false (fLength f)) (fmData fm) hs.
Proof.
  intros H. unfold fmImputeMissing.
  enough (G : forall acc, exists hs, foreach (fmData fm) (fun f data => let* g := fImputeMissing f in Ok (data ++ [g])) acc = Ok (acc ++ hs) /\
    Forall2 (fun f h => completes f h /\ mask h = repeat false (fLength f)) (fmData fm) hs).
  { destruct (G []) as (hs & -> & Hh). exists hs. auto. }
  induction H as [|f fs Hf H IH]; intros acc.
  - exists []. cbn. rewrite app_nil_r. auto.
  - cbn [foreach]. destruct (fImpute_ok f Hf) as (h & -> & Hh). cbn [bind]. destruct (IH (acc ++ [h])) as (hs & -> & Hs).
    exists (h :: hs). rewrite <- app_assoc. auto.
Qed.

(** With -impute every missing value of every feature is filled in first. *)
Theorem C115_imputed_then_shuffled : forall permutate shuffleRE targeti rnd fm,
  Forall in_range (fmData fm) -> targeti < length (fmData fm) ->
  exists fm' hs, prepare true permutate shuffleRE targeti rnd fm = Ok fm' /\ Forall2 completes (fmData fm) hs /\
    fmMap fm' = fmMap fm /\ fmLabels fm' = fmLabels fm /\ length (fmData fm') = length (fmData fm) /\
    forall i h, nth_error hs i = Some h -> exists f', nth_error (fmData fm') i = Some f' /\
      if to_shuffle permutate shuffleRE targeti i h then rearranged h f' else f' = h.
Proof.
  intros permutate shuffleRE targeti rnd fm Hr Ht. destruct (fmImpute_ok fm Hr) as (hs & E & H2).
  assert (L : length hs = length (fmData fm)) by (clear - H2; induction H2; cbn; auto).
  assert (Ha : Forall aligned hs) by (clear - H2; induction H2 as [|f h fs hs [Hc _] _ IH]; constructor; auto; apply Hc).
  destruct (C115_shuffled_as_asked permutate shuffleRE targeti rnd (mkFM hs (fmMap fm) (fmLabels fm)) Ha) as (fm' & E' & Em & El & Ln & Hd).
  { cbn [fmData]. congruence. }
  exists fm', hs. split.
  { unfold prepare in *. rewrite E. cbn [bind] in E' |- *. exact E'. }
  split; [clear - H2; induction H2 as [|f h fs hs [Hc _] _ IH]; constructor; auto|].
  cbn [fmMap fmLabels fmData] in *. split; [exact Em|]. split; [exact El|]. split; [congruence|]. exact Hd.
Qed.
Print Assumptions C115_imputed_then_shuffled.

(** The target is one of the features: -impute gives a label to every case without one, and
    growforest counts and samples these cases as known. *)
Theorem C115_labels_invented_refuted : forall shuffleRE targeti rnd fm f,
  Forall in_range (fmData fm) -> nth_error (fmData fm) targeti = Some f ->
  exists fm' f', prepare true false shuffleRE targeti rnd fm = Ok fm' /\ nth_error (fmData fm') targeti = Some f' /\
    count_known (mask f') = fLength f /\ forall i, value_at f' i <> Some VMissing.
Proof.
  intros shuffleRE targeti rnd fm f Hr Hf. destruct (fmImpute_ok fm Hr) as (hs & E & H2).
  assert (L : length hs = length (fmData fm)) by (clear - H2; induction H2; cbn; auto).
  assert (Hlt : targeti < length (fmData fm)) by (apply nth_error_some_lt in Hf; exact Hf).
  assert (Ha : Forall aligned hs) by (clear - H2; induction H2 as [|f' h fs hs [Hc _] _ IH]; constructor; auto; apply Hc).
  destruct (C115_shuffled_as_asked false shuffleRE targeti rnd (mkFM hs (fmMap fm) (fmLabels fm)) Ha) as (fm' & E' & Em & El & Ln & Hd).
  { cbn [fmData]. congruence. }
  assert (Hh : exists h, nth_error hs targeti = Some h /\ completes f h /\ mask h = repeat false (fLength f)).
  { clear - H2 Hf. revert targeti Hf. induction H2 as [|f' h fs hs Hc _ IH]; intros [|t] Hf; cbn in Hf; try discriminate.
    - inversion Hf; subst. exists h. auto.
    - apply IH. exact Hf. }
  destruct Hh as (h & Eh & Hc & Hm). destruct (Hd targeti h Eh) as (f' & Ef' & Hs). unfold to_shuffle in Hs. rewrite Nat.eqb_refl in Hs. subst f'.
  exists fm', h. split.
  { unfold prepare in *. rewrite E. cbn [bind] in E' |- *. exact E'. }
  split; [exact Ef'|]. split.
  - rewrite Hm. unfold count_known. clear. induction (fLength f) as [|n IH]; cbn; auto.
  - apply Hc.
Qed.
Print Assumptions C115_labels_invented_refuted.

(** Three cases, the last without a label; the first feature is the target. *)
Definition prep_fm : fmatrix :=
  mkFM [FCat (mkCat (mkCM [("b", 1); ("a", 0)] ["a"; "b"]) [1; 1; 0] [false; false; true] "C:y" false true);
        FNum (mkNum [f_of_Z 1; f_of_Z 2; f_of_Z 3] [false; false; false] "N:x" false);
        FNum (mkNum [f_of_Z 4; f_of_Z 5; f_of_Z 6] [false; false; false] "N:z" false)]
       [("C:y", 0); ("N:x", 1); ("N:z", 2)] ["p"; "q"; "r"].
Example C115_example :
  Forall in_range (fmData prep_fm) /\ count_known [false; false; true] = 2 /\
  prepare true false (Some (fun s => (s =? "N:x")%string)) 0 (fun _ _ => 1) prep_fm =
    Ok (mkFM [FCat (mkCat (mkCM [("b", 1); ("a", 0)] ["a"; "b"]) [1; 1; 1] [false; false; false] "C:y" false false);
              FNum (mkNum [f_of_Z 2; f_of_Z 3; f_of_Z 1] [false; false; false] "N:x" false);
              FNum (mkNum [f_of_Z 4; f_of_Z 5; f_of_Z 6] [false; false; false] "N:z" false)]
             [("C:y", 0); ("N:x", 1); ("N:z", 2)] ["p"; "q"; "r"]) /\
  exists g, prepare false true None 0 (fun _ _ => 1) prep_fm = Ok g /\
    nth_error (fmData g) 0 = Some (FCat (mkCat (mkCM [("b", 1); ("a", 0)] ["a"; "b"]) [1; 0; 1] [false; true; false] "C:y" false true)).
Proof.
  split; [|split; [reflexivity|split; [vm_compute; reflexivity|]]].
  - unfold prep_fm, in_range. cbn [fmData]. repeat (apply Forall_cons || apply Forall_nil); (split; [reflexivity|]); auto.
    cbn. repeat (apply Forall_cons || apply Forall_nil); lia.
  - eexists. split; [vm_compute; reflexivity|]. reflexivity.
Qed.
