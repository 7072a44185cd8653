(** C123: what vetting compares a split with. *)
From Verif Require Import Go GoLemmas F64 Exact ModelFeature ModelSample SampleSpec SampleProofs PropSample ModelSplit ModelSearch ModelImpurity
  ImpuritySpec ImpurityProofs ModelTargets SearchSpec TargetProofs ModelGrow.
From Verif Require PropSearch.
Local Open Scope string_scope.
Local Open Scope nat_scope.
Local Open Scope list_scope.

(** ** C123.  The claim in full: with -vet a split is worth what it gains beyond the best
    split, with the same feature, of a target whose values were handed to the same cases at
    random; so the gain of the contrast is measured from the impurity of the contrast. *)

Lemma copyinto_same {T} (dst src : list T) : length dst = length src -> copyinto dst src = src.
Proof.
  intros H. unfold copyinto. rewrite H, firstn_all. rewrite skipn_all2 by lia. apply app_nil_r.
Qed.
Lemma moved_labels cases p data data' : Forall (fun c => c < length data) cases -> Permutation p cases -> moved cases p data data' ->
  Permutation (labels data cases) (labels data' cases).
Proof.
  intros Hc P (L & M & _).
  assert (E : labels data' cases = labels data p).
  { assert (G : map (fun i => match nth_error data' i with Some v => v | None => 0 end) cases
              = map (fun i => match nth_error data i with Some v => v | None => 0 end) p).
    { rewrite <- (map_map (nth_error data') (fun o => match o with Some v => v | None => 0 end)).
      rewrite <- (map_map (nth_error data) (fun o => match o with Some v => v | None => 0 end)). rewrite M. reflexivity. }
    assert (N : forall (l : list nat) i, match nth_error l i with Some v => v | None => 0 end = nth i l 0).
    { clear. induction l as [|a l IH]; intros [|i]; cbn; auto. }
    unfold labels. rewrite <- (map_ext _ _ (N data')), <- (map_ext _ _ (N data)). exact G. }
  rewrite E. unfold labels. apply Permutation_map. symmetry. exact P.
Qed.

(** The contrast: a copy of the target, the values and the missing flags of the cases
    rearranged together, the other cases as they were.  Both kinds of target. *)
Theorem C123_contrast_cat : forall draws cases target dst, NoDup cases ->
  length (cMissing target) = length (cData target) -> Forall (fun c => c < length (cData target)) cases ->
  length (cData dst) = length (cData target) -> length (cMissing dst) = length (cData target) ->
  exists k p, cShuffleCases draws cases (cCopyInTo target dst) = Ok k /\ Permutation p cases /\
    moved cases p (cMissing target) (cMissing k) /\ moved cases p (cData target) (cData k).
Proof.
  intros draws cases target dst Hnd Hl Hc D1 D2. unfold cShuffleCases, cCopyInTo. cbn [cMissing cData].
  rewrite !copyinto_same by lia.
  destruct (C12_shuffleCases_frame nat draws cases (cMissing target) (cData target) Hnd) as (p & ms & d & E & Hp & M1 & M2).
  { lia. } { intros c Hin. rewrite Forall_forall in Hc. rewrite Hl. auto. }
  rewrite E. cbn [bind]. eexists _, p. split; [reflexivity|]. auto.
Qed.
Theorem C123_contrast_num : forall draws cases target dst, NoDup cases ->
  length (nMissing target) = length (nData target) -> Forall (fun c => c < length (nData target)) cases ->
  length (nData dst) = length (nData target) -> length (nMissing dst) = length (nData target) ->
  exists k p, nShuffleCases draws cases (nCopyInTo target dst) = Ok k /\ Permutation p cases /\
    moved cases p (nMissing target) (nMissing k) /\ moved cases p (nData target) (nData k).
Proof.
  intros draws cases target dst Hnd Hl Hc D1 D2. unfold nShuffleCases, nCopyInTo. cbn [nMissing nData].
  rewrite !copyinto_same by lia.
  destruct (C12_shuffleCases_frame f64 draws cases (nMissing target) (nData target) Hnd) as (p & ms & d & E & Hp & M1 & M2).
  { lia. } { intros c Hin. rewrite Forall_forall in Hc. rewrite Hl. auto. }
  rewrite E. cbn [bind]. eexists _, p. split; [reflexivity|]. auto.
Qed.

(** A contrast for these cases: as many of them of every category as in the target. *)
Definition contrast_of (target : catF) (cases : list nat) (k : catF) : Prop :=
  length (cMissing k) = length (cData k) /\ length (cData k) = length (cData target) /\
  Permutation (labels (cData target) cases) (labels (cData k) cases).

Lemma gini_of_labels A data data' n cases : Permutation (labels data cases) (labels data' cases) ->
  gini_val A data n cases = gini_val A data' n cases.
Proof.
  intros P. unfold gini_val. f_equal. unfold counts. apply map_ext. intros c. f_equal.
  unfold occurs. revert c. apply Permutation_count_occ. exact P.
Qed.
Lemma labelled_of_labels data data' n cases : Forall (fun c => c < length data') cases -> labelled data n cases ->
  Permutation (labels data cases) (labels data' cases) -> labelled data' n cases.
Proof.
  intros Hc Hl P. apply Forall_forall. intros i Hi. rewrite Forall_forall in Hc. split; [auto|].
  assert (Hin : In (nth i data' 0) (labels data' cases)) by (unfold labels; apply in_map_iff; eauto).
  apply Permutation_sym in P. apply (Permutation_in _ P) in Hin.
  unfold labels in Hin. apply in_map_iff in Hin as (j & <- & Hj). unfold labelled in Hl. rewrite Forall_forall in Hl. apply Hl; auto.
Qed.

(** Growing from cases that are all different (-nobag) and with the Gini impurity: what is
    subtracted is the gain of the best split of a contrast, measured from its own impurity,
    in float64; and the contrast is one again when the next feature is vetted. *)
Theorem C123_gain_of_contrast_partial :
  forall rnd p f target n cases oob parent st st1 dec inner al k res,
  pVet p = true -> pEvalOob p = false -> NoDup cases -> labelled (cData target) n cases ->
  contrast_of target cases k -> cst_ready n st ->
  tImp (gini_target F64 (cData target)) cases st = Ok (parent, st1) -> nltb F64 dec inner = true ->
  vet_split F64 cst rnd catF cShuffleCases (fun k => gini_target F64 (cData k)) p f parent dec inner cases oob al k = Ok res ->
  exists k' r al', contrast_of target cases k' /\
    BestSplit F64 cst (gini_target F64 (cData k')) rnd f cases parent (pLeaf p) (pExtra p) al' = Ok r /\
    (exists st2, tImp (gini_target F64 (cData k')) cases st = Ok (parent, st2)) /\
    res = (nsub F64 inner (fDec r), fCases r, oob, fAl r, k').
Proof.
  intros rnd p f target n cases oob parent st st1 dec inner al k res Hv He Hnd Hlab (K1 & K2 & K3) Hst Ep Hd E.
  unfold vet_split in E. rewrite Hv, He, Hd in E. cbn [andb] in E.
  assert (Hr : Forall (fun c => c < length (cData k)) cases).
  { rewrite K2. eapply Forall_impl; [|exact Hlab]. cbn. tauto. }
  apply bind_ok in E as (k' & Ek & E). apply bind_ok in E as (r & Er & E).
  unfold cShuffleCases in Ek.
  destruct (C12_shuffleCases_frame nat (fun j => rnd (aDraw al + j)) cases (cMissing k) (cData k) Hnd) as (q & ms & d & Es & Hq & M1 & M2).
  { lia. } { intros c Hin. rewrite Forall_forall in Hr. rewrite K1. auto. }
  rewrite Es in Ek. cbn [bind] in Ek. inversion Ek; subst k'; clear Ek. cbn [cData] in *.
  assert (Pl : Permutation (labels (cData target) cases) (labels d cases)).
  { etransitivity; [exact K3|]. eapply moved_labels; eauto. }
  assert (Ld : length d = length (cData k)) by apply M2.
  eexists _, r, _. split; [|split; [|split]].
  4:{ injection E as <-. reflexivity. }
  - split; [|split]; cbn [cMissing cData]; [destruct M1 as [-> _]; lia|lia|exact Pl].
  - cbn [cData]. exact Er.
  - destruct (h_imp _ _ _ _ _ _ (gini_honest_F64 (cData target) n) cases st) as (s1 & E1 & _).
    { exact Hlab. } { exact Hst. }
    assert (Hlab' : labelled d n cases).
    { eapply labelled_of_labels; eauto. rewrite Ld. exact Hr. }
    destruct (h_imp _ _ _ _ _ _ (gini_honest_F64 d n) cases st) as (s2 & E2 & _).
    { exact Hlab'. } { exact Hst. }
    exists s2. cbn [cData]. rewrite E2. f_equal. f_equal. rewrite E1 in Ep.
    assert (G : forall (a b : f64) (s s' : cst), Ok (a, s) = Ok (b, s') -> a = b) by congruence. apply G in Ep. rewrite <- Ep.
    symmetry. apply gini_of_labels. exact Pl.
Qed.

(** Every arrangement of the values among the cases is the contrast for some draws, legal
    ones, wherever in the sequence of draws vetting happens; that there is exactly one such
    sequence is C12_shuffleCases_uniform. *)
Lemma shuffle_ext {A} rnd rnd' cases (ms : list bool) (d : list A) : (forall j, rnd j = rnd' j) ->
  shuffleCases rnd cases ms d = shuffleCases rnd' cases ms d.
Proof.
  intros H. unfold shuffleCases. generalize (length cases) at 2 4 as cap. intros cap.
  generalize 0 as lo. generalize (ms, d) as st. induction (length cases) as [|n IH]; intros st lo; cbn [for_up]; [reflexivity|].
  rewrite H. match goal with |- bind ?a _ = bind ?a _ => destruct a; cbn [bind]; auto end.
Qed.
Theorem C123_every_arrangement : forall T (kTarget : catF -> target F64 T) p f parent dec inner cases oob (al : allocs T) k q,
  pVet p = true -> pEvalOob p = false -> nltb F64 dec inner = true -> NoDup cases ->
  length (cMissing k) = length (cData k) -> Forall (fun c => c < length (cData k)) cases -> Permutation q cases ->
  exists draws, legal (length cases) draws /\
    forall rnd res, (forall j, rnd (aDraw al + j) = draws j) ->
    vet_split F64 T rnd catF cShuffleCases kTarget p f parent dec inner cases oob al k = Ok res ->
    moved cases q (cMissing k) (cMissing (snd res)) /\ moved cases q (cData k) (cData (snd res)).
Proof.
  intros T kTarget p f parent dec inner cases oob al k q Hv He Hd Hnd Hl Hc Hq.
  destruct (C12_shuffleCases_uniform cases q (length (cData k)) Hnd) as (draws & Hlegal & Hr & _); auto.
  { rewrite Forall_forall in Hc. exact Hc. }
  exists draws. split; [exact Hlegal|]. intros rnd res Hrnd E. unfold vet_split in E. rewrite Hv, He, Hd in E. cbn [andb] in E.
  apply bind_ok in E as (k' & Ek & E). apply bind_ok in E as (r & Er & E). injection E as <-. cbn [snd].
  unfold cShuffleCases in Ek. rewrite (shuffle_ext _ draws) in Ek by exact Hrnd.
  destruct (Hr nat (cMissing k) (cData k) Hl eq_refl) as (ms & d & Es & M1 & M2). rewrite Es in Ek. cbn [bind] in Ek.
  injection Ek as <-. cbn [cMissing cData]. auto.
Qed.

(** ** The rest is false. *)
Definition dull (d : list nat) : catF := mkCat (mkCM [("a", 0); ("b", 1)] ["a"; "b"]) d (map (fun _ => false) d) "t" false false.
Definition vet_p (oob : bool) : params := mkP [] 1 1 false true oob false 0 false.
Definition vet_al : allocs cst := mkAl (repeat f0 8) (repeat 0%Z 8) (repeat 0%Z 2, mkK (repeat 0%Z 2) (repeat 0%Z 2) (repeat 0%Z 2)) 0.
Definition fhalf : f64 := fdiv f1 f2.

(** What is left of [inner], the labels of the contrast, its impurity over [where_]. *)
Definition vetted rnd oobp vs data cases oob where_ : option (f64 * list nat * f64 * f64) :=
  match tImp (gini_target F64 data) cases (aTgt vet_al) with
  | Ok (parent, _) =>
    match vet_split F64 cst rnd catF cShuffleCases (fun k => gini_target F64 (cData k)) (vet_p oobp) (FNum (PropSearch.plain (map f_of_Z vs)))
            parent f0 f1 cases oob vet_al (dull data) with
    | Ok (v, _, _, _, k) =>
      match tImp (gini_target F64 (cData k)) where_ (aTgt vet_al) with
      | Ok (own, _) => Some (v, cData k, parent, own)
      | _ => None
      end
    | _ => None
    end
  | _ => None
  end.

(** Bagging draws a case twice: the contrast then has other numbers of each category
    (3 to 1 instead of 2 to 2), an impurity of 3/8, and 1/2 is subtracted: more than any
    split of it can gain. *)
Theorem C123_bagged_refuted : exists rnd vs data cases v d own,
  vetted rnd false vs data cases [] cases = Some (v, d, fhalf, own) /\
  ~ Permutation (labels data cases) (labels d cases) /\
  own = fdiv (f_of_Z 3) (f_of_Z 8) /\ v = fsub f1 fhalf /\ fltb own (fsub f1 v) = true.
Proof.
  exists (fun j => if j =? 0 then 2 else 0), [1; 0; 1]%Z, [1; 0; 0], [0; 0; 1; 2].
  eexists _, _, _. split; [vm_compute; reflexivity|]. split; [|split; [|split]]; try (vm_compute; reflexivity).
  intros P. apply (proj1 (Permutation_count_occ Nat.eq_dec _ _)) with (x := 1) in P. vm_compute in P. discriminate P.
Qed.

(** With -evaloob the contrast is searched over the out of bag cases and measured from the
    impurity of the cases in the bag: out of bag cases all of one category "gain" 1/2. *)
Theorem C123_evaloob_refuted : exists rnd vs data cases oob v d,
  NoDup (cases ++ oob) /\ vetted rnd true vs data cases oob oob = Some (v, d, fhalf, f0) /\
  (forall i, In i oob -> nth_error d i = Some 0) /\ v = fsub f1 fhalf.
Proof.
  exists (fun _ => 0), [0; 1; 0; 1; 1]%Z, [0; 1; 0; 0; 0], [0; 1], [2; 3; 4].
  eexists _, _. split; [|split; [vm_compute; reflexivity|split; [|vm_compute; reflexivity]]].
  - repeat (constructor; [cbn; lia|]). constructor.
  - intros i [<-|[<-|[<-|[]]]]; reflexivity.
Qed.

(** The case the proved part speaks of: four cases, shuffled, judged alike. *)
Example C123_ex : option_map (fun '(v, d, parent, own) => (fltb v f1, d, parent, own)) (vetted (fun j => if j =? 0 then 2 else 0) false [0; 1; 2; 3]%Z [0; 0; 1; 1] [0; 1; 2; 3] [] [0; 1; 2; 3])
  = Some (true, [1; 0; 0; 1], fhalf, fhalf).
Proof. vm_compute. reflexivity. Qed.
Example C123_ex_contrast : contrast_of (dull [0; 0; 1; 1]) [0; 1; 2; 3] (dull [0; 0; 1; 1]) /\ labelled [0; 0; 1; 1] 2 [0; 1; 2; 3] /\ cst_ready 2 (aTgt vet_al).
Proof.
  split; [|split]; [split; [|split]; reflexivity| |split; [|split; [|split]]; reflexivity].
  repeat (constructor; [cbn; lia|]). constructor.
Qed.

Print Assumptions C123_contrast_cat.
Print Assumptions C123_contrast_num.
Print Assumptions C123_gain_of_contrast_partial.
Print Assumptions C123_every_arrangement.
Print Assumptions C123_bagged_refuted.
Print Assumptions C123_evaloob_refuted.
