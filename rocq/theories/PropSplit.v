(** C03, C04: the three way splits. *)
From Verif Require Import Go F64 F64Order ModelFeature ModelSplit SplitSpec SplitProofs.
Local Open Scope string_scope.
Local Open Scope nat_scope.
Local Open Scope list_scope.

(** Split, SplitPoints and Splitter.Split partition the case list. *)
Theorem C03_split_is_three_way_partition :
  forall (f : feature) (cases : list nat),
    flag_sound f -> Forall (has_case f) cases ->
    (forall code, code_fits f code ->
       exists r, fSplit f code cases = Ok r /\
                 three_way (coded_left f code) (fmissing f) cases r) /\
    (forall code, code_fits f code ->
       exists r cs ll lr,
         fSplitPoints f code cases = Ok (cs, ll, lr) /\
         three_way (coded_left f code) (fmissing f) cases r /\
         srCases r = cs /\ firstn ll cs = srL r /\ skipn lr cs = srR r /\
         ll = length (srL r) /\ lr = length (srL r) + length (srM r)) /\
    (forall fm s, fmLookup fm (sFeature s) = Ok f ->
       exists r, splSplit fm s cases = Ok r /\
                 three_way (splitter_left f s) (fmissing f) cases r).
Proof.
  intros f cases Hf Hc. split; [|split].
  - intros code Hcode. destruct (fSplit_ok f code cases Hcode Hf Hc) as (cs & ll & lr & r & _ & E & H & _).
    eauto.
  - intros code Hcode.
    destruct (fSplit_ok f code cases Hcode Hf Hc) as (cs & ll & lr & r & E & _ & H & Hcs & Hl & Hr).
    exists r, cs, ll, lr. repeat split; auto; try apply H.
    + rewrite <- Hcs, (tw_layout _ _ _ _ H). apply GoLemmas.firstn_app_exact. auto.
    + rewrite <- Hcs, (tw_layout _ _ _ _ H), app_assoc. apply GoLemmas.skipn_app_exact.
      rewrite app_length. auto.
  - intros fm s E. unfold splSplit. rewrite E. cbn. apply splSplitF_ok; auto.
Qed.
Print Assumptions C03_split_is_three_way_partition.

(** A categorical feature with missing values, an unused bit in the code and a
    repeated case. *)
Definition ex_cat : catF :=
  mkCat (mkCM [("b", 1); ("c", 2); ("a", 0)] ["a"; "b"; "c"])
        [0; 1; 0; 2; 1; 0] [false; false; true; false; false; false] "C:f" false true.
Example C03_example :
  flag_sound (FCat ex_cat) /\ Forall (has_case (FCat ex_cat)) [5; 2; 3; 1; 0; 4; 4] /\
  code_fits (FCat ex_cat) (CInt 2) /\
  fSplit (FCat ex_cat) (CInt 2) [5; 2; 3; 1; 0; 4; 4]
  = Ok (mkSR [4; 4; 1; 2; 0; 3; 5] [4; 4; 1] [0; 3; 5] [2]).
Proof.
  repeat split.
  repeat constructor.
Qed.

(** Coded and decoded splits agree, order of the slices included, and
    SplitPoints delimits the slices of Split. *)
Theorem C04_coded_and_decoded_splits_agree :
  forall (f : feature) (code : coded) (cases : list nat),
    code_fits f code -> flag_sound f -> names_distinct f -> Forall (has_case f) cases ->
    exists s r cs ll lr,
      fDecodeSplit f code = Ok s /\
      fSplit f code cases = Ok r /\
      fSplitPoints f code cases = Ok (cs, ll, lr) /\
      splSplitF f s cases = Ok r /\
      srCases r = cs /\ srL r = firstn ll cs /\ srR r = skipn lr cs /\
      srM r = firstn (lr - ll) (skipn ll cs) /\
      (forall c, In c cases -> splitter_left f s c = coded_left f code c).
Proof.
  intros f code cases Hcode Hf Hn Hc.
  destruct (fSplit_ok f code cases Hcode Hf Hc) as (cs & ll & lr & r & E1 & E2 & H & Hcs & Hl & Hr).
  assert (Hs : exists s, fDecodeSplit f code = Ok s).
  { destruct f, code; cbn in Hcode; try contradiction; cbn; eauto. }
  destruct Hs as [s Es]. exists s, r, cs, ll, lr.
  pose proof (tw_layout _ _ _ _ H) as Hlay. rewrite Hcs in Hlay.
  repeat split; auto.
  - rewrite <- E2. apply decoded_same; auto.
  - rewrite Hlay. symmetry. apply GoLemmas.firstn_app_exact; auto.
  - rewrite Hlay, app_assoc. symmetry. apply GoLemmas.skipn_app_exact. rewrite app_length; auto.
  - rewrite Hlay, GoLemmas.skipn_app_exact by auto. symmetry. apply GoLemmas.firstn_app_exact. lia.
  - intros c Hin. apply (decoded_left f code s c); auto.
    rewrite Forall_forall in Hc; auto.
Qed.
Print Assumptions C04_coded_and_decoded_splits_agree.

Example C04_example :
  names_distinct (FCat ex_cat) /\
  fDecodeSplit (FCat ex_cat) (CBig 5) = Ok (mkSpl "C:f" false f0 ["a"; "c"]).
Proof.
  split; [|reflexivity].
  repeat constructor; cbn; intuition discriminate.
Qed.
