(** Counterexamples and examples computed without rounding.

    C34 without its hypotheses: with values closer than 1e-7 the decrease reported for a
    feature with missing values is not that of the split returned, also without rounding. *)
From Verif Require Import Go GoLemmas F64 F64Order F64Round ModelFeature ModelSplit SplitSpec SplitProofs
  ModelSearch SearchSpec GrowSpec ModelTargets TargetProofs ModelImpurity ModelTree ModelGrow Rational.
From Verif Require PropSearch PropRows PropLockstep.
From Coq Require Import QArith.
Local Open Scope nat_scope.
Local Open Scope list_scope.

(** The impurity of the node minus the weighted impurities of its three parts. *)
Definition three_way (imp : list nat -> XQ) (l r m : list nat) : XQ :=
  let size s := nofZ XQ (Z.of_nat (length s)) in
  let part s := match s with [] => nofZ XQ 0 | _ => nmul XQ (size s) (imp s) end in
  nsub XQ (imp (l ++ r ++ m)) (ndiv XQ (nadd XQ (nadd XQ (part l) (part r)) (part m)) (size (l ++ r ++ m))).

Definition near_gappy : feature :=
  FNum (mkNum (PropSearch.near_ties ++ [f0]) [false; false; false; false; false; true] ""%string true).

(** C34 asks for [fDec r = three_way ...] for every split found; values are small here, and
    the arithmetic is exact. *)
Theorem C34_near_ties_refuted :
  exists data n f cases leaf al r,
    1 <= leaf /\ Forall (in_data data n) cases /\ searchable f cases /\ roomy al (length cases) /\ cst_ready n (aTgt al) /\
    (forall rnd, BestSplit XQ _ (gini_target XQ data) rnd f cases (gini_val XQ data n cases) leaf false al = Ok r) /\
    nltb XQ (least XQ) (fDec r) = true /\
    let l := side (coded_left f (fCode r)) (present f cases) in
    let rt := other (coded_left f (fCode r)) (present f cases) in
    let m := absent f cases in
    fDec r = Some (4 # 9)%Q /\ three_way (gini_val XQ data n) l rt m = Some (2 # 9)%Q /\ m <> [].
Proof.
  exists [0; 0; 0; 1; 1; 0], 2, near_gappy, (seq 0 6), 1, (PropSearch.fresh 6). eexists.
  split; [lia|]. split; [apply Forall_forall; intros c Hc; apply in_seq in Hc; do 6 (destruct c as [|c]; [split; cbn; lia|]); lia|]. split.
  { split; [intros c; do 6 (destruct c as [|c]; [reflexivity|]); cbn; destruct c; discriminate|].
    split; [apply Forall_forall; intros c Hc; apply in_seq in Hc; do 6 (destruct c as [|c]; [split; cbn; lia|]); lia|].
    intros c Hc. cbn in Hc. destruct Hc as [<-|[<-|[<-|[<-|[<-|[]]]]]]; vm_compute; auto. }
  split; [split; cbn; lia|]. split; [repeat split; cbn; lia|]. split; [intros rnd; vm_compute; reflexivity|].
  split; [reflexivity|]. repeat split. discriminate.
Qed.
Print Assumptions C34_near_ties_refuted.

(** The trees of [C132_renumbered_refuted], which float64 grows differently: without rounding
    both numberings of the classes choose the same feature. *)
Example C132_ex_exact :
  let tree t := PropLockstep.root_feature (PropRows.grow_cat XQ cst (gini_target XQ) cFindPredicted (fun _ => 0) t 9
    PropLockstep.two_cols newNode [0; 1; 2; 3] [0; 1] [] PropLockstep.room3 None None) in
  tree PropLockstep.abc = Some 0 /\ tree PropLockstep.bac = Some 0.
Proof. split; vm_compute; reflexivity. Qed.
