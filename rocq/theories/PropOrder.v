(** C130: the numbers of a numerical feature count only by their order. *)
From Verif Require Import Go GoLemmas F64 F64Order F64Round ModelFeature ModelSample ModelImpurity ModelSplit SplitSpec ModelSearch SearchSpec SearchProofs ModelTargets
  ModelTree TreeSpec ModelGrow PropTree PropByName RowsProofs PropRows OrderSearch OrderGrow.
From Verif Require PropSearch PropCatSearch.
From Coq Require Import SpecFloat.
Local Open Scope string_scope.
Local Open Scope nat_scope.
Local Open Scope list_scope.

(** ** C130.  The claim in full: when the values of the numerical features are replaced by others
    in the same order (a rescaling, a logarithm, ranks), the same tree is grown, with other
    thresholds, and the cases it is grown from go the same ways. *)

(** The numbers of a column: floats as the code can hold them, not larger than 2^29, and
    different ones more than 1e-7 apart. *)
Definition clear_numbers (f : numF) (cs : list nat) : Prop :=
  Forall (fun c => c < length (nData f) /\ valid (nvalue f c) /\ moderate (nvalue f c)) cs /\ SearchSpec.apart f cs.
(** [h] keeps the order of the numbers of these cases. *)
Definition keeps_order (h : f64 -> f64) (f : numF) (cs : list nat) : Prop :=
  forall c d, In c cs -> In d cs ->
    (fltb (nvalue f c) (nvalue f d) = true -> fltb (h (nvalue f c)) (h (nvalue f d)) = true) /\
    (feqb (nvalue f c) (nvalue f d) = true -> feqb (h (nvalue f c)) (h (nvalue f d)) = true).
Definition transformed (h : f64 -> f64) (f : numF) : numF := mkNum (map h (nData f)) (nMissing f) (nName f) (nHas f).
Definition restated (cases : list nat) (f f' : feature) : Prop :=
  match f, f' with
  | FCat f, FCat f' => f' = f
  | FNum f, FNum f' => exists h, f' = transformed h f /\ keeps_order h f (filter (known f) cases) /\
      clear_numbers f (filter (known f) cases) /\ clear_numbers f' (filter (known f) cases)
  | _, _ => False
  end.

Lemma clear_nn f cs c : clear_numbers f cs -> In c cs -> nn (nvalue f c).
Proof.
  intros [H _] Hc. rewrite Forall_forall in H. destruct (H c Hc) as (_ & V & M). destruct (moderate_key _ V M) as [F _].
  unfold nn. destruct (nvalue f c); try exact F; try reflexivity; destruct F.
Qed.
Lemma clear_telling f cs : clear_numbers f cs -> telling f cs.
Proof.
  intros H. pose proof H as [H1 H2]. rewrite Forall_forall in H1. refine (conj _ (conj H2 (conj _ _))).
  - rewrite Forall_forall. intros c Hc. split; [apply H1; exact Hc|]. eapply clear_nn; eauto.
  - intros c d Hc Hd L. apply midpoint_separates; try (apply H1; auto). apply H2; auto.
  - intros c Hc. apply fadd_up; [apply H1; auto|reflexivity|exact I|vm_compute; discriminate|]. pose proof (clear_nn _ _ _ H Hc) as Nn. destruct (nvalue f c); try reflexivity; discriminate Nn.
Qed.
Lemma compare_kept x y x' y' : nn x -> nn y -> nn x' -> nn y' ->
  (fltb x y = true -> fltb x' y' = true) -> (fltb y x = true -> fltb y' x' = true) -> (feqb x y = true -> feqb x' y' = true) ->
  SFcompare x y = SFcompare x' y'.
Proof.
  intros N1 N2 N3 N4 H1 H2 H3. rewrite !fltb_iff in H1, H2. rewrite !feqb_iff in H3.
  pose proof (SFcompare_spec x y) as S1. pose proof (SFcompare_spec x' y') as S2.
  destruct (SFcompare x y) as [[]|], (SFcompare x' y') as [[]|]; auto; try tauto; exfalso; unfold lexlt, lexeq in *; intuition lia.
Qed.
Lemma restated_alike cases f f' : restated cases f f' -> order_alike cases f f'.
Proof.
  destruct f as [f|f], f' as [f'|f']; cbn [restated order_alike]; try contradiction; [|congruence].
  intros (h & -> & Hk & C & C'). split; [repeat split|]. split; [|split; apply clear_telling; assumption].
  assert (V : forall c, In c (filter (known f) cases) -> nvalue (transformed h f) c = h (nvalue f c)).
  { intros c Hc. destruct C as [C _]. rewrite Forall_forall in C. destruct (C c Hc) as [L _]. unfold nvalue, transformed. cbn [nData].
    rewrite nth_indep with (d' := h S754_nan) by (rewrite map_length; exact L). apply map_nth. }
  intros c d Hc Hd. pose proof (clear_nn _ _ _ C Hc). pose proof (clear_nn _ _ _ C Hd). pose proof (clear_nn _ _ _ C' Hc). pose proof (clear_nn _ _ _ C' Hd).
  destruct (Hk c d Hc Hd) as [K1 K2]. destruct (Hk d c Hd Hc) as [K3 _]. rewrite <- (V c Hc), <- (V d Hd) in *. apply compare_kept; auto.
Qed.

(** Trees that differ in their thresholds only: every node has the same column, the same
    prediction, and, where the column is categorical, the same split. *)
Lemma twins_pred n n' q : twins n n' -> node_pred (at_path n q) = node_pred (at_path n' q).
Proof.
  revert n n'. induction q as [|s q IH]; intros n n' H; cbn [at_path].
  - destruct n, n'; cbn in *; try contradiction; [reflexivity|]. apply H.
  - apply IH. destruct n, n'; cbn in *; try contradiction; [exact I|]. destruct s; apply H.
Qed.

Theorem C130_same_tree_but_thresholds : forall A St T predict rnd K kCopyFrom kShuffleCases kTarget p p' cases fuel g n s fm fm',
  ordered A -> same_params p p' -> pEvalOob p = false -> 1 <= pLeaf p ->
  Forall2 (restated cases) (pData p) (pData p') ->
  Forall (fun f => flag_sound f /\ Forall (has_case f) cases) (pData p) ->
  length cases <= length (aVals (gAl g)) -> fmData fm = pData p -> fmData fm' = pData p' ->
  Grow A St T predict rnd K kCopyFrom kShuffleCases kTarget fuel p newNode cases g = Ok (n, s) ->
  exists n' s', Grow A St T predict rnd K kCopyFrom kShuffleCases kTarget fuel p' newNode cases g = Ok (n', s') /\
    twins n n' /\
    (* the importances, the depths at which columns are used, the draws made *)
    gImp s = gImp s' /\ gDepth s = gDepth s' /\ aDraw (gAl s) = aDraw (gAl s') /\
    (* the ways of the cases, and their votes *)
    (forall c, In c cases -> follow fm n c = follow fm' n' c) /\
    (forall w, due fm n w cases = due fm' n' w cases).
Proof.
  intros A St T predict rnd K kCopyFrom kShuffleCases kTarget p p' cases fuel g n s fm fm' Hord Hp Ho Hl Hd Hc Hv F F' E.
  assert (Hd' : Forall2 (order_alike cases) (pData p) (pData p')).
  { clear - Hd. induction Hd; constructor; auto. apply restated_alike. assumption. }
  destruct (grow_follows A St T predict rnd K kCopyFrom kShuffleCases kTarget p p' (length cases) cases Hord Hp Ho Hl Hd' Hc fm fm' F F' fuel fuel eq_refl
    cases 0 0 g g (incl_refl _) (le_n _)) with (a := (n, s)) as ([n' s'] & E' & Tw & (_ & _ & Ga & _ & Gi & Gd) & Fo).
  - unfold grel, alrel. repeat split; auto.
  - exact E.
  - cbn [fst snd] in *. exists n', s'. refine (conj E' (conj Tw (conj Gi (conj Gd (conj _ (conj Fo _)))))); [apply Ga|].
    intros w. unfold due. clear - Tw Fo. induction cases as [|c l IH]; [reflexivity|]. cbn [flat_map].
    rewrite IH by (intros; apply Fo; right; assumption). rewrite (Fo c) by (left; reflexivity). destruct (follow fm' n' c); [|reflexivity].
    rewrite (twins_pred n n' p Tw). reflexivity.
Qed.
Print Assumptions C130_same_tree_but_thresholds.

(** ** What fails: numbers close to each other.  The order of the four values is the same in both
    columns, but in one of them they differ by less than 1e-7: it is taken for constant. *)
Definition close_p (vs : list f64) : params := mkP [FNum (PropSearch.plain vs)] 1 1 false false false false 0 false.
Definition four : list f64 := map f_of_Z [1; 2; 3; 4]%Z.
Definition tiny : list f64 := map (fun v => fdiv v (f_of_Z (10 ^ 8))) four.
Definition four_t : catF := PropCatSearch.cats ["x"; "y"] [0; 0; 1; 1; 1] false.
Definition grown_from (p : params) (cases oob : list nat) :=
  grow_cat F64 cst (gini_target F64) cFindPredicted (fun _ => 0) four_t 5 p newNode cases [0] oob (PropSearch.fresh 6) None None.
Theorem C130_close_values_refuted :
  exists (p p' : params) (cases : list nat) f f',
    same_params p p' /\ pEvalOob p = false /\ pLeaf p = 1 /\ pData p = [FNum f] /\ pData p' = [FNum f'] /\ same_order f f' cases /\
    Forall (fun c => nn (nvalue f c) /\ nn (nvalue f' c)) cases /\
    is_split (grown_from p cases []) = Some true /\ is_split (grown_from p' cases []) = Some false.
Proof.
  exists (close_p four), (close_p tiny), [0; 1; 2; 3], (PropSearch.plain four), (PropSearch.plain tiny).
  refine (conj _ (conj eq_refl (conj eq_refl (conj eq_refl (conj eq_refl (conj _ (conj _ (conj _ _)))))))).
  - repeat split.
  - intros c d Hc Hd. cbn in Hc, Hd. repeat (destruct Hc as [<-|Hc]; [repeat (destruct Hd as [<-|Hd]; [vm_compute; reflexivity|]); destruct Hd|]). destruct Hc.
  - repeat constructor.
  - vm_compute. reflexivity.
  - vm_compute. reflexivity.
Qed.
Print Assumptions C130_close_values_refuted.

(** ** What fails: other cases.  The threshold is half way between the numbers of two cases the
    tree is grown from, so the vote for a case between them depends on its number, even when the
    order of all the cases is the same. *)
Definition between (v : Z) : numF := PropSearch.plain (map f_of_Z [0; 0; 10; 10; v]%Z).
Definition between_fm (v : Z) : fmatrix := mkFM [FNum (between v)] [("x", 0)] [].
Definition way {G} (r : res (node * G)) (fm : fmatrix) (c : nat) : option path := match r with Ok (n, _) => follow fm n c | _ => None end.
Theorem C130_other_cases_refuted :
  exists (p p' : params) (fm fm' : fmatrix) (cases : list nat) (c : nat) f f',
    same_params p p' /\ pEvalOob p = false /\ pLeaf p = 1 /\ pData p = [FNum f] /\ pData p' = [FNum f'] /\ fmData fm = pData p /\ fmData fm' = pData p' /\
    same_order f f' (c :: cases) /\ clear_numbers f (c :: cases) /\ clear_numbers f' (c :: cases) /\
    way (grown_from p cases []) fm c <> way (grown_from p' cases []) fm' c.
Proof.
  exists (close_p (nData (between 4))), (close_p (nData (between 6))), (between_fm 4), (between_fm 6), [0; 1; 2; 3], 4, (between 4), (between 6).
  refine (conj _ (conj eq_refl (conj eq_refl (conj eq_refl (conj eq_refl (conj eq_refl (conj eq_refl (conj _ (conj _ (conj _ _)))))))))).
  - repeat split.
  - intros c d Hc Hd. cbn in Hc, Hd. repeat (destruct Hc as [<-|Hc]; [repeat (destruct Hd as [<-|Hd]; [vm_compute; reflexivity|]); destruct Hd|]). destruct Hc.
  - split; [repeat constructor|]. intros c d Hc Hd. cbn in Hc, Hd. repeat (destruct Hc as [<-|Hc]; [repeat (destruct Hd as [<-|Hd]; [vm_compute; congruence|]); destruct Hd|]). destruct Hc.
  - split; [repeat constructor|]. intros c d Hc Hd. cbn in Hc, Hd. repeat (destruct Hc as [<-|Hc]; [repeat (destruct Hd as [<-|Hd]; [vm_compute; congruence|]); destruct Hd|]). destruct Hc.
  - vm_compute. discriminate.
Qed.
Print Assumptions C130_other_cases_refuted.

(** ** What fails: -evaloob.  The out of bag cases are split by the thresholds, so their numbers
    count: here all six cases are in the same order in both columns. *)
Definition judged (v : Z) : numF := PropSearch.plain (map f_of_Z [0; 0; 10; 10; 3; v]%Z).
Definition judged_p (v : Z) : params := mkP [FNum (judged v)] 1 1 false false true false 0 false.
Definition judged_t : catF := PropCatSearch.cats ["x"; "y"] [0; 0; 1; 1; 0; 1] false.
Definition judged_tree (v : Z) :=
  grow_cat F64 cst (gini_target F64) cFindPredicted (fun _ => 0) judged_t 5 (judged_p v) newNode [0; 1; 2; 3] [0] [4; 5] (PropSearch.fresh 6) None None.
Theorem C130_evaloob_refuted :
  exists (p p' : params) (cases oob : list nat) f f',
    same_params p p' /\ pEvalOob p = true /\ pLeaf p = 1 /\ pData p = [FNum f] /\ pData p' = [FNum f'] /\
    same_order f f' (cases ++ oob) /\ clear_numbers f (cases ++ oob) /\ clear_numbers f' (cases ++ oob) /\
    let tree q := grow_cat F64 cst (gini_target F64) cFindPredicted (fun _ => 0) judged_t 5 q newNode cases [0] oob (PropSearch.fresh 6) None None in
    is_split (tree p) = Some false /\ is_split (tree p') = Some true.
Proof.
  exists (judged_p 4), (judged_p 6), [0; 1; 2; 3], [4; 5], (judged 4), (judged 6).
  refine (conj _ (conj eq_refl (conj eq_refl (conj eq_refl (conj eq_refl (conj _ (conj _ (conj _ (conj _ _))))))))).
  - repeat split.
  - intros c d Hc Hd. cbn in Hc, Hd. repeat (destruct Hc as [<-|Hc]; [repeat (destruct Hd as [<-|Hd]; [vm_compute; reflexivity|]); destruct Hd|]). destruct Hc.
  - split; [repeat constructor|]. intros c d Hc Hd. cbn in Hc, Hd. repeat (destruct Hc as [<-|Hc]; [repeat (destruct Hd as [<-|Hd]; [vm_compute; congruence|]); destruct Hd|]). destruct Hc.
  - split; [repeat constructor|]. intros c d Hc Hd. cbn in Hc, Hd. repeat (destruct Hc as [<-|Hc]; [repeat (destruct Hd as [<-|Hd]; [vm_compute; congruence|]); destruct Hd|]). destruct Hc.
  - vm_compute. reflexivity.
  - vm_compute. reflexivity.
Qed.
Print Assumptions C130_evaloob_refuted.

(** A case that meets the hypotheses: numbers, one of them missing, and their multiples by 1000;
    the tree has a split. *)
Definition ex_col : numF := mkNum (map f_of_Z [1; 7; 3; 4; 2]%Z) [false; true; false; false; false] "N:x" true.
Definition ex_times (v : f64) : f64 := fmul v (f_of_Z 1000).
Definition ex_col' : numF := transformed ex_times ex_col.
Definition ex_p (f : numF) : params := mkP [FNum f; FCat four_t] 1 1 false false false false 0 true.
Example C130_ex :
  ordered F64 /\ same_params (ex_p ex_col) (ex_p ex_col') /\ Forall2 (restated [0; 1; 2; 3; 4]) (pData (ex_p ex_col)) (pData (ex_p ex_col')) /\
  Forall (fun f => flag_sound f /\ Forall (has_case f) [0; 1; 2; 3; 4]) (pData (ex_p ex_col)) /\
  is_split (grow_cat F64 cst (gini_target F64) cFindPredicted (fun _ => 0) four_t 5 (ex_p ex_col) newNode [0; 1; 2; 3; 4] [0] [] (PropSearch.fresh 6) None None) = Some true.
Proof.
  refine (conj ordered_F64 (conj _ (conj _ (conj _ _)))).
  - repeat split.
  - constructor; [|constructor; [reflexivity|constructor]]. cbn [restated]. exists ex_times. split; [reflexivity|].
    assert (E : filter (known ex_col) [0; 1; 2; 3; 4] = [0; 2; 3; 4]) by reflexivity. rewrite E. refine (conj _ (conj _ _)).
    + intros c d Hc Hd. cbn in Hc, Hd. repeat (destruct Hc as [<-|Hc]; [repeat (destruct Hd as [<-|Hd]; [split; vm_compute; congruence|]); destruct Hd|]). destruct Hc.
    + split; [repeat constructor; vm_compute; lia|]. intros c d Hc Hd. cbn in Hc, Hd. repeat (destruct Hc as [<-|Hc]; [repeat (destruct Hd as [<-|Hd]; [vm_compute; congruence|]); destruct Hd|]). destruct Hc.
    + split; [repeat constructor; vm_compute; lia|]. intros c d Hc Hd. cbn in Hc, Hd. repeat (destruct Hc as [<-|Hc]; [repeat (destruct Hd as [<-|Hd]; [vm_compute; congruence|]); destruct Hd|]). destruct Hc.
  - constructor; [|constructor; [|constructor]].
    + split; [intros c _; reflexivity|]. repeat constructor.
    + split; [intros c; cbn; do 6 (destruct c; [discriminate|]); destruct c; discriminate|]. repeat constructor.
  - vm_compute. reflexivity.
Qed.
