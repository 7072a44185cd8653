(** C124: the record of splits leafcount writes. *)
From Verif Require Import Go GoLemmas F64 Conc ModelFeature ModelSplit ModelTree ModelSplits.
Local Open Scope string_scope.
Local Open Scope nat_scope.
Local Open Scope list_scope.

(** ** C124.  The claim in full: for every feature the record lists the splits of all
    nodes of all trees that use it, each once. *)

(** The splits of a tree: the node, then its left, right and missing branches. *)
Fixpoint splitters (n : node) : list splitter :=
  match n with
  | Nil => []
  | Node d l r m => match dSpl d with Some s => [s] | None => [] end ++ splitters l ++ splitters r ++ splitters m
  end.
(** What the text of a split is: the number, or the categories in some order. *)
Definition describes (show : f64 -> string) (s : splitter) (text : string) : Prop :=
  if sNumerical s then text = show (sValue s)
  else exists p, Permutation p (sLeft s) /\ text = String.concat "," p.
Definition uses (name : string) (s : splitter) : bool := String.eqb name (sFeature s).
Definition noted (show : f64 -> string) (s : splitter) (note : string * string) : Prop :=
  fst note = sFeature s /\ describes show s (snd note).

Lemma sget_sset k v m k' : sget k' (sset k v m) = if String.eqb k' k then Some v else sget k' m.
Proof.
  induction m as [|[k0 v0] m IH]; cbn.
  - destruct (String.eqb k' k); auto.
  - destruct (String.eqb_spec k k0) as [->|Hk]; cbn.
    + destruct (String.eqb_spec k' k0); auto.
    + rewrite IH. destruct (String.eqb_spec k' k0) as [->|]; auto.
      destruct (String.eqb_spec k0 k); auto. congruence.
Qed.

Section Notes.
  Variable show : f64 -> string.
  Variable ord : nat -> list string -> list string.
  Hypothesis ord_ok : forall n l, Permutation (ord n l) l.

  Lemma text_ok n s : describes show s (split_text show ord n s).
  Proof. unfold describes, split_text. destruct (sNumerical s); eauto. Qed.
  Lemma climb_notes : forall n notes, exists n' new,
    climb (fun d notes => (d, match dSpl d with
            | Some s => notes ++ [(sFeature s, split_text show ord (length notes) s)]
            | None => notes end)) n notes = (n', notes ++ new) /\ Forall2 (noted show) (splitters n) new.
  Proof.
    induction n as [|d l IHl r IHr m IHm]; intros notes.
    - exists Nil, []. cbn. rewrite app_nil_r. auto.
    - cbn [climb splitters].
      set (own := match dSpl d with Some s => [(sFeature s, split_text show ord (length notes) s)] | None => [] end).
      assert (E : match dSpl d with Some s => notes ++ [(sFeature s, split_text show ord (length notes) s)] | None => notes end = notes ++ own).
      { unfold own. destruct (dSpl d); auto. rewrite app_nil_r. auto. }
      rewrite E. destruct (IHl (notes ++ own)) as (l' & nl & -> & Hl).
      destruct (IHr ((notes ++ own) ++ nl)) as (r' & nr & -> & Hr).
      destruct (IHm (((notes ++ own) ++ nl) ++ nr)) as (m' & nm & -> & Hm).
      exists (Node d l' r' m'), (own ++ nl ++ nr ++ nm). split; [rewrite !app_assoc; auto|].
      apply Forall2_app; [|apply Forall2_app; [|apply Forall2_app]]; auto.
      unfold own. destruct (dSpl d) as [s|]; constructor; [|constructor]. split; [reflexivity|apply text_ok].
  Qed.
  Lemma notes_ok : forall trees, Forall (fun t => isNil t = false) trees ->
    exists notes, tree_notes show ord trees = Ok notes /\ Forall2 (noted show) (flat_map splitters trees) notes.
  Proof.
    intros trees H. unfold tree_notes.
    assert (G : forall pre, exists new, foreach trees (fun t notes =>
      let* (_, notes) := Climb (fun d notes =>
        (d, match dSpl d with
            | Some s => notes ++ [(sFeature s, split_text show ord (length notes) s)]
            | None => notes
            end)) t notes in
      Ok notes) pre = Ok (pre ++ new) /\ Forall2 (noted show) (flat_map splitters trees) new).
    { induction H as [|t trees Ht H IH]; intros pre.
      - exists []. cbn. rewrite app_nil_r. auto.
      - destruct (climb_notes t pre) as (t' & new & E & F). cbn [foreach flat_map].
        unfold Climb at 1. destruct t as [|d l r m]; [discriminate Ht|]. rewrite E. cbn [bind].
        destruct (IH (pre ++ new)) as (new2 & E2 & F2). rewrite E2.
        exists (new ++ new2). rewrite app_assoc. split; auto. apply Forall2_app; auto. }
    destruct (G []) as (new & E & F). exists new. auto.
  Qed.
End Notes.

(** One goroutine runs its statements in order. *)
Lemma one_thread {Cell Reg} : forall sched (acts : list (Cell -> Reg -> Cell * Reg)) x r lk m',
  exec sched (mkM [x] lk [(map (IAct 0) acts, r)]) = Some m' -> finished m' ->
  mCells m' = [fst (runacts acts (x, r))].
Proof.
  induction sched as [|t sched IH]; intros acts x r lk m' E F.
  - inversion E; subst m'. inversion F as [|? ? F1 _]; subst. cbn in F1. destruct acts; [reflexivity|discriminate].
  - cbn [exec] in E. destruct t as [|t]; [|unfold step in E; cbn in E; destruct t; discriminate].
    unfold step in E. cbn [mThreads mCells mLocks nth_error] in E. destruct acts as [|a acts]; [discriminate|].
    cbn [map] in E. cbn [nth_error] in E. unfold runacts. cbn [fold_left fst snd]. destruct (a x r) as [x' r'] eqn:Ea.
    cbn [upd] in E. apply IH in E; auto.
Qed.

Definition add_note (m : smap) (note : string * string) : smap :=
  sset (fst note) (match sget (fst note) m with Some l => l | None => [] end ++ [snd note]) m.
Lemma run_note note m r : exists m1 r1, runacts (note_acts note) (m, r) = (m1, r1) /\
  forall k, sget k m1 = sget k (add_note m note).
Proof.
  destruct note as [name text]. unfold runacts, note_acts, look, make_list, store, add_note. cbn [fold_left fst snd].
  destruct (sget name m) as [l|] eqn:E.
  - rewrite E. eexists _, _. split; [reflexivity|]. auto.
  - rewrite sget_sset, String.eqb_refl. eexists _, _. split; [reflexivity|]. intros k. rewrite !sget_sset.
    destruct (String.eqb k name); auto.
Qed.
Definition listed (name : string) (notes : list (string * string)) : list string :=
  map snd (filter (fun n => String.eqb name (fst n)) notes).
Lemma run_notes : forall notes m r name,
  sget name (fst (runacts (flat_map note_acts notes) (m, r))) =
  match sget name m, listed name notes with
  | None, [] => None
  | o, l => Some (match o with Some l0 => l0 | None => [] end ++ l)
  end.
Proof.
  induction notes as [|note notes IH]; intros m r name.
  - cbn. destruct (sget name m); auto. rewrite app_nil_r. auto.
  - cbn [flat_map]. unfold runacts. rewrite fold_left_app. fold (runacts (note_acts note) (m, r)).
    destruct (run_note note m r) as (m1 & r1 & -> & H). fold (runacts (flat_map note_acts notes) (m1, r1)).
    rewrite IH, H. unfold add_note. rewrite sget_sset. unfold listed. cbn [filter].
    destruct (String.eqb_spec name (fst note)) as [->|]; cbn [map]; auto.
    rewrite <- app_assoc. cbn [app]. destruct (sget (fst note) m); reflexivity.
Qed.
Lemma noted_listed show name : forall ss notes, Forall2 (noted show) ss notes ->
  Forall2 (describes show) (filter (uses name) ss) (listed name notes).
Proof.
  induction 1 as [|s note ss notes [Hn Hd] _ IH]; [constructor|]. unfold listed, uses in *. cbn [filter].
  rewrite <- Hn. destruct (String.eqb name (fst note)); cbn [map]; [constructor|]; auto.
Qed.

(** With one goroutine (-threads 1, the default), for all trees: the record has a list
    for exactly the features used in a split, and the list has the splits of the nodes
    using the feature, in the order in which the nodes are visited. *)
Theorem C124_splits_recorded_partial : forall show ord trees,
  (forall n l, Permutation (ord n l) l) -> Forall (fun t => isNil t = false) trees ->
  exists notes, tree_notes show ord trees = Ok notes /\
    (exists sched m', exec sched (splits_start [notes]) = Some m' /\ finished m') /\
    forall sched m', exec sched (splits_start [notes]) = Some m' -> finished m' ->
    exists c, mCells m' = [c] /\ forall name,
      let used := filter (uses name) (flat_map splitters trees) in
      match sget name c with
      | Some l => used <> [] /\ Forall2 (describes show) used l
      | None => used = []
      end.
Proof.
  intros show ord trees Ho Ht. destruct (notes_ok show ord Ho trees Ht) as (notes & E & F).
  exists notes. split; [exact E|]. split.
  - assert (G : forall acts x r, exists sched m', exec sched (mkM [x] [false] [(map (IAct 0) acts, r)]) = Some m' /\
      @finished smap (option (list string)) m').
    { induction acts as [|a acts IH]; intros x r.
      - exists [], (mkM [x] [false] [([], r)]). split; [reflexivity|]. constructor; [reflexivity|constructor].
      - destruct (a x r) as [x' r'] eqn:Ea. destruct (IH x' r') as (sched & m' & Es & Fs).
        exists (0 :: sched), m'. split; [|exact Fs]. cbn [exec]. unfold step. cbn [mThreads nth_error map mCells mLocks].
        rewrite Ea. cbn [upd]. exact Es. }
    apply G.
  - intros sched m' Ex Fin. unfold splits_start, note_code in Ex. cbn [map] in Ex.
    apply one_thread in Ex; auto. eexists. split; [exact Ex|]. intros name. cbv zeta.
    rewrite run_notes. cbn [sget]. pose proof (noted_listed show name _ _ F) as G.
    destruct (listed name notes) as [|x l] eqn:El.
    + inversion G. auto.
    + split; [|exact G]. intros Z. rewrite Z in G. inversion G.
Qed.

(** ** Any number of goroutines: a split is never listed more often than it occurs. *)
Definition times (name text : string) (notes : list (string * string)) : nat :=
  length (filter (fun n => String.eqb name (fst n) && String.eqb text (snd n)) notes).
Definition within (D : list (string * string)) (name : string) (l : list string) : Prop :=
  forall text, count_occ string_dec l text <= times name text D.
Definition oget (r : option (list string)) : list string := match r with Some l => l | None => [] end.

Inductive at_work (D : list (string * string)) : list (@instr smap (option (list string))) * option (list string) -> list (string * string) -> Prop :=
| w0 rem r : at_work D (note_code rem, r) rem
| w1 n s rem r : at_work D (IAct 0 (make_list n) :: IAct 0 (look n) :: IAct 0 (store n s) :: note_code rem, r) ((n, s) :: rem)
| w2 n s rem r : at_work D (IAct 0 (look n) :: IAct 0 (store n s) :: note_code rem, r) ((n, s) :: rem)
| w3 n s rem r : within D n (oget r) -> at_work D (IAct 0 (store n s) :: note_code rem, r) ((n, s) :: rem).

Lemma times_app n s D D' : times n s (D ++ D') = times n s D + times n s D'.
Proof. unfold times. rewrite filter_app, app_length. reflexivity. Qed.
Lemma times_perm n s D D' : Permutation D D' -> times n s D = times n s D'.
Proof.
  intros P. unfold times. induction P as [|a l l' _ IH|a b l|l1 l2 l3 _ IH1 _ IH2]; cbn; auto; try congruence.
  - destruct (_ && _); cbn; auto.
  - destruct (_ && _), (_ && _); reflexivity.
Qed.
Lemma within_more D D' n l : within D n l -> within (D ++ D') n l.
Proof. intros H x. specialize (H x). rewrite times_app. lia. Qed.
Lemma at_work_more D D' th rem : at_work D th rem -> at_work (D ++ D') th rem.
Proof. destruct 1; constructor. apply within_more. auto. Qed.

Record sinv (ths : list (list (string * string))) (m : @mach smap (option (list string))) (c : smap)
    (D : list (string * string)) (rems : list (list (string * string))) : Prop := {
  s_cell : mCells m = [c];
  s_in : forall name, within D name (oget (sget name c));
  s_th : Forall2 (at_work D) (mThreads m) rems;
  s_all : Permutation (concat ths) (D ++ concat rems)
}.

Lemma Forall2_upd {A B} (P : A -> B -> Prop) : forall l l' t a b, Forall2 P l l' -> P a b -> Forall2 P (upd l t a) (upd l' t b).
Proof.
  intros l l' t a b H Hab. revert t. induction H; intros [|t]; cbn; constructor; auto.
Qed.
Lemma Forall2_nth {A B} (P : A -> B -> Prop) : forall l l' t a, Forall2 P l l' -> nth_error l t = Some a ->
  exists b, nth_error l' t = Some b /\ P a b.
Proof.
  intros l l' t a H. revert t. induction H; intros [|t] E; cbn in *; try discriminate; eauto.
  inversion E; subst; eauto.
Qed.
Lemma concat_pop {A} : forall (ls : list (list A)) t a l, nth_error ls t = Some (a :: l) ->
  Permutation (concat ls) (a :: concat (upd ls t l)).
Proof.
  induction ls as [|x ls IH]; intros [|t] a l E; cbn in *; try discriminate.
  - inversion E; subst. reflexivity.
  - rewrite (IH _ _ _ E). symmetry. apply Permutation_middle.
Qed.

Lemma sinv_step ths m c D rems t m' : sinv ths m c D rems -> step t m = Some m' ->
  exists c' D' rems', sinv ths m' c' D' rems'.
Proof.
  intros [Ic Ii It Ia] E. unfold step in E. destruct (nth_error (mThreads m) t) as [th|] eqn:Et; [|discriminate].
  destruct (Forall2_nth _ _ _ _ _ It Et) as (rem & Er & W). rewrite Ic in E.
  assert (Same : forall c' th', (forall name, within D name (oget (sget name c'))) -> at_work D th' rem ->
    sinv ths (mkM [c'] (mLocks m) (upd (mThreads m) t th')) c' D rems).
  { intros c' th' H1 H2. split; cbn; auto. pose proof (Forall2_upd _ _ _ t _ _ It H2) as X.
    replace (upd rems t rem) with rems in X; auto. symmetry. apply upd_same. exact Er. }
  inversion W; subst.
  - destruct rem as [|[n s] rem]; [discriminate|]. cbn in E. inversion E; subst m'. exists c, D, rems. apply Same; auto. apply w1.
  - cbn in E. inversion E; subst m'. eexists _, D, rems. apply Same; [|apply w2].
    intros name. destruct r; auto. rewrite sget_sset. destruct (String.eqb name n); auto. intros x. cbn. lia.
  - cbn in E. inversion E; subst m'. exists c, D, rems. apply Same; auto. apply w3. apply Ii.
  - cbn in E. inversion E; subst m'. eexists _, (D ++ [(n, s)]), (upd rems t rem0). split; cbn [mCells mThreads]; [reflexivity| | |].
    + intros name. rewrite sget_sset. destruct (String.eqb_spec name n) as [->|]; [|apply within_more, Ii].
      cbn [oget]. intros x. rewrite times_app, count_occ_app. specialize (H x). fold (oget r). unfold times at 2. cbn [filter fst snd].
      rewrite String.eqb_refl. cbn [andb count_occ]. destruct (string_dec s x) as [->|].
      * rewrite String.eqb_refl. cbn. lia.
      * destruct (String.eqb x s); cbn; lia.
    + apply Forall2_upd; [|apply w0]. clear - It. induction It; constructor; auto. apply at_work_more. auto.
    + rewrite Ia, <- app_assoc. apply Permutation_app_head. cbn [app]. apply concat_pop. exact Er.
Qed.

(** However the goroutines interleave, and at every moment. *)
Theorem C124_nothing_invented : forall ths sched m', exec sched (splits_start ths) = Some m' ->
  exists c, mCells m' = [c] /\ forall name l text, sget name c = Some l ->
    count_occ string_dec l text <= times name text (concat ths).
Proof.
  intros ths sched m' E.
  assert (G : forall m, (exists c D rems, sinv ths m c D rems) -> exec sched m = Some m' -> exists c D rems, sinv ths m' c D rems).
  { clear E. induction sched as [|t sched IH]; intros m I X; cbn in X; [inversion X; subst; auto|].
    destruct (step t m) as [m1|] eqn:Es; [|discriminate]. eapply IH; [|exact X].
    destruct I as (c & D & rems & I). eapply sinv_step; eauto. }
  destruct (G (splits_start ths)) as (c & D & rems & I); [|exact E|].
  - exists [], [], ths. split; cbn; auto.
    + intros name x. cbn. lia.
    + clear. induction ths; constructor; auto. constructor.
  - exists c. split; [apply I|]. intros name l text Hl. pose proof (s_in _ _ _ _ _ I name text) as H.
    rewrite Hl in H. cbn [oget] in H. rewrite (times_perm _ _ _ _ (s_all _ _ _ _ _ I)), times_app. lia.
Qed.

(** ** With two goroutines splits are lost: the list made by the second one replaces the
    list to which the first one has added, or both add to the same list. *)
Definition root_split (f : string) (x : Z) : node := Node (mkNd CNil 0 "" (Some (mkSpl f true (f_of_Z x) []))) newNode newNode Nil.
Definition digit (x : f64) : string := if feqb x f1 then "1" else "2".
Theorem C124_race_refuted : exists t1 t2 n1 n2 sched m' c,
  tree_notes digit (fun _ l => l) [t1] = Ok n1 /\ tree_notes digit (fun _ l => l) [t2] = Ok n2 /\
  exec sched (splits_start [n1; n2]) = Some m' /\ finished m' /\ mCells m' = [c] /\
  map sFeature (splitters t1 ++ splitters t2) = ["f"; "f"] /\ sget "f" c = Some ["2"].
Proof.
  exists (root_split "f" 1), (root_split "f" 2), [("f", "1")], [("f", "2")], [0; 1; 0; 0; 0; 1; 1; 1].
  eexists _, _. split; [vm_compute; reflexivity|]. split; [vm_compute; reflexivity|]. split; [vm_compute; reflexivity|].
  split; [constructor; [reflexivity|constructor; [reflexivity|constructor]]|]. split; [reflexivity|]. split; reflexivity.
Qed.

(** The text does not say what the split is: a category with a comma looks like two. *)
Theorem C124_ambiguous_refuted : exists s1 s2 : splitter, sNumerical s1 = false /\ sNumerical s2 = false /\
  sFeature s1 = sFeature s2 /\ length (sLeft s1) <> length (sLeft s2) /\
  forall show, exists text, describes show s1 text /\ describes show s2 text.
Proof.
  exists (mkSpl "f" false f0 ["a,b"]), (mkSpl "f" false f0 ["a"; "b"]).
  split; [reflexivity|]. split; [reflexivity|]. split; [reflexivity|]. split; [cbn; lia|].
  intros show. exists "a,b". split; [exists ["a,b"]|exists ["a"; "b"]]; split; reflexivity.
Qed.

(** Three trees, one goroutine. *)
Example C124_ex : tree_notes digit (fun _ l => l) [root_split "f" 1; root_split "g" 2; root_split "f" 2] = Ok [("f", "1"); ("g", "2"); ("f", "2")]
  /\ option_map (fun m => mCells m) (exec (repeat 0 12) (splits_start [[("f", "1"); ("g", "2"); ("f", "2")]]))
     = Some [[("f", ["1"; "2"]); ("g", ["2"])]].
Proof. split; vm_compute; reflexivity. Qed.

Print Assumptions C124_splits_recorded_partial.
Print Assumptions C124_nothing_invented.
Print Assumptions C124_race_refuted.
Print Assumptions C124_ambiguous_refuted.
