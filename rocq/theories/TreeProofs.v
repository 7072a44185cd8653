(** Proofs about the traversals of a tree. *)
From Verif Require Import Go GoLemmas F64 ModelFeature ModelSplit SplitSpec SplitProofs ModelTree TreeSpec.
Local Open Scope nat_scope.
Local Open Scope list_scope.

(** * The calls made by Recurse *)

Record ev := mkEv { ePath : path; eNode : node; eDepth : nat; eCases : list nat }.
Definition push (s : dir) (e : ev) : ev := mkEv (s :: ePath e) (eNode e) (eDepth e) (eCases e).

Definition isL (f : feature) (goes : nat -> bool) c := negb (fmissing f c) && goes c.
Definition isR (f : feature) (goes : nat -> bool) c := negb (fmissing f c) && negb (goes c).

Fixpoint expected (fm : fmatrix) (n : node) (cs : list nat) (depth : nat) : list ev :=
  match n with
  | Nil => []
  | Node d l r m =>
      mkEv [] n depth cs ::
      match test_of fm d with
      | None => []
      | Some (f, goes) =>
          map (push DL) (expected fm l (filter (isL f goes) cs) (S depth)) ++
          map (push DR) (expected fm r (filter (isR f goes) cs) (S depth)) ++
          match filter (fmissing f) cs with
          | [] => []
          | ms => map (push DM) (expected fm m ms (S depth))
          end
      end
  end.

Definition esame (a b : ev) : Prop :=
  ePath a = ePath b /\ eNode a = eNode b /\ eDepth a = eDepth b /\ Permutation (eCases a) (eCases b).

Lemma Forall2_map2 {A B C D} (R : C -> D -> Prop) (f : A -> C) (g : B -> D) l l' :
  Forall2 (fun a b => R (f a) (g b)) l l' -> Forall2 R (map f l) (map g l').
Proof. induction 1; cbn; auto. Qed.

Lemma Forall2_weak {A B} (R R' : A -> B -> Prop) l l' :
  (forall a b, R a b -> R' a b) -> Forall2 R l l' -> Forall2 R' l l'.
Proof. intros H; induction 1; auto. Qed.

Lemma Forall2_trans' {A B C} (R : A -> B -> Prop) (Q : B -> C -> Prop) (T : A -> C -> Prop) l l' l'' :
  (forall a b c, R a b -> Q b c -> T a c) ->
  Forall2 R l l' -> Forall2 Q l' l'' -> Forall2 T l l''.
Proof.
  intros H H1; revert l''; induction H1; intros l'' H2; inversion H2; subst; constructor; eauto.
Qed.

Lemma push_same s l l' : Forall2 esame l l' -> Forall2 esame (map (push s) l) (map (push s) l').
Proof.
  intros H; apply Forall2_map2; revert H; apply Forall2_weak.
  intros a b (A & B & C & D); repeat split; cbn; congruence.
Qed.

Lemma expected_perm fm : forall n cs cs' depth,
  Permutation cs cs' -> Forall2 esame (expected fm n cs depth) (expected fm n cs' depth).
Proof.
  induction n as [|d l IHl r IHr m IHm]; intros cs cs' depth P; cbn [expected]; constructor.
  { repeat split; auto. }
  destruct (test_of fm d) as [[f goes]|]; [|constructor].
  apply Forall2_app; [|apply Forall2_app].
  - apply push_same, IHl, Permutation_filter; auto.
  - apply push_same, IHr, Permutation_filter; auto.
  - pose proof (Permutation_filter (fmissing f) P) as PM.
    destruct (filter (fmissing f) cs) as [|x xs].
    + apply Permutation_nil in PM. rewrite PM. constructor.
    + destruct (filter (fmissing f) cs') as [|y ys].
      * apply Permutation_sym, Permutation_nil in PM. discriminate.
      * apply push_same, IHm; auto.
Qed.

(** The fate of the window of a call: its final content. *)
Definition vmatch (v : visit) (e : ev) : Prop :=
  vNode v = eNode e /\ vDepth v = eDepth e /\ Permutation (vCases v) (eCases e).
Definition vterm (v : visit) : bool :=
  match vNode v with Nil => true | Node d _ _ _ => terminal d end.
Definition placed (off : nat) (w : list nat) (v : visit) : Prop :=
  exists a k b, w = a ++ k ++ b /\ Permutation k (vCases v) /\
    vLo v = off + length a /\ vHi v = off + length a + length k /\
    (vterm v = true -> k = vCases v).
Definition vwin (v : visit) := (vLo v, vHi v).
Definition vapart (a b : visit) : Prop := vterm a = true -> vterm b = true -> apart (vwin a) (vwin b).

Lemma placed_ctx off p q w v : placed (off + length p) w v -> placed off (p ++ w ++ q) v.
Proof.
  intros (a & k & b & -> & P & E1 & E2 & T).
  exists (p ++ a), k, (b ++ q). rewrite !app_assoc. rewrite app_length. repeat split; auto; lia.
Qed.

Lemma placed_range off w v : placed off w v -> off <= vLo v /\ vLo v <= vHi v /\ vHi v <= off + length w.
Proof.
  intros (a & k & b & -> & P & E1 & E2 & T). rewrite !app_length. lia.
Qed.

Lemma FOP_app {A} (R : A -> A -> Prop) l l' :
  ForallOrdPairs R l -> ForallOrdPairs R l' -> (forall a b, In a l -> In b l' -> R a b) ->
  ForallOrdPairs R (l ++ l').
Proof.
  induction 1 as [|a l Ha Hl IH]; cbn; intros H' HX; auto.
  constructor.
  - apply Forall_app. split; auto. apply Forall_forall. intros; apply HX; auto.
  - apply IH; auto. 
Qed.

Lemma nd_terminal_test fm d : terminal d = match test_of fm d with None => true | Some _ => false end.
Proof.
  unfold terminal, test_of. destruct (dCode d); cbn; auto. destruct (dSpl d); auto.
Qed.

Lemma column_get fm i : i < length (fmData fm) -> get (fmData fm) i = Ok (column fm i).
Proof. intros H. apply get_default; auto. Qed.

Lemma node_split_ok fm d w : answers fm w d ->
  match test_of fm d with
  | None => node_split fm d w = Ok None
  | Some (f, goes) => exists sr, node_split fm d w = Ok (Some sr) /\ three_way goes (fmissing f) w sr
  end.
Proof.
  unfold answers, test_of, node_split.
  assert (HC : forall code, dFeat d < length (fmData fm) /\ code_fits (column fm (dFeat d)) code /\
            flag_sound (column fm (dFeat d)) /\ Forall (has_case (column fm (dFeat d))) w ->
     exists sr, (let* f := get (fmData fm) (dFeat d) in
                 let* r := fSplit f code w in Ok (Some r)) = Ok (Some sr) /\
       three_way (coded_left (column fm (dFeat d)) code) (fmissing (column fm (dFeat d))) w sr).
  { intros code (Hi & Hc & Hf & Ha). rewrite column_get by auto. cbn [bind].
    destruct (fSplit_ok _ code w Hc Hf Ha) as (cs & ll & lr & r & _ & E & H & _).
    rewrite E. cbn. eauto. }
  destruct (dCode d) as [x|z|z|] eqn:Ec; cbn [isCNil negb]; auto.
  destruct (dSpl d) as [s|]; auto.
  intros (Hi & Hf & Ha). unfold splSplit, fmLookup.
  change (match assoc (sFeature s) (fmMap fm) with Some i => i | None => 0 end)
    with (fmIndex fm (sFeature s)).
  rewrite column_get by auto. cbn [bind].
  destruct (splSplitF_ok (column fm (fmIndex fm (sFeature s))) s w) as (r & E & H); auto.
  rewrite E. cbn. eauto.
Qed.

Lemma answers_incl fm w w' d : incl w' w -> answers fm w d -> answers fm w' d.
Proof.
  intros Hi. unfold answers.
  assert (HF : forall f, Forall (has_case f) w -> Forall (has_case f) w').
  { intros f H. rewrite Forall_forall in *. auto. }
  destruct (dCode d); try (intros (A & B & C & D); auto).
  destruct (dSpl d); auto. intros (A & B & C); auto.
Qed.
Lemma usable_incl fm w w' n : incl w' w -> usable fm w n -> usable fm w' n.
Proof.
  intros Hi. induction n; cbn; auto. intros (A & B & C & D).
  split; [eapply answers_incl; eauto|auto].
Qed.

Lemma foreach_app {A St} (l l' : list A) (body : A -> St -> res St) s :
  foreach (l ++ l') body s = let* s' := foreach l body s in foreach l' body s'.
Proof. revert s; induction l as [|a l IH]; intros s; cbn; auto. destruct (body a s); cbn; auto. Qed.

Lemma bind_assoc {A B C} (m : res A) (f : A -> res B) (g : B -> res C) :
  bind (bind m f) g = bind m (fun x => bind (f x) g).
Proof. destruct m; auto. Qed.

Lemma putwin_mid {A} (pre w post w' : list A) :
  length w' = length w -> putwin (pre ++ w ++ post) (length pre) w' = pre ++ w' ++ post.
Proof.
  intros H. unfold putwin. rewrite firstn_app_exact by auto. f_equal. f_equal.
  rewrite H, app_assoc. apply skipn_app_exact. rewrite app_length; auto.
Qed.

Lemma visits_ok fm : forall n pre w post depth,
  n <> Nil -> well_formed n -> usable fm w n ->
  exists w' vs,
    (forall St (r : visit -> St -> res St) st,
       Recurse r fm n (pre ++ w ++ post) (length pre) (length pre + length w) depth st
       = let* st' := foreach vs r st in Ok (pre ++ w' ++ post, st'))
    /\ Permutation w w'
    /\ Forall2 vmatch vs (expected fm n w depth)
    /\ Forall (placed (length pre) w') vs
    /\ ForallOrdPairs vapart vs.
Proof.
  induction n as [|d l IHl r IHr m IHm]; intros pre w post depth Hn Hwf Hus; [congruence|].
  cbn [well_formed usable] in Hwf, Hus.
  destruct Hwf as (Hch & Wl & Wr & Wm). destruct Hus as (Ha & Ul & Ur & Um).
  pose proof (node_split_ok fm d w Ha) as Hsp.
  pose proof (nd_terminal_test fm d) as Ht.
  set (v0 := mkVisit (Node d l r m) (length pre) (length pre + length w) w depth).
  assert (Hsl : slice (pre ++ w ++ post) (length pre) (length pre + length w) = Ok w)
    by (apply slice_app; auto).
  destruct (test_of fm d) as [[f goes]|] eqn:Et.
  - rewrite Ht in Hch. destruct Hch as [Hl Hr]. destruct Hsp as (sr & Esr & TW).
    set (L := srL sr) in *. set (M := srM sr) in *. set (R := srR sr) in *.
    pose proof (tw_layout _ _ _ _ TW) as Hlay. fold L M R in Hlay.
    pose proof (tw_perm _ _ _ _ TW) as Hperm. rewrite Hlay in Hperm.
    pose proof (Permutation_length Hperm) as Hlen. rewrite !app_length in Hlen.
    assert (Hincl : incl (L ++ M ++ R) w) by (intros x Hx; eapply Permutation_in; [symmetry; exact Hperm|auto]).
    (* left *)
    destruct (IHl pre L (M ++ R ++ post) (S depth)) as (L' & vl & El & PL & FL & QL & OL); auto.
    { eapply usable_incl; [|exact Ul]. intros x Hx. apply Hincl. apply in_or_app; auto. }
    (* right *)
    destruct (IHr (pre ++ L' ++ M) R post (S depth)) as (R' & vr & Er & PR & FR & QR & OR); auto.
    { eapply usable_incl; [|exact Ur]. intros x Hx. apply Hincl. apply in_or_app; right; apply in_or_app; auto. }
    pose proof (Permutation_length PL) as HlL. pose proof (Permutation_length PR) as HlR.
    assert (Hmiss : exists M' vm,
      (forall St (rr : visit -> St -> res St) st,
        (if (0 <? length M) && negb (isNil m)
         then Recurse rr fm m ((pre ++ L') ++ M ++ (R' ++ post)) (length pre + length L)
                (length pre + length L + length M) (S depth) st
         else Ok ((pre ++ L') ++ M ++ (R' ++ post), st))
        = let* st' := foreach vm rr st in Ok ((pre ++ L') ++ M' ++ R' ++ post, st'))
      /\ Permutation M M'
      /\ Forall2 vmatch vm (match M with [] => [] | _ => expected fm m M (S depth) end)
      /\ Forall (placed (length pre + length L) M') vm
      /\ ForallOrdPairs vapart vm).
    { destruct ((0 <? length M) && negb (isNil m)) eqn:Eb.
      - apply andb_true_iff in Eb as [E1 E2]. apply Nat.ltb_lt in E1.
        assert (Hm : m <> Nil) by (intros ->; discriminate).
        destruct (IHm (pre ++ L') M (R' ++ post) (S depth)) as (M' & vm & Em & PM & FM & QM & OM); auto.
        { eapply usable_incl; [|exact Um]. intros x Hx. apply Hincl. apply in_or_app; right; apply in_or_app; auto. }
        rewrite app_length, <- HlL in Em, QM.
        exists M', vm. repeat split; auto.
        destruct M; auto. cbn in E1; lia.
      - exists M, []. split; [|repeat split; auto].
        + reflexivity.
        + destruct M; cbn in Eb; [constructor|]. destruct m; [constructor|discriminate].
        + constructor. }
    destruct Hmiss as (M' & vm & Em & PM & FM & QM & OM).
    pose proof (Permutation_length PM) as HlM.
    exists (L' ++ M' ++ R'), (v0 :: vl ++ vr ++ vm).
    assert (Hplaced : Forall (placed (length pre) (L' ++ M' ++ R')) (vl ++ vr ++ vm)).
    { apply Forall_app; split; [|apply Forall_app; split].
      - eapply Forall_impl; [|exact QL]. intros v Hv.
        apply (placed_ctx (length pre) [] (M' ++ R') L' v). cbn. rewrite Nat.add_0_r. auto.
      - eapply Forall_impl; [|exact QR]. intros v Hv.
        rewrite app_assoc. rewrite <- (app_nil_r R'). apply placed_ctx.
        revert Hv. rewrite !app_length. replace (length L' + length M') with (length L' + length M) by lia.
        rewrite Nat.add_assoc. auto.
      - eapply Forall_impl; [|exact QM]. intros v Hv. apply placed_ctx.
        rewrite <- HlL. auto. }
    split; [|split; [|split; [|split]]].
    + intros St rr st. cbn [Recurse]. rewrite Hsl. cbn [bind foreach]. fold v0.
      destruct (rr v0 st) as [st0| |]; cbn [bind]; auto.
      rewrite Esr. cbn [bind]. fold L M R. rewrite Hlay.
      rewrite putwin_mid by (rewrite !app_length; lia).
      replace (pre ++ (L ++ M ++ R) ++ post) with (pre ++ L ++ (M ++ R ++ post)) by (rewrite !app_assoc; auto).
      rewrite El, foreach_app. rewrite !bind_assoc.
      destruct (foreach vl rr st0) as [st1| |]; cbn [bind]; auto.
      replace (pre ++ L' ++ M ++ R ++ post) with ((pre ++ L' ++ M) ++ R ++ post) by (rewrite !app_assoc; auto).
      replace (length pre + length L + length M) with (length (pre ++ L' ++ M)) by (rewrite !app_length; lia).
      replace (length pre + length w) with (length (pre ++ L' ++ M) + length R) by (rewrite !app_length; lia).
      rewrite Er, foreach_app. rewrite !bind_assoc.
      destruct (foreach vr rr st1) as [st2| |]; cbn [bind]; auto.
      replace ((pre ++ L' ++ M) ++ R' ++ post) with ((pre ++ L') ++ M ++ R' ++ post) by (rewrite !app_assoc; auto).
      replace (length (pre ++ L' ++ M)) with (length pre + length L + length M) by (rewrite !app_length; lia).
      etransitivity; [apply Em|].
      destruct (foreach vm rr st2) as [st3| |]; cbn [bind]; auto. rewrite !app_assoc. auto.
    + rewrite Hperm. apply Permutation_app; auto. apply Permutation_app; auto.
    + cbn [expected]. rewrite Et. constructor. { repeat split; auto. }
      assert (Hmap : forall s vs es, Forall2 vmatch vs es -> Forall2 vmatch vs (map (push s) es)).
      { intros s vs es H. induction H; cbn; constructor; auto. }
      assert (Htr : forall vs es es', Forall2 vmatch vs es -> Forall2 esame es es' -> Forall2 vmatch vs es').
      { intros vs es es'. apply Forall2_trans'. intros a b c (A1 & A2 & A3) (B1 & B2 & B3 & B4).
        repeat split; try congruence. rewrite A3; auto. }
      apply Forall2_app; [|apply Forall2_app].
      * apply Hmap. eapply Htr; [exact FL|]. apply expected_perm. apply (tw_left _ _ _ _ TW).
      * apply Hmap. eapply Htr; [exact FR|]. apply expected_perm. apply (tw_right _ _ _ _ TW).
      * pose proof (tw_missing _ _ _ _ TW) as PMf. fold M in PMf.
        destruct M as [|x xs].
        -- apply Permutation_nil in PMf. rewrite PMf. inversion FM; constructor.
        -- destruct (filter (fmissing f) w) as [|y ys].
           { apply Permutation_sym, Permutation_nil in PMf; discriminate. }
           apply Hmap. eapply Htr; [exact FM|]. apply expected_perm; auto.
    + constructor; auto.
      exists [], (L' ++ M' ++ R'), []. rewrite app_nil_r. cbn [v0 vLo vHi vCases length app].
      repeat split; auto; try (rewrite !app_length; lia).
      * symmetry. rewrite Hperm. apply Permutation_app; auto. apply Permutation_app; auto.
      * unfold vterm. cbn. rewrite Ht. discriminate.
    + constructor.
      * apply Forall_forall. intros v _ H. exfalso. unfold vterm in H. cbn in H. congruence.
      * assert (Hrl : forall v, In v vl -> vHi v <= length pre + length L).
        { intros v Hv. rewrite Forall_forall in QL. apply QL, placed_range in Hv. lia. }
        assert (Hrr : forall v, In v vr -> length pre + length L + length M <= vLo v).
        { intros v Hv. rewrite Forall_forall in QR. apply QR, placed_range in Hv.
          rewrite !app_length in Hv. lia. }
        assert (Hrm : forall v, In v vm -> length pre + length L <= vLo v /\ vHi v <= length pre + length L + length M).
        { intros v Hv. rewrite Forall_forall in QM. apply QM, placed_range in Hv. lia. }
        apply FOP_app; auto; [apply FOP_app; auto|].
        -- intros a b A B _ _. apply Hrr in A. apply Hrm in B. right. cbn. lia.
        -- intros a b A B _ _. apply Hrl in A. apply in_app_or in B as [B|B].
           ++ apply Hrr in B. left. cbn. lia.
           ++ apply Hrm in B. left. cbn. lia.
  - exists w, [v0]. split; [|split; [|split; [|split]]]; auto.
    + intros St rr st. cbn [Recurse]. rewrite Hsl. cbn [bind foreach]. fold v0.
      destruct (rr v0 st) as [st0| |]; cbn [bind]; auto. rewrite Hsp. reflexivity.
    + cbn [expected]. rewrite Et. constructor; [|constructor]. repeat split; auto.
    + constructor; [|constructor]. exists [], w, []. rewrite app_nil_r. cbn. repeat split; auto; lia.
    + constructor; [constructor|constructor].
Qed.

(** * Terminal events and the way of a single case *)

Definition eterm (e : ev) : bool :=
  match eNode e with Nil => true | Node d _ _ _ => terminal d end.

Lemma ends_at_child fm d l r m f goes c q s n' :
  test_of fm d = Some (f, goes) ->
  turn fm d c = Some s -> n' = child (Node d l r m) s ->
  ends_at fm (Node d l r m) (s :: q) c = ends_at fm n' q c.
Proof.
  intros Et Ht ->. unfold ends_at. cbn [follow]. rewrite Ht. 
  destruct s; cbn [child];
    (destruct (follow fm _ c) as [q'|]; cbn [option_map]; auto;
     destruct (path_dec (_ :: q') (_ :: q)), (path_dec q' q); auto; congruence).
Qed.
Lemma ends_at_other fm d l r m f goes c q s s' :
  test_of fm d = Some (f, goes) ->
  turn fm d c = Some s' -> s <> s' ->
  ends_at fm (Node d l r m) (s :: q) c = false.
Proof.
  intros Et Ht Hs. unfold ends_at. cbn [follow]. rewrite Ht.
  destruct s'; 
    (destruct (follow fm _ c) as [q'|]; cbn [option_map]; auto;
     destruct (path_dec (_ :: q') (_ :: q)); auto; congruence).
Qed.

Lemma filter_filter {A} (p q : A -> bool) l : filter p (filter q l) = filter (fun x => q x && p x) l.
Proof. induction l as [|a l IH]; cbn; auto. destruct (q a); cbn; auto; destruct (p a); cbn; congruence. Qed.

Lemma expected_terminal fm : forall n cs depth e,
  In e (expected fm n cs depth) -> eterm e = true ->
  eNode e <> Nil /\ at_path n (ePath e) = eNode e /\
  eDepth e = depth + length (ePath e) /\
  eCases e = filter (ends_at fm n (ePath e)) cs.
Proof.
  induction n as [|d l IHl r IHr m IHm]; intros cs depth e He Ht; [destruct He|].
  cbn [expected] in He. destruct He as [<-|He].
  - cbn in *. repeat split; auto; try lia; try congruence.
    rewrite (nd_terminal_test fm) in Ht. destruct (test_of fm d) eqn:Et; [discriminate|].
    symmetry. apply filter_true. apply Forall_forall. intros c _.
    unfold ends_at. cbn [follow]. unfold turn. rewrite Et. destruct (path_dec [] []); congruence.
  - destruct (test_of fm d) as [[f goes]|] eqn:Et; [|destruct He].
    assert (Hturn : forall c, turn fm d c = Some (if fmissing f c then DM else if goes c then DL else DR)).
    { intros c. unfold turn. rewrite Et. auto. }
    assert (HX : forall s n' (sel : nat -> bool),
       n' = child (Node d l r m) s ->
       (forall c, sel c = if dir_dec s (if fmissing f c then DM else if goes c then DL else DR) then true else false) ->
       forall e0, In e0 (expected fm n' (filter sel cs) (S depth)) -> e = push s e0 ->
       eNode e0 <> Nil /\ at_path n' (ePath e0) = eNode e0 /\ eDepth e0 = S depth + length (ePath e0) /\
         eCases e0 = filter (ends_at fm n' (ePath e0)) (filter sel cs) ->
       eNode e <> Nil /\ at_path (Node d l r m) (ePath e) = eNode e /\
       eDepth e = depth + length (ePath e) /\
       eCases e = filter (ends_at fm (Node d l r m) (ePath e)) cs).
    { intros s n' sel Hn' Hsel e0 Hin -> (A & B & C & D).
      cbn [push ePath eNode eCases eDepth at_path length]. rewrite <- Hn'.
      repeat split; auto; try lia.
      rewrite D, filter_filter. apply filter_ext. intros c. rewrite Hsel.
      destruct (dir_dec s _) as [Es|Es]; cbn [andb].
      - symmetry. eapply ends_at_child; eauto. rewrite Hturn. congruence.
      - symmetry. eapply ends_at_other; eauto. }
    apply in_app_or in He as [He|He]; [|apply in_app_or in He as [He|He]].
    + apply in_map_iff in He as (e0 & <- & Hin).
      eapply (HX DL); [reflexivity| |exact Hin|reflexivity|].
      * intros c. unfold isL. destruct (fmissing f c), (goes c); reflexivity.
      * apply IHl; auto.
    + apply in_map_iff in He as (e0 & <- & Hin).
      eapply (HX DR); [reflexivity| |exact Hin|reflexivity|].
      * intros c. unfold isR. destruct (fmissing f c), (goes c); reflexivity.
      * apply IHr; auto.
    + assert (He' : In e (map (push DM) (expected fm m (filter (fmissing f) cs) (S depth)))).
      { destruct (filter (fmissing f) cs); [destruct He|exact He]. }
      apply in_map_iff in He' as (e0 & <- & Hin).
      eapply (HX DM); [reflexivity| |exact Hin|reflexivity|].
      * intros c. destruct (fmissing f c), (goes c); reflexivity.
      * apply IHm; auto.
Qed.

Lemma expected_path fm : forall n cs depth e,
  In e (expected fm n cs depth) -> at_path n (ePath e) = eNode e /\ eNode e <> Nil.
Proof.
  induction n as [|d l IHl r IHr m IHm]; intros cs depth e He; [destruct He|].
  cbn [expected] in He. destruct He as [<-|He]; [cbn; split; congruence|].
  destruct (test_of fm d) as [[f goes]|] eqn:Et; [|destruct He].
  apply in_app_or in He as [He|He]; [|apply in_app_or in He as [He|He]].
  - apply in_map_iff in He as (e0 & <- & Hin). cbn. eapply IHl; eauto.
  - apply in_map_iff in He as (e0 & <- & Hin). cbn. eapply IHr; eauto.
  - destruct (filter (fmissing f) cs) eqn:EM; [destruct He|].
    apply in_map_iff in He as (e0 & <- & Hin). cbn. eapply IHm; eauto.
Qed.

Lemma expected_paths_nodup fm : forall n cs depth, NoDup (map ePath (expected fm n cs depth)).
Proof.
  induction n as [|d l IHl r IHr m IHm]; intros cs depth; cbn [expected]; [constructor|].
  cbn [map]. constructor.
  - destruct (test_of fm d) as [[f goes]|]; [|intros []].
    rewrite !map_app, !map_map. cbn [push ePath].
    intros H. apply in_app_or in H as [H|H]; [|apply in_app_or in H as [H|H]].
    + apply in_map_iff in H as (x & E & _). discriminate.
    + apply in_map_iff in H as (x & E & _). discriminate.
    + destruct (filter (fmissing f) cs); [destruct H|].
      rewrite map_map in H. apply in_map_iff in H as (x & E & _). discriminate.
  - destruct (test_of fm d) as [[f goes]|]; [|constructor].
    assert (HP : forall s l, map ePath (map (push s) l) = map (cons s) (map ePath l)).
    { intros s l0. rewrite !map_map. reflexivity. }
    assert (HN : forall s (l : list path), NoDup l -> NoDup (map (cons s) l)).
    { intros s l0 H. apply FinFun.Injective_map_NoDup; auto. intros a b E; congruence. }
    rewrite !map_app.
    assert (HPm : map ePath match filter (fmissing f) cs with
                    | [] => [] | _ :: _ => map (push DM) (expected fm m (filter (fmissing f) cs) (S depth)) end
                  = map (cons DM) (match filter (fmissing f) cs with
                    | [] => [] | _ :: _ => map ePath (expected fm m (filter (fmissing f) cs) (S depth)) end)).
    { destruct (filter (fmissing f) cs); auto. }
    match goal with |- NoDup (_ ++ _ ++ ?x) => 
      replace x with (map (cons DM) (match filter (fmissing f) cs with
                    | [] => [] | _ :: _ => map ePath (expected fm m (filter (fmissing f) cs) (S depth)) end)) end.
    2:{ rewrite <- HPm. destruct (filter (fmissing f) cs); auto. }
    rewrite !HP.
    assert (HD : forall s s' (l l' : list path), s <> s' -> NoDup l' ->
               NoDup (map (cons s) l) -> NoDup l' -> (forall x, In x l' -> hd s' x <> s) ->
               NoDup (map (cons s) l ++ l')).
    { intros s s' l0 l' Hs H1 H2 H3 H4. induction l0 as [|a l0 IH]; cbn; auto.
      cbn in H2. inversion H2; subst. constructor; auto.
      intros H. apply in_app_or in H as [H|H]; auto. apply H4 in H. cbn in H. congruence. }
    assert (NM : NoDup (map (cons DM) (match filter (fmissing f) cs with
                    | [] => [] | _ :: _ => map ePath (expected fm m (filter (fmissing f) cs) (S depth)) end))).
    { apply HN. destruct (filter (fmissing f) cs); [constructor|apply IHm]. }
    assert (NR : NoDup (map (cons DR) (map ePath (expected fm r (filter (isR f goes) cs) (S depth))) ++
                        map (cons DM) (match filter (fmissing f) cs with
                    | [] => [] | _ :: _ => map ePath (expected fm m (filter (fmissing f) cs) (S depth)) end))).
    { apply (HD DR DM); auto; try congruence. intros x Hx. apply in_map_iff in Hx as (y & <- & _). cbn. congruence. }
    apply (HD DL DM); auto; try congruence.
    intros x Hx. apply in_app_or in Hx as [Hx|Hx]; apply in_map_iff in Hx as (y & <- & _); cbn; congruence.
Qed.

Lemma follow_expected fm : forall n cs depth c p,
  In c cs -> follow fm n c = Some p ->
  exists e, In e (expected fm n cs depth) /\ eterm e = true /\ ePath e = p.
Proof.
  induction n as [|d l IHl r IHr m IHm]; intros cs depth c p Hc Hp; cbn [follow] in Hp; [discriminate|].
  unfold turn in Hp. cbn [expected].
  destruct (test_of fm d) as [[f goes]|] eqn:Et.
  - assert (Hgo : forall s n' cs', In c cs' -> option_map (cons s) (follow fm n' c) = Some p ->
       (forall cs depth c p, In c cs -> follow fm n' c = Some p ->
          exists e, In e (expected fm n' cs depth) /\ eterm e = true /\ ePath e = p) ->
       exists e, In e (map (push s) (expected fm n' cs' (S depth))) /\ eterm e = true /\ ePath e = p).
    { intros s n' cs' Hin E IH. destruct (follow fm n' c) as [q|] eqn:Eq; [|discriminate].
      cbn in E. inversion E; subst.
      destruct (IH cs' (S depth) c q Hin Eq) as (e & A & B & C).
      exists (push s e). split; [apply in_map; auto|]. split; auto. cbn. congruence. }
    destruct (fmissing f c) eqn:Em; [|destruct (goes c) eqn:Eg].
    + assert (HM : In c (filter (fmissing f) cs)) by (apply filter_In; auto).
      destruct (Hgo DM m (filter (fmissing f) cs)) as (e & A & B & C); auto.
      exists e. split; auto. right. apply in_or_app. right. apply in_or_app. right.
      destruct (filter (fmissing f) cs); [destruct HM|exact A].
    + assert (HM : In c (filter (isL f goes) cs)).
      { apply filter_In; split; auto. unfold isL. rewrite Em, Eg; auto. }
      destruct (Hgo DL l (filter (isL f goes) cs)) as (e & A & B & C); auto.
      exists e. split; auto. right. apply in_or_app; auto.
    + assert (HM : In c (filter (isR f goes) cs)).
      { apply filter_In; split; auto. unfold isR. rewrite Em, Eg; auto. }
      destruct (Hgo DR r (filter (isR f goes) cs)) as (e & A & B & C); auto.
      exists e. split; auto. right. apply in_or_app. right. apply in_or_app; auto.
  - inversion Hp; subst. eexists. split; [left; reflexivity|]. cbn. split; auto.
    rewrite (nd_terminal_test fm), Et. auto.
Qed.

(** Nodes through which a case passes: the route is the list of events holding it. *)
Definition node_nd (n : node) : nd := match n with Node d _ _ _ => d | Nil => mkNd CNil 0 EmptyString None end.
Definition occ (c : nat) (l : list nat) : nat := length (filter (Nat.eqb c) l).

Lemma occ_filter c sel l : occ c (filter sel l) = if sel c then occ c l else 0.
Proof.
  unfold occ. rewrite filter_filter. induction l as [|a l IH]; cbn; [destruct (sel c); auto|].
  destruct (Nat.eqb c a) eqn:E.
  - apply Nat.eqb_eq in E; subst. destruct (sel a); cbn; auto.
  - rewrite andb_false_r. auto.
Qed.

(** The contribution of all events to a case: once per node on its route for
    every occurrence in the list. *)
Lemma expected_route fm (g : nd -> nat) : forall n cs depth c,
  list_sum (map (fun e => g (node_nd (eNode e)) * occ c (eCases e)) (expected fm n cs depth))
  = list_sum (map g (route fm n c)) * occ c cs.
Proof.
  assert (LS : forall l l', list_sum (l ++ l') = list_sum l + list_sum l').
  { intros l l'. unfold list_sum. rewrite fold_right_app. induction l; cbn; lia. }
  induction n as [|d l IHl r IHr m IHm]; intros cs depth c; cbn [expected route map list_sum]; auto.
  change (list_sum (?a :: ?b)) with (a + list_sum b). cbn [eNode eCases node_nd].
  unfold turn. destruct (test_of fm d) as [[f goes]|].
  - rewrite !map_app, !LS, !map_map.
    set (G := fun e => g (node_nd (eNode e)) * occ c (eCases e)) in *.
    change (fun x => g (node_nd (eNode (push DL x))) * occ c (eCases (push DL x))) with G.
    change (fun x => g (node_nd (eNode (push DR x))) * occ c (eCases (push DR x))) with G.
    assert (HMM : list_sum (map G (match filter (fmissing f) cs with
                 | [] => [] | _ :: _ => map (push DM) (expected fm m (filter (fmissing f) cs) (S depth)) end))
                 = list_sum (map g (route fm m c)) * occ c (filter (fmissing f) cs)).
    { destruct (filter (fmissing f) cs) as [|x xs] eqn:E.
      - cbn. unfold occ; cbn. lia.
      - rewrite map_map. change (fun x => G (push DM x)) with G. apply IHm. }
    match goal with |- _ + (_ + (_ + ?x)) = _ => 
       replace x with (list_sum (map g (route fm m c)) * occ c (filter (fmissing f) cs)) end.
    2:{ rewrite <- HMM. destruct (filter (fmissing f) cs); auto. }
    unfold G. rewrite IHl, IHr. rewrite !occ_filter. unfold isL, isR.
    destruct (fmissing f c), (goes c); cbn [negb andb]; lia.
  - cbn. lia.
Qed.

Lemma at_path_wf : forall p n, well_formed n -> well_formed (at_path n p).
Proof.
  induction p as [|s p IH]; intros n H; cbn; auto. apply IH.
  destruct n as [|d l r m]; cbn; auto. destruct H as (_ & A & B & C). destruct s; auto.
Qed.

Lemma isLeaf_wf n : n <> Nil -> well_formed n ->
  isLeaf n = Ok (match n with Nil => true | Node d _ _ _ => terminal d end).
Proof.
  destruct n as [|d l r m]; [congruence|]. cbn. intros _ (H & _).
  destruct (terminal d); destruct H as [A B]; subst; auto.
  destruct l; [congruence|]; auto.
Qed.

Lemma Forall2_filter2 {A B} (R : A -> B -> Prop) p q l l' :
  (forall a b, R a b -> p a = q b) -> Forall2 R l l' -> Forall2 R (filter p l) (filter q l').
Proof.
  intros H; induction 1 as [|a b l l' Hab Hl IH]; cbn; auto.
  rewrite (H _ _ Hab). destruct (q b); auto.
Qed.

Lemma Forall2_In_l {A B} (R : A -> B -> Prop) l l' a :
  Forall2 R l l' -> In a l -> exists b, In b l' /\ R a b.
Proof. induction 1; intros []; subst; [eexists; split; [left; reflexivity|auto]|].
  destruct IHForall2 as (b & ? & ?); auto. exists b; split; auto. right; auto. Qed.

Lemma FOP_filter {A} (R : A -> A -> Prop) p l : ForallOrdPairs R l -> ForallOrdPairs R (filter p l).
Proof.
  induction 1 as [|a l Ha Hl IH]; cbn; [constructor|]. destruct (p a); auto. constructor; auto.
  rewrite Forall_forall in *. intros x Hx. apply filter_In in Hx as [Hx _]. auto.
Qed.

Lemma vmatch_term v e : vmatch v e -> vterm v = eterm e.
Proof. intros (A & B & C). unfold vterm, eterm. rewrite A. auto. Qed.

(** The terminal calls in one place. *)
Lemma traversal fm n w : n <> Nil -> well_formed n -> usable fm w n ->
  exists w' vs,
    (forall St (r : visit -> St -> res St) st,
       Recurse r fm n w 0 (length w) 0 st = let* st' := foreach vs r st in Ok (w', st'))
    /\ Permutation w w'
    /\ Forall2 vmatch vs (expected fm n w 0)
    /\ Forall (fun v => isLeaf (vNode v) = Ok (vterm v)) vs
    /\ let lv := filter vterm vs in
       ForallOrdPairs apart (map vwin lv)
       /\ exists paths, NoDup paths
          /\ Forall2 (fun p v =>
               (exists d m, at_path n p = Node d Nil Nil m /\ terminal d = true /\ node_pred (vNode v) = dPred d)
               /\ slice w' (vLo v) (vHi v) = Ok (vCases v)
               /\ Permutation (vCases v) (filter (ends_at fm n p) w)) paths lv
          /\ forall c p, In c w -> follow fm n c = Some p -> In p paths.
Proof.
  intros Hn Hwf Hus.
  destruct (visits_ok fm n [] w [] 0 Hn Hwf Hus) as (w' & vs & E & P & F & Q & O).
  exists w', vs. cbn [app length] in *.
  assert (HL : Forall (fun v => isLeaf (vNode v) = Ok (vterm v)) vs).
  { apply Forall_forall. intros v Hv. destruct (Forall2_In_l _ _ _ v F Hv) as (e & He & M).
    apply expected_path in He as [A B]. destruct M as (M & _). unfold vterm. rewrite M.
    apply isLeaf_wf; auto. rewrite <- A. apply at_path_wf; auto. }
  split; [|split; [|split; [|split]]]; auto.
  { intros St r st. specialize (E St r st). rewrite !app_nil_r in E. exact E. }
  cbv zeta. split.
  - apply (FOP_filter _ vterm) in O. 
    assert (HT : Forall (fun v => vterm v = true) (filter vterm vs)).
    { apply Forall_forall. intros v Hv. apply filter_In in Hv. tauto. }
    revert O HT. generalize (filter vterm vs) as l. induction l as [|a l IH]; cbn; intros O HT; [constructor|].
    inversion O as [|? ? Ho Ol]; subst. inversion HT as [|? ? Ht Hl]; subst. constructor; auto.
    apply Forall_forall. intros x Hx. apply in_map_iff in Hx as (b & <- & Hb).
    rewrite Forall_forall in Ho. apply Ho; auto. rewrite Forall_forall in Hl; auto.
  - exists (map ePath (filter eterm (expected fm n w 0))). split; [|split].
    + pose proof (expected_paths_nodup fm n w 0) as ND. revert ND.
      generalize (expected fm n w 0) as l. induction l as [|a l IH]; cbn; intros ND; auto.
      inversion ND as [|? ? H1 H2]; subst. destruct (eterm a); cbn; auto. constructor; auto.
      intros Hi. apply H1. apply in_map_iff in Hi as (x & <- & Hx). apply filter_In in Hx as [Hx _].
      apply in_map; auto.
    + assert (F' : Forall2 (fun e v => In e (expected fm n w 0) /\ In v vs /\ vmatch v e) (expected fm n w 0) vs).
      { clear - F. assert (forall l l' vs es, incl l vs -> incl l' es -> Forall2 vmatch l l' ->
          Forall2 (fun e v => In e es /\ In v vs /\ vmatch v e) l' l) as G.
        { intros l l' vs0 es I1 I2 H. induction H; constructor.
          - split; [|split]; auto; [apply I2|apply I1]; left; auto.
          - apply IHForall2; intros z Hz; [apply I1|apply I2]; right; auto. }
        apply G; auto; apply incl_refl. }
      apply (Forall2_filter2 _ eterm vterm) in F'.
      2:{ intros e v (_ & _ & M). symmetry. apply vmatch_term; auto. }
      assert (G : Forall2 (fun e v => (In e (expected fm n w 0) /\ In v vs /\ vmatch v e) /\ eterm e = true)
                 (filter eterm (expected fm n w 0)) (filter vterm vs)).
      { revert F'. assert (HT : Forall (fun e => eterm e = true) (filter eterm (expected fm n w 0))).
        { apply Forall_forall. intros e He. apply filter_In in He. tauto. }
        revert HT. generalize (filter eterm (expected fm n w 0)) as l. generalize (filter vterm vs) as l'.
        intros l' l HT H. induction H; inversion HT; subst; constructor; auto. }
      clear F'. revert G. generalize (filter eterm (expected fm n w 0)) as l. generalize (filter vterm vs) as l'.
      intros l' l G. induction G as [|e v l l' ((He & Hv & M) & Ht) G IH]; cbn; constructor; auto.
      destruct (expected_terminal fm n w 0 e He Ht) as (A & B & C & D).
      destruct M as (M1 & M2 & M3).
      split; [|split].
      * pose proof (at_path_wf (ePath e) n Hwf) as W. rewrite B in W |- *.
        unfold eterm in Ht. rewrite M1. destruct (eNode e) as [|d l0 r0 m0]; [congruence|].
        destruct W as (W & _). rewrite Ht in W. destruct W; subst. exists d, m0. auto.
      * rewrite Forall_forall in Q. destruct (Q v Hv) as (a & k & b & -> & Pk & E1 & E2 & Tk).
        assert (Hvt : vterm v = true) by (rewrite (vmatch_term v e); auto; repeat split; auto).
        rewrite (Tk Hvt) in *. apply slice_app; lia.
      * rewrite M3, D. auto.
    + intros c p Hc Hp. destruct (follow_expected fm n w 0 c p Hc Hp) as (e & A & B & <-).
      apply in_map. apply filter_In; auto.
Qed.

Lemma follow_at fm : forall n c p, follow fm n c = Some p -> at_path n p <> Nil.
Proof.
  induction n as [|d l IHl r IHr m IHm]; intros c p; cbn [follow]; [discriminate|].
  destruct (turn fm d c) as [[]|];
    [destruct (follow fm l c) eqn:E| destruct (follow fm r c) eqn:E|destruct (follow fm m c) eqn:E|];
    cbn; intros H; inversion H; subst; cbn; eauto. congruence.
Qed.

(** Summing over the paths of the leaves. *)
Lemma flat_map_insert {A B} (dec : forall a b : A, {a = b} + {a <> b}) (X : A -> list B) (x : A) (b : B) l :
  NoDup l -> In x l ->
  Permutation (flat_map (fun a => if dec x a then b :: X a else X a) l) (b :: flat_map X l).
Proof.
  induction 1 as [|a l Ha ND IH]; intros []; subst; cbn.
  - destruct (dec x x); [|congruence]. cbn. constructor. apply Permutation_app; auto.
    rewrite !flat_map_concat_map. erewrite map_ext_in; [reflexivity|]. intros y Hy. cbn.
    destruct (dec x y); auto. subst. contradiction.
  - destruct (dec x a); [subst; contradiction|]. 
    rewrite IH by auto. symmetry. apply Permutation_middle.
Qed.

Lemma by_paths {B} fm n (k : path -> nat -> B) paths : NoDup paths -> forall w,
  (forall c p, In c w -> follow fm n c = Some p -> In p paths) ->
  Permutation (flat_map (fun p => map (k p) (filter (ends_at fm n p) w)) paths)
              (flat_map (fun c => match follow fm n c with Some p => [k p c] | None => [] end) w).
Proof.
  intros ND. induction w as [|c w IH]; intros Hc; cbn [flat_map filter].
  - cbn. clear. induction paths; cbn; auto.
  - destruct (follow fm n c) as [q|] eqn:Eq.
    + assert (Hq : In q paths) by (apply (Hc c); auto; left; auto).
      etransitivity; [|cbn; constructor; apply IH; intros; eapply Hc; eauto; right; auto].
      rewrite <- (flat_map_insert path_dec _ q (k q c) paths ND Hq).
      rewrite !flat_map_concat_map. apply Permutation_refl'. f_equal. apply map_ext. intros p.
      unfold ends_at at 1. rewrite Eq. destruct (path_dec q p) as [E|E]; cbn; subst; auto.
    + etransitivity; [|apply IH; intros; eapply Hc; eauto; right; auto].
      rewrite !flat_map_concat_map. apply Permutation_refl'. f_equal. apply map_ext. intros p.
      unfold ends_at at 1. rewrite Eq. auto.
Qed.

Lemma no_leaf fm : forall n c, n <> Nil -> well_formed n ->
  follow fm n c = None <->
  exists p d l r, passes fm n c p /\ at_path n p = Node d l r Nil /\ turn fm d c = Some DM.
Proof.
  induction n as [|d l IHl r IHr m IHm]; intros c Hn Hwf; [congruence|].
  cbn [well_formed] in Hwf. destruct Hwf as (Hch & Wl & Wr & Wm).
  rewrite (nd_terminal_test fm) in Hch. cbn [follow].
  assert (HD : forall s n', n' = child (Node d l r m) s -> turn fm d c = Some s ->
     (s = DM -> m <> Nil) ->
     (follow fm n' c = None <-> exists p d l r, passes fm n' c p /\ at_path n' p = Node d l r Nil /\ turn fm d c = Some DM) ->
     option_map (cons s) (follow fm n' c) = None <->
     exists p d0 l0 r0, passes fm (Node d l r m) c p /\ at_path (Node d l r m) p = Node d0 l0 r0 Nil /\ turn fm d0 c = Some DM).
  { intros s n' -> Ht Hs IH. split.
    - intros H. destruct (follow fm (child (Node d l r m) s) c) eqn:E; [discriminate|].
      destruct (proj1 IH eq_refl) as (p & d0 & l0 & r0 & A & B & C).
      exists (s :: p), d0, l0, r0. cbn [passes at_path]. auto.
    - intros (p & d0 & l0 & r0 & A & B & C). destruct p as [|s' p].
      + cbn in B. inversion B; subst. rewrite Ht in C. inversion C; subst. exfalso; apply Hs; auto.
      + cbn [passes at_path] in A, B. destruct A as [A1 A2]. rewrite Ht in A1. inversion A1; subst.
        rewrite (proj2 IH); [reflexivity|]. exists p, d0, l0, r0; auto. }
  pose proof (fun s n' => HD s n') as HD'.
  destruct (turn fm d c) as [s|] eqn:Et.
  - assert (Htest : exists f goes, test_of fm d = Some (f, goes)).
    { unfold turn in Et. destruct (test_of fm d) as [[f goes]|]; eauto. discriminate. }
    destruct Htest as (f & goes & Etest). rewrite Etest in Hch. destruct Hch as [Nl Nr].
    destruct s.
    + apply (HD DL l); auto. congruence.
    + apply (HD DR r); auto. congruence.
    + destruct m as [|dm lm rm mm].
      * cbn. split; auto. intros _. exists [], d, l, r. cbn. auto.
      * apply (HD DM); auto; try (intros; congruence). apply IHm; auto. congruence.
  - split; [discriminate|]. intros (p & d0 & l0 & r0 & A & B & C). exfalso.
    destruct p as [|s p].
    + cbn in B. inversion B; subst. congruence.
    + destruct A as [A _]. congruence.
Qed.
