(** C140: several forests in one file. *)
From Verif Require Import Go GoLemmas F64 ModelFeature ModelSplit ModelTree TreeSpec TreeProofs PropTree2 ModelText TextProofs ModelFile FileSpec FileProofs FileProofs2 PropFile.
Local Open Scope string_scope.
Local Open Scope nat_scope.
Local Open Scope list_scope.

(** Calling ReadForest on one reader until it answers with io.EOF. *)
Inductive reads_all (PF : bytes -> option f64) : bytes -> list rforest -> Prop :=
| all_read : forall input rest, ReadForest PF input = Ok (None, EEof, rest) -> reads_all PF input []
| next_read : forall input r rest rs, ReadForest PF input = Ok (Some r, ENone, rest) -> reads_all PF rest rs -> reads_all PF input (r :: rs).
Lemma reads_all_once PF input rs rs' : reads_all PF input rs -> reads_all PF input rs' -> rs = rs'.
Proof.
  intros H. revert rs'. induction H as [input rest E|input r rest rs E H IH]; intros rs' H'; inversion H'; subst; try congruence.
  f_equal; [congruence|]. apply IH. match goal with X : ReadForest _ _ = Ok (Some _, _, ?a), Y : reads_all _ ?a _ |- _ => rewrite E in X; inversion X; subst; exact Y end.
Qed.

(** A forest that came back from a file. *)
Definition forest_back (r : rforest) (f : wforest) : Prop :=
  rfTarget r = wfTarget f /\
  (rfIntercept r = wfIntercept f \/ feqb (wfIntercept f) f0 = true /\ rfIntercept r = f0) /\
  Forall2 (fun r t => same_tree r t (wtRoot t)) (rfTrees r) (wfTrees f).
(** Trees that files keep. *)
Definition kept (t : wtree) : Prop := weight_ok (wtWeight t) /\ no_missing_branch (wtRoot t) /\ leaves_bare (wtRoot t).

Section Stream.
  Variable fmtF : f64 -> bytes.
  Variable itoa : nat -> bytes.
  Variable ord : nat -> bytes -> list string -> list string.
  Variable PF : bytes -> option f64.
  Hypothesis Hord : forall i p l, Permutation (ord i p l) l.
  Hypothesis Hnum : numbers_ok fmtF PF itoa.

  Notation tout := (tree_out fmtF itoa ord).
  Definition outs (ps : list (nat * wtree)) : bytes := concat (map (fun '((i, t) : nat * wtree) => tout i t) ps).
  Definition next_forest (rest : bytes) : Prop := rest = [] \/ exists s, rest = "F"%char :: s.
  Lemma outs_next ps rest : next_forest rest -> starts_next (outs ps ++ rest).
  Proof.
    intros H. destruct ps as [|[i t] ps].
    - cbn. destruct H as [-> |(s & ->)]; [left; auto|right; eauto 6].
    - right. unfold outs, tree_out, WriteTreeHeader. cbn. eexists. eexists. split; [reflexivity|]. auto.
  Qed.
  Lemma trees_numbered : forall ts i, trees_out fmtF itoa ord i ts = outs (combine (seq i (length ts)) ts).
  Proof. induction ts as [|t ts IH]; intros i; auto. cbn [trees_out length seq combine]. rewrite IH. reflexivity. Qed.
  Lemma outs_length ps : length ps <= length (outs ps).
  Proof.
    induction ps as [|[i t] ps IH]; auto. unfold outs in *. cbn [map concat length]. rewrite app_length.
    apply (Nat.add_le_mono 1 _ (length ps) _); [|apply IH]. unfold tree_out, WriteTreeHeader. cbn. lia.
  Qed.

  (** Trees up to the next header, once a forest is begun. *)
  Lemma reads_more : forall ps rest F f, next_forest rest -> ps <> [] \/ rest <> [] -> Forall (fun p => tree_ok (snd p)) ps -> length ps < f ->
    exists rs, Forall2 tree_read rs (map snd ps) /\
      loop f (forest_step PF) (outs ps ++ rest, Some F) = Ok (Some (mkRF (rfTarget F) (rfIntercept F) (rfTrees F ++ rs)), ENone, rest).
  Proof.
    induction ps as [|[i t] ps IH]; intros rest F f Hr Hn H Hf.
    - destruct Hn as [Hn|Hn]; [congruence|]. destruct Hr as [-> |(s & ->)]; [congruence|]. destruct f as [|f]; [cbn in Hf; lia|].
      exists []. split; [constructor|]. apply loop_done. rewrite app_nil_r. destruct F; reflexivity.
    - inversion H as [|? ? Ht Hts]; subst. cbn [snd] in Ht.
      destruct (reads_tree fmtF itoa ord PF Hord Hnum i t (outs ps ++ rest) Ht (outs_next ps rest Hr)) as (h & H1 & H2 & H3).
      set (rt := mkRT h (Some 0) (wtTarget t) (read_weight (wtWeight t))) in *.
      assert (Hrt : tree_read rt t) by (repeat split; auto; apply H2).
      destruct f as [|f]; [cbn in Hf; lia|].
      assert (Es : forest_step PF (outs ((i, t) :: ps) ++ rest, Some F) =
        match end_of (outs ps ++ rest) with
        | ENone => Ok (Next (outs ps ++ rest, Some (add_tree F rt)))
        | _ => Ok (Done (Some (add_tree F rt), ENone, outs ps ++ rest))
        end).
      { unfold forest_step. replace (outs ((i, t) :: ps) ++ rest) with (tout i t ++ outs ps ++ rest) by (unfold outs; cbn [map concat]; rewrite app_assoc; reflexivity).
        assert (E : ReadTree PF (tout i t ++ outs ps ++ rest) = Ok (Some rt, None, end_of (outs ps ++ rest), outs ps ++ rest)).
        { unfold ReadTree. apply H3. rewrite app_length. lia. }
        rewrite E. unfold tree_out at 1, WriteTreeHeader at 1. cbn [B list_ascii_of_string app].
        destruct (end_of (outs ps ++ rest)); reflexivity. }
      cbn [loop]. rewrite Es. destruct (outs ps ++ rest) as [|c s] eqn:Eo.
      + apply app_eq_nil in Eo as [Eo ->]. destruct ps as [|[j u] ps]; [|unfold outs, tree_out, WriteTreeHeader in Eo; discriminate].
        exists [rt]. split; [constructor; auto|]. reflexivity.
      + cbn [end_of bind]. rewrite <- Eo. destruct (IH rest (add_tree F rt) f) as (rs & R1 & R2); auto; [|cbn in *; lia|].
        { destruct ps; [right; intros ->; discriminate|left; discriminate]. }
        exists (rt :: rs). split; [constructor; auto|]. rewrite R2. cbn [add_tree rfTrees rfTarget rfIntercept]. rewrite <- app_assoc. reflexivity.
  Qed.

  (** The first tree begins the forest; [start] is what is in front of it: nothing, or lines
      that end with the header of [F0]. *)
  Lemma reads_start start F0 fo i t ps rest :
    (start = [] /\ fo = None /\ F0 = mkRF (wtTarget t) f0 [] \/
     exists s, start = "F"%char :: s /\ fo = Some F0) ->
    (forall x f r, loop f (read_step PF) (x, false, None, fo) = Ok r -> exists f', f' <= length start + f /\ loop f' (read_step PF) (start ++ x, false, None, None) = Ok r) ->
    next_forest rest -> Forall (fun p => tree_ok (snd p)) ((i, t) :: ps) ->
    exists rs, Forall2 tree_read rs (map snd ((i, t) :: ps)) /\
      ReadForest PF (start ++ outs ((i, t) :: ps) ++ rest) = Ok (Some (mkRF (rfTarget F0) (rfIntercept F0) (rfTrees F0 ++ rs)), ENone, rest).
  Proof.
    intros Hs Hstart Hr H. inversion H as [|? ? Ht Hts]; subst. cbn [snd] in Ht.
    destruct (reads_tree fmtF itoa ord PF Hord Hnum i t (outs ps ++ rest) Ht (outs_next ps rest Hr)) as (h & H1 & H2 & H3).
    set (rt := mkRT h (Some 0) (wtTarget t) (read_weight (wtWeight t))) in *.
    assert (Hrt : tree_read rt t) by (repeat split; auto; apply H2).
    assert (Eq : start ++ outs ((i, t) :: ps) ++ rest = start ++ tout i t ++ outs ps ++ rest) by (unfold outs; cbn [map concat]; rewrite <- !app_assoc; reflexivity).
    rewrite Eq.
    assert (E : ReadTree PF (start ++ tout i t ++ outs ps ++ rest) = Ok (Some rt, fo, end_of (outs ps ++ rest), outs ps ++ rest)).
    { unfold ReadTree. destruct (Hstart _ _ _ (H3 fo (S (length (tout i t))) ltac:(lia))) as (f' & L & E). eapply loop_more; [|exact E]. rewrite !app_length. lia. }
    assert (Es : forest_step PF (start ++ tout i t ++ outs ps ++ rest, None) =
        match end_of (outs ps ++ rest) with
        | ENone => Ok (Next (outs ps ++ rest, Some (add_tree F0 rt)))
        | _ => Ok (Done (Some (add_tree F0 rt), ENone, outs ps ++ rest))
        end).
    { unfold forest_step. rewrite E. destruct Hs as [(-> & -> & ->)|(s & -> & ->)].
      - unfold tree_out at 1, WriteTreeHeader at 1. cbn [B list_ascii_of_string app Ascii.eqb Bool.eqb andb bind]. destruct (end_of (outs ps ++ rest)); reflexivity.
      - cbn [app]. destruct (end_of (outs ps ++ rest)); reflexivity. }
    assert (ER : ReadForest PF (start ++ tout i t ++ outs ps ++ rest) =
                 loop (S (length (start ++ tout i t ++ outs ps ++ rest))) (forest_step PF) (start ++ tout i t ++ outs ps ++ rest, None)).
    { destruct Hs as [(-> & _ & _)|(s & -> & _)]; reflexivity. }
    rewrite ER. cbn [loop]. rewrite Es. destruct (outs ps ++ rest) as [|c s] eqn:Eo.
    - apply app_eq_nil in Eo as [Eo ->]. destruct ps as [|[j u] ps]; [|unfold outs, tree_out, WriteTreeHeader in Eo; discriminate].
      exists [rt]. split; [constructor; auto|]. reflexivity.
    - cbn [end_of bind]. rewrite <- Eo. destruct (reads_more ps rest (add_tree F0 rt) (length (start ++ tout i t ++ outs ps ++ rest))) as (rs & R1 & R2); auto.
      { destruct ps; [right; intros ->; discriminate|left; discriminate]. }
      { pose proof (outs_length ps). rewrite !app_length. assert (1 <= length (tout i t)) by (unfold tree_out, WriteTreeHeader; cbn; lia). lia. }
      exists (rt :: rs). split; [constructor; auto|]. rewrite R2. cbn [add_tree rfTrees rfTarget rfIntercept]. rewrite <- app_assoc. reflexivity.
  Qed.

  Notation head f := (WriteForestHeader fmtF itoa 0 (wfTarget f) (wfIntercept f)).
  (** A header replaces the forest of an earlier one. *)
  Lemma header_again f fo x : inert (B (wfTarget f)) ->
    read_step PF (head f ++ x, false, None, fo) = Ok (Next (x, false, None, Some (mkRF (wfTarget f) (read_intercept (wfIntercept f)) []))).
  Proof.
    intros Ht. pose proof (reads_forest_header fmtF itoa PF Hnum 0 (wfTarget f) (wfIntercept f) x Ht) as E. revert E. unfold read_step.
    destruct (head f ++ x) as [|c s]; [discriminate|]. cbn [andb]. destruct (read_line (c :: s)) as [[line rest]|]; [|discriminate].
    destruct (ParseLine line) as [parsed| |]; cbn [bind]; try discriminate. destruct (has_prefix (B "FOREST") line); [auto|].
    destruct (has_prefix (B "TREE") line); [discriminate|]. destruct (has_prefix (B "NODE") line); discriminate.
  Qed.
  Lemma one_header f fo x fu r : inert (B (wfTarget f)) ->
    loop fu (read_step PF) (x, false, None, Some (mkRF (wfTarget f) (read_intercept (wfIntercept f)) [])) = Ok r ->
    loop (S fu) (read_step PF) (head f ++ x, false, None, fo) = Ok r.
  Proof. intros Ht E. eapply loop_next; [apply header_again, Ht|exact E]. Qed.
  Lemma head_long f : 1 <= length (head f).
  Proof. unfold WriteForestHeader. cbn. lia. Qed.

  Definition forest_out (f : wforest) : bytes :=
    (if feqb (wfIntercept f) f0 then [] else head f) ++ outs (combine (seq 0 (length (wfTrees f))) (wfTrees f)).
  Lemma writes_forest f : Forall tree_ok (wfTrees f) -> WriteForest fmtF itoa ord f = Ok (forest_out f).
  Proof. intros H. unfold WriteForest. rewrite writes_trees by auto. rewrite trees_numbered. reflexivity. Qed.
  Lemma numbered (ts : list wtree) : map snd (combine (seq 0 (length ts)) ts) = ts.
  Proof. generalize 0. induction ts as [|t ts IH]; intros k; cbn; f_equal; auto. Qed.
  Lemma numbered_ok (P : wtree -> Prop) ts : Forall P ts -> Forall (fun p => P (snd p)) (combine (seq 0 (length ts)) ts).
  Proof. generalize 0. intros k H. revert k. induction H; intros k; cbn; constructor; auto. Qed.

  (** The next forest is read up to the header behind it. *)
  Lemma reads_next f rest : inert (B (wfTarget f)) -> Forall tree_ok (wfTrees f) ->
    (feqb (wfIntercept f) f0 = true -> exists t ts, wfTrees f = t :: ts /\ wtTarget t = wfTarget f) ->
    next_forest rest -> wfTrees f <> [] \/ rest = [] ->
    exists rs, Forall2 tree_read rs (wfTrees f) /\
      ReadForest PF (forest_out f ++ rest) = Ok (Some (mkRF (wfTarget f) (read_intercept (wfIntercept f)) rs), ENone, rest).
  Proof.
    intros Htg Hts H0 Hr Hn. destruct (wfTrees f) as [|t ts] eqn:Ets.
    - destruct Hn as [Hn| ->]; [congruence|].
      destruct (reads_forest fmtF itoa ord PF Hord Hnum f (forest_out f)) as (rs & R1 & R2); auto; [rewrite Ets; auto|rewrite Ets; auto|apply writes_forest; rewrite Ets; auto|].
      rewrite app_nil_r. exists rs. split; [rewrite Ets in R1; exact R1|exact R2].
    - unfold forest_out. rewrite Ets. cbn [length seq combine]. set (ps := combine (seq 1 (length ts)) ts).
      assert (Hps : Forall (fun p => tree_ok (snd p)) ((0, t) :: ps)) by (apply (numbered_ok tree_ok (t :: ts)), Hts).
      assert (Eps : map snd ((0, t) :: ps) = t :: ts) by (apply (numbered (t :: ts))).
      unfold read_intercept. destruct (feqb (wfIntercept f) f0) eqn:Ei.
      + destruct (H0 eq_refl) as (t' & ts' & Et & Etg). injection Et as <- <-.
        destruct (reads_start [] (mkRF (wtTarget t) f0 []) None 0 t ps rest) as (rs & R1 & R2); auto.
        { intros x fu r E. exists fu. auto. }
        rewrite Eps in R1. exists rs. split; [exact R1|]. cbn [app] in R2 |- *. rewrite R2. cbn [rfTarget rfIntercept rfTrees app]. rewrite Etg. reflexivity.
      + destruct (reads_start (head f) (mkRF (wfTarget f) (wfIntercept f) []) (Some (mkRF (wfTarget f) (wfIntercept f) [])) 0 t ps rest) as (rs & R1 & R2); auto.
        { right. unfold WriteForestHeader. cbn [B list_ascii_of_string app]. eauto. }
        { intros x fu r E. exists (S fu). split; [pose proof (head_long f); lia|]. apply one_header; auto. unfold read_intercept. rewrite Ei. exact E. }
        rewrite Eps in R1. exists rs. split; [exact R1|]. rewrite <- app_assoc. exact R2.
  Qed.
  Lemma next_header f x : feqb (wfIntercept f) f0 = false -> next_forest (forest_out f ++ x).
  Proof. intros E. right. unfold forest_out. rewrite E. unfold WriteForestHeader. cbn [B list_ascii_of_string app]. eauto. Qed.
End Stream.

Lemma trees_ok f : forest_ok f -> Forall kept (wfTrees f) -> Forall tree_ok (wfTrees f).
Proof.
  intros (_ & Hts & _) Hk. apply Forall_forall. intros t Ht. rewrite Forall_forall in Hts, Hk. destruct (Hts t Ht) as (A & C & D). destruct (Hk t Ht) as (_ & E & _).
  repeat split; auto. apply no_missing_right, E.
Qed.
Lemma trees_back rs ts : Forall2 tree_read rs ts -> Forall kept ts -> Forall2 (fun r t => same_tree r t (wtRoot t)) rs ts.
Proof.
  intros H. induction H as [|r t rs ts H R IH]; intros Hk; constructor.
  - apply Forall_inv in Hk as (Hw & Hm & Hb). destruct H as (A & C & D & E & F0). rewrite (filed_same _ Hm Hb) in E. split; auto. split.
    + rewrite C. unfold read_weight. destruct Hw as [Hw|Hw]; rewrite Hw; reflexivity.
    + exists 0. rewrite D in E. auto.
  - apply IH. apply Forall_inv_tail in Hk. auto.
Qed.

(** Forests written one after the other to the same file are read back one by one, if all but
    the first have an intercept and all but the last have a tree. *)
Theorem C140_read_one_by_one_partial : forall fmtF itoa ord PF f fs,
  (forall i p l, Permutation (ord i p l) l) -> numbers_ok fmtF PF itoa ->
  Forall (fun f => forest_ok f /\ Forall kept (wfTrees f)) (f :: fs) ->
  Forall (fun f => feqb (wfIntercept f) f0 = false) fs ->
  Forall (fun f => wfTrees f <> []) (removelast (f :: fs)) ->
  exists out outs rs, WriteForest fmtF itoa ord f = Ok out /\ Forall2 (fun f out => WriteForest fmtF itoa ord f = Ok out) fs outs /\
    reads_all PF (out ++ concat outs) rs /\ Forall2 forest_back rs (f :: fs).
Proof.
  intros fmtF itoa ord PF f fs Hord Hnum. revert f. induction fs as [|g fs IH]; intros f Hok Hi Hn.
  - inversion Hok as [|? ? [Hf Hk] _]; subst. pose proof (trees_ok f Hf Hk) as Ht. pose proof Hf as (Htg & _ & H0).
    exists (forest_out fmtF itoa ord f), []. destruct (reads_next fmtF itoa ord PF Hord Hnum f [] Htg Ht H0 (or_introl eq_refl) (or_intror eq_refl)) as (rs & R1 & R2).
    eexists [_]. split; [apply writes_forest, Ht|]. split; [constructor|]. split.
    + cbn [concat]. eapply next_read; [exact R2|]. eapply all_read. reflexivity.
    + constructor; [|constructor]. split; [reflexivity|]. split; [cbn; unfold read_intercept; destruct (feqb (wfIntercept f) f0); auto|]. apply trees_back; auto.
  - inversion Hok as [|? ? [Hf Hk] Hok']; subst. inversion Hi as [|? ? Hg Hi']; subst.
    change (removelast (f :: g :: fs)) with (f :: removelast (g :: fs)) in Hn. inversion Hn as [|? ? Hnf Hn']; subst.
    destruct (IH g Hok' Hi' Hn') as (out & outs & rs & E1 & E2 & E3 & E4).
    pose proof (trees_ok f Hf Hk) as Ht. pose proof Hf as (Htg & _ & H0). inversion Hok' as [|? ? [Hgf Hgk] _]; subst.
    rewrite (writes_forest fmtF itoa ord g (trees_ok g Hgf Hgk)) in E1. injection E1 as <-.
    destruct (reads_next fmtF itoa ord PF Hord Hnum f (forest_out fmtF itoa ord g ++ concat outs) Htg Ht H0 (next_header fmtF itoa ord g _ Hg) (or_introl Hnf)) as (ts & R1 & R2).
    exists (forest_out fmtF itoa ord f), (forest_out fmtF itoa ord g :: outs). eexists (_ :: rs). split; [apply writes_forest, Ht|].
    split; [constructor; [apply writes_forest, trees_ok; auto|exact E2]|]. split; [cbn [concat]; eapply next_read; [exact R2|exact E3]|].
    constructor; [|exact E4]. split; [reflexivity|]. split; [cbn; unfold read_intercept; destruct (feqb (wfIntercept f) f0); auto|]. apply trees_back; auto.
Qed.
Print Assumptions C140_read_one_by_one_partial.

(** ** What goes wrong otherwise.  Without an intercept no header is written, and the trees are
    read as trees of the forest before: one forest comes back instead of two. *)
Theorem C140_no_header_refuted : forall fmtF itoa ord PF f g,
  (forall i p l, Permutation (ord i p l) l) -> numbers_ok fmtF PF itoa ->
  Forall (fun f => forest_ok f /\ Forall kept (wfTrees f)) [f; g] -> feqb (wfIntercept g) f0 = true ->
  exists out out' r, WriteForest fmtF itoa ord f = Ok out /\ WriteForest fmtF itoa ord g = Ok out' /\
    reads_all PF (out ++ out') [r] /\ rfTarget r = wfTarget f /\
    Forall2 (fun r t => same_tree r t (wtRoot t)) (rfTrees r) (wfTrees f ++ wfTrees g).
Proof.
  intros fmtF itoa ord PF f g Hord Hnum Hok Hg. inversion Hok as [|? ? [Hf Hk] Hok']; subst. inversion Hok' as [|? ? [Hgf Hgk] _]; subst.
  pose proof (trees_ok f Hf Hk) as Tf. pose proof (trees_ok g Hgf Hgk) as Tg. pose proof Hf as (Htg & _ & H0). pose proof Hgf as (_ & _ & H1).
  destruct (H1 Hg) as (tg & tsg & Etg & _).
  set (ps := combine (seq 0 (length (wfTrees f))) (wfTrees f) ++ combine (seq 0 (length (wfTrees g))) (wfTrees g)).
  assert (Hps : Forall (fun p => tree_ok (snd p)) ps) by (apply Forall_app; split; apply numbered_ok; assumption).
  assert (Eps : map snd ps = wfTrees f ++ wfTrees g) by (unfold ps; rewrite map_app, !numbered; reflexivity).
  assert (Eo : forest_out fmtF itoa ord f ++ forest_out fmtF itoa ord g = (if feqb (wfIntercept f) f0 then [] else WriteForestHeader fmtF itoa 0 (wfTarget f) (wfIntercept f)) ++ outs fmtF itoa ord ps ++ []).
  { unfold forest_out. rewrite Hg. cbn [app]. rewrite app_nil_r, <- app_assoc. f_equal. unfold outs, ps. rewrite map_app, concat_app. reflexivity. }
  destruct ps as [|[i t] ps'] eqn:Ep; [cbn in Eps; rewrite Etg in Eps; destruct (wfTrees f); discriminate|].
  assert (X : exists r, reads_all PF (forest_out fmtF itoa ord f ++ forest_out fmtF itoa ord g) [r] /\ rfTarget r = wfTarget f /\ Forall2 tree_read (rfTrees r) (wfTrees f ++ wfTrees g)).
  { rewrite Eo, <- Eps. destruct (feqb (wfIntercept f) f0) eqn:Ei.
    - destruct (H0 eq_refl) as (t' & ts' & Et & Et'). assert (t' = t) by (rewrite Et in Eps; cbn in Eps; congruence). subst t'.
      destruct (reads_start fmtF itoa ord PF Hord Hnum [] (mkRF (wtTarget t) f0 []) None i t ps' []) as (rs & R1 & R2); auto; [intros x fu r E; exists fu; auto|left; reflexivity|].
      eexists. split; [eapply next_read; [exact R2|eapply all_read; reflexivity]|]. cbn [rfTarget rfTrees app]. auto.
    - destruct (reads_start fmtF itoa ord PF Hord Hnum (WriteForestHeader fmtF itoa 0 (wfTarget f) (wfIntercept f)) (mkRF (wfTarget f) (wfIntercept f) []) (Some (mkRF (wfTarget f) (wfIntercept f) [])) i t ps' []) as (rs & R1 & R2); auto.
      + right. unfold WriteForestHeader. cbn [B list_ascii_of_string app]. eauto.
      + intros x fu r E. exists (S fu). split; [pose proof (head_long fmtF itoa f); lia|]. apply one_header; auto. unfold read_intercept. rewrite Ei. exact E.
      + left; reflexivity.
      + eexists. split; [eapply next_read; [exact R2|eapply all_read; reflexivity]|]. cbn [rfTarget rfTrees app]. auto. }
  destruct X as (r & X1 & X2 & X3). exists (forest_out fmtF itoa ord f), (forest_out fmtF itoa ord g), r.
  split; [apply writes_forest, Tf|]. split; [apply writes_forest, Tg|]. split; [exact X1|]. split; [exact X2|]. apply trees_back; [exact X3|]. apply Forall_app. auto.
Qed.
Print Assumptions C140_no_header_refuted.

(** A forest without trees is lost when another one follows. *)
Theorem C140_no_trees_refuted : forall fmtF itoa ord PF f g,
  (forall i p l, Permutation (ord i p l) l) -> numbers_ok fmtF PF itoa ->
  Forall (fun f => forest_ok f /\ Forall kept (wfTrees f)) [f; g] -> wfTrees f = [] -> feqb (wfIntercept g) f0 = false -> wfTrees g <> [] ->
  exists out out' r, WriteForest fmtF itoa ord f = Ok out /\ WriteForest fmtF itoa ord g = Ok out' /\
    reads_all PF (out ++ out') [r] /\ forest_back r g.
Proof.
  intros fmtF itoa ord PF f g Hord Hnum Hok Hn Hg Hgn. inversion Hok as [|? ? [Hf Hk] Hok']; subst. inversion Hok' as [|? ? [Hgf Hgk] _]; subst.
  pose proof (trees_ok f Hf Hk) as Tf. pose proof (trees_ok g Hgf Hgk) as Tg. pose proof Hf as (Htf & _ & H0). pose proof Hgf as (Htg & _ & _).
  destruct (wfTrees g) as [|t ts] eqn:Et; [congruence|]. rewrite <- Et in *.
  assert (Hif : feqb (wfIntercept f) f0 = false).
  { destruct (feqb (wfIntercept f) f0); auto. destruct (H0 eq_refl) as (t' & ts' & E & _). rewrite Hn in E. discriminate. }
  set (G := mkRF (wfTarget g) (wfIntercept g) []).
  assert (Hps : Forall (fun p => tree_ok (snd p)) (combine (seq 0 (length (wfTrees g))) (wfTrees g))) by (apply numbered_ok, Tg).
  pose proof (numbered (wfTrees g)) as Eps. rewrite Et in Hps, Eps. cbn [length seq combine] in Hps, Eps.
  destruct (reads_start fmtF itoa ord PF Hord Hnum (WriteForestHeader fmtF itoa 0 (wfTarget f) (wfIntercept f) ++ WriteForestHeader fmtF itoa 0 (wfTarget g) (wfIntercept g)) G (Some G)
    0 t (combine (seq 1 (length ts)) ts) []) as (rs & R1 & R2); auto.
  - right. unfold WriteForestHeader at 1. cbn [B list_ascii_of_string app]. eauto.
  - intros x fu r E. exists (S (S fu)). split; [rewrite app_length; pose proof (head_long fmtF itoa f); pose proof (head_long fmtF itoa g); lia|].
    rewrite <- app_assoc. apply one_header; auto. apply one_header; auto. unfold read_intercept. rewrite Hg. exact E.
  - left; reflexivity.
  - exists (forest_out fmtF itoa ord f), (forest_out fmtF itoa ord g). eexists. split; [apply writes_forest, Tf|]. split; [apply writes_forest, Tg|]. split.
    + eapply (next_read PF _ _ []); [|eapply all_read; reflexivity]. etransitivity; [|exact R2]. f_equal. unfold forest_out. rewrite Hif, Hg, Hn, Et. cbn [length seq combine outs map concat].
      rewrite !app_nil_r, <- !app_assoc. reflexivity.
    + split; [reflexivity|]. split; [left; reflexivity|]. cbn [rfTrees G app]. rewrite Eps, <- Et in R1. apply trees_back; assumption.
Qed.
Print Assumptions C140_no_trees_refuted.

(** Two forests as meant: that of C52, with an intercept, twice; and one without intercept. *)
Example C140_example : Forall (fun f => forest_ok f /\ Forall kept (wfTrees f)) [ex_forest; ex_forest] /\
  Forall (fun f => feqb (wfIntercept f) f0 = false) [ex_forest] /\ Forall (fun f => wfTrees f <> []) (removelast [ex_forest; ex_forest]).
Proof.
  destruct C52_example as (A & C & _). split; [constructor; [|constructor; [|constructor]]; split; assumption|].
  split; (constructor; [|constructor]); [reflexivity|discriminate].
Qed.
Definition bare_forest : wforest := mkWF "B:bought" f0 [mkWT (leaf "no") "B:bought" f1].
Definition treeless : wforest := mkWF "B:bought" f1 [].
Example C140_refuted_examples : forest_ok bare_forest /\ Forall kept (wfTrees bare_forest) /\ feqb (wfIntercept bare_forest) f0 = true /\
  forest_ok treeless /\ Forall kept (wfTrees treeless).
Proof.
  split; [|split; [|split; [reflexivity|split]]].
  - split; [apply inertb_ok; reflexivity|]. split; [cbn; solve_texts; try discriminate|]. intros _. eexists. eexists. split; reflexivity.
  - constructor; [|constructor]. split; [left; reflexivity|]. cbn. solve_texts; try discriminate.
  - split; [apply inertb_ok; reflexivity|]. split; [constructor|discriminate].
  - constructor.
Qed.
(** The files themselves: one forest is read where two were written. *)
Definition ex_write (f : wforest) : bytes := match WriteForest enc (fun i => repeat "1"%char i) ex_ord f with Ok out => out | _ => [] end.
Example C140_merged : exists r, ReadForest dec (ex_write ex_forest ++ ex_write bare_forest) = Ok (Some r, ENone, []) /\ length (rfTrees r) = 3.
Proof. eexists. split; vm_compute; reflexivity. Qed.
Example C140_separate : exists r, ReadForest dec (ex_write ex_forest ++ ex_write ex_forest) = Ok (Some r, ENone, ex_write ex_forest) /\ length (rfTrees r) = 2.
Proof. eexists. split; vm_compute; reflexivity. Qed.
