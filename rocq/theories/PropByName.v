(** C127: votes go by the names of features and categories. *)
From Verif Require Import Go GoLemmas F64 ModelFeature FeatureSpec ModelSample FeatureProofs ModelSplit SplitSpec SplitProofs ModelTree TreeSpec
  ModelText TextProofs ModelMatrix MatrixSpec MatrixProofs PropMatrix.
Local Open Scope string_scope.
Local Open Scope nat_scope.
Local Open Scope list_scope.

(** ** C127.  The claim in full: the votes of a forest read from a file depend on the data
    only through the values it gives, for each case, under the names of the features the
    trees split on: not on the order of columns and cases, on other columns or on how the
    categories are numbered.  A feature that the data does not have is missing. *)

(** What a value says to a splitter: [None] for a missing value, else whether it goes left. *)
Definition says (s : splitter) (v : value) : option bool :=
  match v with
  | VMissing => None
  | VNum x => Some (fleb x (sValue s))
  | VCat c => Some (if in_dec string_dec c (sLeft s) then true else false)
  end.
(** The column of a name. *)
Definition named (fm : fmatrix) (name : string) (f : feature) : Prop :=
  exists k, assoc name (fmMap fm) = Some k /\ nth_error (fmData fm) k = Some f.
(** The flag for missing values is set when one is missing. *)
Definition flagged (f : feature) : Prop := forall c, value_at f c = Some VMissing -> fMissingVals f = true.
(** The data has the features the tree asks for. *)
Definition has_features (t : node) (fm : fmatrix) : Prop :=
  forall d s, In d (nodes_of t) -> dSpl d = Some s -> exists f, named fm (sFeature s) f /\ flagged f.
(** Case [c] of [fm] and case [c'] of [fm'] answer all the questions of the tree alike. *)
Definition answer_alike (t : node) (fm : fmatrix) (c : nat) (fm' : fmatrix) (c' : nat) : Prop :=
  forall d s f f', In d (nodes_of t) -> dSpl d = Some s -> named fm (sFeature s) f -> named fm' (sFeature s) f' ->
  exists v v', value_at f c = Some v /\ value_at f' c' = Some v' /\ says s v = says s v'.
(** Trees read from files hold no coded splits (forestreader.go, ModelFile.v). *)
Definition no_codes (t : node) : Prop := forall d, In d (nodes_of t) -> dCode d = CNil.

(** ** The traversal on two matrices *)
Definition rmap {A C} (h : A -> C) (m : res A) : res C :=
  match m with Ok a => Ok (h a) | Panic => Panic | Spin => Spin end.
Lemma rmap_bind {A C D} (h : C -> D) (m : res A) (k : A -> res C) : rmap h (bind m k) = bind m (fun a => rmap h (k a)).
Proof. destruct m; reflexivity. Qed.
Lemma bind_rmap {A C D} (h : A -> C) (m : res A) (k : C -> res D) : bind (rmap h m) k = bind m (fun a => k (h a)).
Proof. destruct m; reflexivity. Qed.
Lemma bind_ext {A C} (m : res A) (k k' : A -> res C) : (forall a, m = Ok a -> k a = k' a) -> bind m k = bind m k'.
Proof. destruct m; cbn; auto. Qed.
Lemma get_map {A C} (g : A -> C) l i : get (map g l) i = rmap g (get l i).
Proof. unfold get. rewrite nth_error_map. destruct (nth_error l i); reflexivity. Qed.
Lemma set_map {A C} (g : A -> C) l i x : set (map g l) i (g x) = rmap (map g) (set l i x).
Proof. unfold set. rewrite map_length. destruct (i <? length l); cbn; [|reflexivity]. rewrite map_upd. reflexivity. Qed.
Lemma swapl_map {A C} (g : A -> C) l i j : swapl (map g l) i j = rmap (map g) (swapl l i j).
Proof.
  unfold swapl. rewrite !get_map, bind_rmap, rmap_bind. apply bind_ext. intros x _. rewrite bind_rmap, rmap_bind. apply bind_ext. intros y _.
  rewrite set_map, bind_rmap, rmap_bind. apply bind_ext. intros l1 _. apply set_map.
Qed.
Lemma slice_map {A C} (g : A -> C) l lo hi : slice (map g l) lo hi = rmap (map g) (slice l lo hi).
Proof. unfold slice. rewrite map_length. destruct ((lo <=? hi) && (hi <=? length l)); cbn; [|reflexivity]. rewrite skipn_map, firstn_map. reflexivity. Qed.
Lemma putwin_map {A C} (g : A -> C) l lo w : putwin (map g l) lo (map g w) = map g (putwin l lo w).
Proof. unfold putwin. rewrite map_length, !map_app, firstn_map, skipn_map. reflexivity. Qed.

Lemma split_loop_sim g miss left miss' left' cases :
  (forall c, In c cases -> miss' (g c) = miss c) ->
  (forall c, In c cases -> miss c = Ok false -> left' (g c) = left c) ->
  split_loop miss' left' (map g cases) = rmap (fun '((cs, a, b) : list nat * nat * nat) => (map g cs, a, b)) (split_loop miss left cases) /\
  ifok (split_loop miss left cases) (fun '((cs, a, b) : list nat * nat * nat) => Permutation cases cs).
Proof.
  intros Hm Hl. unfold split_loop. rewrite map_length.
  assert (G : forall fuel cs i ll lr, Permutation cases cs ->
    loop fuel (fun '(cs, i, ll, lr) =>
    if i <? lr then
      let* c := get cs i in
      let* m := miss' c in
      if m then Ok (Next (cs, S i, ll, lr))
      else
        let* l := left' c in
        if l then
          if i =? ll then Ok (Next (cs, S i, S ll, lr))
          else let* cs' := swapl cs i ll in Ok (Next (cs', i, S ll, lr))
        else
          let* cs' := swapl cs i (lr - 1) in Ok (Next (cs', i, ll, lr - 1))
    else Ok (Done (cs, ll, lr))) (map g cs, i, ll, lr) =
    rmap (fun '((cs, a, b) : list nat * nat * nat) => (map g cs, a, b)) (loop fuel (fun '(cs, i, ll, lr) =>
    if i <? lr then
      let* c := get cs i in
      let* m := miss c in
      if m then Ok (Next (cs, S i, ll, lr))
      else
        let* l := left c in
        if l then
          if i =? ll then Ok (Next (cs, S i, S ll, lr))
          else let* cs' := swapl cs i ll in Ok (Next (cs', i, S ll, lr))
        else
          let* cs' := swapl cs i (lr - 1) in Ok (Next (cs', i, ll, lr - 1))
    else Ok (Done (cs, ll, lr))) (cs, i, ll, lr)) /\
    ifok (loop fuel (fun '(cs, i, ll, lr) =>
    if i <? lr then
      let* c := get cs i in
      let* m := miss c in
      if m then Ok (Next (cs, S i, ll, lr))
      else
        let* l := left c in
        if l then
          if i =? ll then Ok (Next (cs, S i, S ll, lr))
          else let* cs' := swapl cs i ll in Ok (Next (cs', i, S ll, lr))
        else
          let* cs' := swapl cs i (lr - 1) in Ok (Next (cs', i, ll, lr - 1))
    else Ok (Done (cs, ll, lr))) (cs, i, ll, lr)) (fun '((cs, a, b) : list nat * nat * nat) => Permutation cases cs)).
  { induction fuel as [|fuel IH]; intros cs i ll lr HP; cbn [loop]; [split; [reflexivity|intros ? HX; try discriminate HX; inversion HX; subst; exact I]|].
    destruct (i <? lr); cbn [bind].
    2:{ split; [reflexivity|intros ? HX; inversion HX; subst; exact HP]. }
    rewrite get_map. destruct (get cs i) as [c| |] eqn:Ec; cbn [bind rmap]; try (split; [reflexivity|intros ? HX; discriminate HX]).
    assert (Hin : In c cases).
    { apply get_inv in Ec. apply nth_error_In in Ec. eapply Permutation_in; [symmetry; exact HP|auto]. }
    rewrite (Hm c Hin). destruct (miss c) as [[|]| |] eqn:Em; cbn [bind]; try (split; [reflexivity|intros ? HX; discriminate HX]); [apply IH; exact HP|].
    rewrite (Hl c Hin Em). destruct (left c) as [[|]| |]; cbn [bind]; try (split; [reflexivity|intros ? HX; discriminate HX]).
    - destruct (i =? ll); cbn [bind]; [apply IH; exact HP|]. rewrite swapl_map.
      destruct (swapl cs i ll) as [cs'| |] eqn:Es; cbn [bind rmap]; try (split; [reflexivity|intros ? HX; discriminate HX]).
      apply IH. etransitivity; [exact HP|]. eapply swapl_perm; eauto.
    - rewrite swapl_map. destruct (swapl cs i (lr - 1)) as [cs'| |] eqn:Es; cbn [bind rmap]; try (split; [reflexivity|intros ? HX; discriminate HX]).
      apply IH. etransitivity; [exact HP|]. eapply swapl_perm; eauto. }
  apply (G (S (3 * length cases)) cases 0 0 (length cases)). reflexivity.
Qed.

Definition map_sr (g : nat -> nat) (r : splitres) : splitres :=
  mkSR (map g (srCases r)) (map g (srL r)) (map g (srR r)) (map g (srM r)).
Lemma cut3_map g x : cut3 (let '(cs, a, b) := x in (map g cs, a, b)) = rmap (map_sr g) (cut3 x).
Proof.
  destruct x as [[cs a] b]. unfold cut3. rewrite !slice_map, map_length, bind_rmap, rmap_bind. apply bind_ext. intros l _.
  rewrite bind_rmap, rmap_bind. apply bind_ext. intros r _. rewrite bind_rmap, rmap_bind. apply bind_ext. intros m _. reflexivity.
Qed.

(** The two tests of Splitter.Split on a value. *)
Lemma tests f s c v : flagged f -> value_at f c = Some v ->
  (if fMissingVals f then fIsMissing f c else Ok false) = Ok (match says s v with None => true | Some _ => false end) /\
  (forall b, says s v = Some b -> fGoesLeft f c s = Ok b).
Proof.
  intros Hf Hv. split.
  - destruct (fMissingVals f) eqn:Hh.
    + destruct f as [f|f]; cbn in Hv |- *; unfold nIsMissing, cIsMissing, get.
      * destruct (nth_error (nMissing f) c) as [[|]|]; destruct (nth_error (nData f) c); inversion Hv; subst; reflexivity.
      * destruct (nth_error (cMissing f) c) as [[|]|]; destruct (nth_error (cData f) c) as [k|]; try discriminate; [inversion Hv; reflexivity|].
        destruct (nth_error (cmBack (cMap f)) k); inversion Hv. reflexivity.
    + destruct v; try reflexivity. apply Hf in Hv. congruence.
  - intros b Hb. destruct f as [f|f]; cbn in Hv |- *; unfold nGoesLeft, cGoesLeft, get.
    + destruct (nth_error (nMissing f) c) as [[|]|]; destruct (nth_error (nData f) c) as [x|]; inversion Hv; subst; inversion Hb; subst. reflexivity.
    + destruct (nth_error (cMissing f) c) as [[|]|]; destruct (nth_error (cData f) c) as [k|]; try discriminate; [inversion Hv; subst; discriminate|].
      cbn [bind]. destruct (nth_error (cmBack (cMap f)) k) as [n|]; inversion Hv; subst. cbn [bind]. inversion Hb. unfold inleft. rewrite existsb_in_dec. reflexivity.
Qed.

Lemma named_lookup fm name f : named fm name f -> fmLookup fm name = Ok f.
Proof. intros (k & E & En). unfold fmLookup. rewrite E. apply get_nth. exact En. Qed.

Lemma named_det M name f f' : named M name f -> named M name f' -> f = f'.
Proof. intros (k & E & En) (k' & E' & En'). congruence. Qed.

Section Sim.
  Variables (fm fm' : fmatrix) (g : nat -> nat) (P : nat -> Prop).

  Definition agree (t : node) : Prop :=
    no_codes t /\ has_features t fm /\ has_features t fm' /\ forall c, P c -> answer_alike t fm c fm' (g c).

  Lemma agree_child d l r m : agree (Node d l r m) -> agree l /\ agree r /\ agree m.
  Proof.
    intros (Hc & H1 & H2 & Ha). repeat split;
      try (intros x Hx; apply Hc); try (intros x s Hx Hs; apply (H1 x s); auto); try (intros x s Hx Hs; apply (H2 x s); auto);
      try (intros c Hp x s f f' Hx Hs; apply (Ha c Hp x s f f'); auto); cbn [nodes_of]; right; rewrite !in_app_iff; auto.
  Qed.

  Lemma node_split_sim d l0 r0 m0 cases : agree (Node d l0 r0 m0) -> Forall P cases ->
    node_split fm' d (map g cases) = rmap (option_map (map_sr g)) (node_split fm d cases) /\
    ifok (node_split fm d cases) (fun o => match o with Some r => Permutation cases (srCases r) | None => True end).
  Proof.
    intros (Hc & H1 & H2 & Ha) Hp. assert (Hd : In d (nodes_of (Node d l0 r0 m0))) by (left; reflexivity).
    unfold node_split. rewrite (Hc d Hd). cbn [isCNil negb]. destruct (dSpl d) as [s|] eqn:Es; [|split; [reflexivity|intros ? HX; inversion HX; subst; exact I]].
    destruct (H1 d s Hd Es) as (f & Nf & Ff). destruct (H2 d s Hd Es) as (f' & Nf' & Ff').
    unfold splSplit. rewrite (named_lookup _ _ _ Nf), (named_lookup _ _ _ Nf'). cbn [bind]. unfold splSplitF.
    assert (A : forall c, In c cases -> exists v v', value_at f c = Some v /\ value_at f' (g c) = Some v' /\ says s v = says s v').
    { intros c Hin. rewrite Forall_forall in Hp. apply (Ha c (Hp c Hin) d s); auto. }
    destruct (split_loop_sim g (fun c => if fMissingVals f then fIsMissing f c else Ok false) (fun c => fGoesLeft f c s)
      (fun c => if fMissingVals f' then fIsMissing f' c else Ok false) (fun c => fGoesLeft f' c s) cases) as [E HP].
    { intros c Hin. destruct (A c Hin) as (v & v' & E & E' & Ev). rewrite (proj1 (tests f s c v Ff E)), (proj1 (tests f' s (g c) v' Ff' E')), Ev. reflexivity. }
    { intros c Hin Em. destruct (A c Hin) as (v & v' & E & E' & Ev). rewrite (proj1 (tests f s c v Ff E)) in Em.
      destruct (says s v) as [b|] eqn:Eb; [|discriminate].
      rewrite (proj2 (tests f s c v Ff E) b Eb). apply (proj2 (tests f' s (g c) v' Ff' E') b). congruence. }
    rewrite E. destruct (split_loop (fun c => if fMissingVals f then fIsMissing f c else Ok false) (fun c => fGoesLeft f c s) cases) as [x| |];
      cbn [bind rmap]; try (split; [reflexivity|intros ? HX; discriminate HX]).
    rewrite (cut3_map g x). destruct (cut3 x) as [r| |] eqn:Ex; cbn [bind rmap option_map]; try (split; [reflexivity|intros ? HX; discriminate HX]).
    split; [reflexivity|]. intros o HX. inversion HX; subst o. specialize (HP _ eq_refl). destruct x as [[cs a] b]. unfold cut3 in Ex.
    apply bind_ok in Ex as (l & _ & Ex). apply bind_ok in Ex as (rr & _ & Ex). apply bind_ok in Ex as (mm & _ & Ex). inversion Ex. exact HP.
  Qed.

  Lemma Forall_firstn' {A} (Q : A -> Prop) n l : Forall Q l -> Forall Q (firstn n l).
  Proof. revert n. induction l; intros [|n] H; cbn; auto. inversion H; subst; auto. Qed.
  Lemma Forall_skipn' {A} (Q : A -> Prop) n l : Forall Q l -> Forall Q (skipn n l).
  Proof. revert n. induction l; intros [|n] H; cbn; auto. inversion H; subst; auto. Qed.

  (** Both traversals run alike, whatever the function called at the nodes. *)
  Lemma Recurse_sim {St St'} (h : St -> St') (r : visit -> St -> res St) (r' : visit -> St' -> res St') :
    (forall n lo hi cs depth st, r' (mkVisit n lo hi (map g cs) depth) (h st) = rmap h (r (mkVisit n lo hi cs depth) st)) ->
    forall t, agree t -> forall arr lo hi depth st, Forall P arr ->
    Recurse r' fm' t (map g arr) lo hi depth (h st) = rmap (fun '((a, s) : list nat * St) => (map g a, h s)) (Recurse r fm t arr lo hi depth st) /\
    ifok (Recurse r fm t arr lo hi depth st) (fun '((a, _) : list nat * St) => Forall P a).
  Proof.
    intros Hr. induction t as [|d nl IHl nr IHr nm IHm]; intros Ha arr lo hi depth st HP; cbn [Recurse]; [split; [reflexivity|intros ? HX; discriminate HX]|].
    rewrite slice_map, bind_rmap. destruct (slice arr lo hi) as [cases| |] eqn:Es; cbn [bind]; try (split; [reflexivity|intros ? HX; discriminate HX]).
    assert (Hc : Forall P cases).
    { unfold slice in Es. destruct ((lo <=? hi) && (hi <=? length arr)); inversion Es. apply Forall_firstn', Forall_skipn'. exact HP. }
    rewrite Hr, bind_rmap. destruct (r (mkVisit (Node d nl nr nm) lo hi cases depth) st) as [st0| |]; cbn [bind]; try (split; [reflexivity|intros ? HX; discriminate HX]).
    destruct (node_split_sim d nl nr nm cases Ha Hc) as [E Hsp]. rewrite E, bind_rmap.
    destruct (node_split fm d cases) as [[sr|]| |]; cbn [bind option_map]; try (split; [reflexivity|intros ? HX; discriminate HX]).
    2:{ split; [reflexivity|intros ? HX; inversion HX; subst; exact HP]. }
    specialize (Hsp _ eq_refl). cbn beta iota in Hsp. apply agree_child in Ha as (Al & Ar & Am).
    assert (H0 : Forall P (putwin arr lo (srCases sr))).
    { unfold putwin. rewrite !Forall_app. split; [apply Forall_firstn'; exact HP|]. split; [|apply Forall_skipn'; exact HP].
      eapply Permutation_Forall; eauto. }
    cbn [map_sr srCases srL srM]. rewrite putwin_map, !map_length.
    destruct (IHl Al (putwin arr lo (srCases sr)) lo (lo + length (srL sr)) (S depth) st0 H0) as [E1 P1]. rewrite E1, bind_rmap.
    destruct (Recurse r fm nl (putwin arr lo (srCases sr)) lo (lo + length (srL sr)) (S depth) st0) as [[arr1 st1]| |]; cbn [bind]; try (split; [reflexivity|intros ? HX; discriminate HX]).
    specialize (P1 _ eq_refl). cbn beta iota in P1.
    destruct (IHr Ar arr1 (lo + length (srL sr) + length (srM sr)) hi (S depth) st1 P1) as [E2 P2]. rewrite E2, bind_rmap.
    destruct (Recurse r fm nr arr1 (lo + length (srL sr) + length (srM sr)) hi (S depth) st1) as [[arr2 st2]| |]; cbn [bind]; try (split; [reflexivity|intros ? HX; discriminate HX]).
    specialize (P2 _ eq_refl). cbn beta iota in P2.
    destruct ((0 <? length (srM sr)) && negb (isNil nm)); [apply IHm; auto|]. split; [reflexivity|intros ? HX; inversion HX; subst; exact P2].
  Qed.
End Sim.

(** ** The theorem: cases that answer alike get the same votes, in the same order. *)
Definition move_vote (g : nat -> nat) (b : nat * string * f64) : nat * string * f64 := let '(c, p, w) := b in (g c, p, w).
Definition move_votes (g : nat -> nat) (r : list nat * ballots) : list nat * ballots := (map g (fst r), map (move_vote g) (snd r)).
Theorem C127_votes_by_answers : forall fm fm' g t tw cases bb,
  no_codes t -> has_features t fm -> has_features t fm' ->
  (forall c, In c cases -> answer_alike t fm c fm' (g c)) ->
  VoteCases fm' t tw (map g cases) (map (move_vote g) bb) = rmap (move_votes g) (VoteCases fm t tw cases bb).
Proof.
  intros fm fm' g t tw cases bb Hc H1 H2 Ha. unfold VoteCases. rewrite map_length.
  set (w := if fleb f0 tw then tw else f1).
  destruct (Recurse_sim fm fm' g (fun c => In c cases) (map (move_vote g))
    (fun v bb => let* lf := isLeaf (vNode v) in
      if lf then for_up (length (vCases v)) 0 (fun i bb => let* c := get (vCases v) i in Ok (bb ++ [(c, node_pred (vNode v), w)])) bb else Ok bb)
    (fun v bb => let* lf := isLeaf (vNode v) in
      if lf then for_up (length (vCases v)) 0 (fun i bb => let* c := get (vCases v) i in Ok (bb ++ [(c, node_pred (vNode v), w)])) bb else Ok bb)) with (t := t) (arr := cases) (lo := 0) (hi := length cases) (depth := 0) (st := bb) as [E _].
  - intros n lo hi cs depth st. cbn [vNode vCases]. rewrite rmap_bind. apply bind_ext. intros lf _. destruct lf; [|reflexivity].
    rewrite map_length. generalize 0. generalize (length cs). intros k. revert st. induction k as [|k IH]; intros st i; cbn [for_up]; [reflexivity|].
    rewrite get_map, rmap_bind. destruct (get cs i) as [c| |]; cbn [rmap bind]; try reflexivity.
    rewrite <- IH. rewrite map_app. reflexivity.
  - split; [exact Hc|]. split; [exact H1|]. split; [exact H2|exact Ha].
  - apply Forall_forall. auto.
  - rewrite E. destruct (Recurse _ fm t cases 0 (length cases) 0 bb) as [[a b]| |]; reflexivity.
Qed.
Print Assumptions C127_votes_by_answers.

(** Equal values, equal votes: other columns, the order of columns and the numbers of
    categories do not matter. *)
Corollary C127_votes_by_values : forall fm fm' t tw cases bb, no_codes t ->
  (forall d s, In d (nodes_of t) -> dSpl d = Some s ->
    exists f f', named fm (sFeature s) f /\ named fm' (sFeature s) f' /\ flagged f /\ flagged f' /\
    forall c, In c cases -> exists v, value_at f c = Some v /\ value_at f' c = Some v) ->
  VoteCases fm' t tw cases bb = VoteCases fm t tw cases bb.
Proof.
  intros fm fm' t tw cases bb Hc H.
  pose proof (C127_votes_by_answers fm fm' (fun c => c) t tw cases bb Hc) as E. rewrite map_id in E.
  replace (map (move_vote (fun c => c)) bb) with bb in E.
  2:{ clear. induction bb as [|[[c p] w] bb IH]; cbn; congruence. }
  rewrite E.
  - destruct (VoteCases fm t tw cases bb) as [[a b]| |]; cbn; auto. unfold move_votes. cbn [fst snd]. rewrite map_id. do 2 f_equal.
    clear. induction b as [|[[c p] w] b IH]; cbn; congruence.
  - intros d s Hd Hs. destruct (H d s Hd Hs) as (f & f' & N & N' & F & F' & _). eauto.
  - intros d s Hd Hs. destruct (H d s Hd Hs) as (f & f' & N & N' & F & F' & _). eauto.
  - intros c Hin d s h h' Hd Hs Nh Nh'. destruct (H d s Hd Hs) as (f & f' & N & N' & F & F' & V).
    rewrite (named_det _ _ _ _ Nh N), (named_det _ _ _ _ Nh' N'). destruct (V c Hin) as (v & E1 & E2). eauto.
Qed.

(** ** Files with the same rows *)
Lemma table_named fm data labels f : fm = mkFM data (table_of data) labels -> NoDup (map fName data) -> In f data -> named fm (fName f) f.
Proof.
  intros -> Hnd Hin. destruct (table_names_ok data labels) as [H1 H2]. destruct (H2 f Hin) as [k Ek]. exists k. split; [exact Ek|].
  destruct (H1 _ _ Ek) as (h & Eh & Hn). cbn [fmData] in *. rewrite Eh. f_equal.
  apply In_nth_error in Hin as [i Hi].
  assert (E : k = i); [|congruence].
  assert (A1 : nth_error (map fName data) k = Some (fName f)) by (rewrite nth_error_map, Eh; cbn; congruence).
  assert (A2 : nth_error (map fName data) i = Some (fName f)) by (rewrite nth_error_map, Hi; reflexivity).
  eapply NoDup_nth_error; eauto. { apply nth_error_Some. congruence. } congruence.
Qed.
Lemma filled_flagged PF name cells : flagged (filled PF name cells).
Proof. intros c Hc. apply filled_flag. eauto. Qed.

(** The votes are the same for two files of the same cases which have the rows the tree
    asks for in common; their other rows and the order of rows do not matter. *)
Theorem C127_same_rows_same_votes : forall PF itoa T1 T2 t tw bb,
  no_codes t -> length (tLabels T1) = length (tLabels T2) ->
  Forall (fun T => rectangular T /\ table_texts_ok T /\ tLabels T <> [] /\ ~ looks_typed (hd "" (tLabels T)) /\
    NoDup (map fst (tRows T)) /\ tRows T <> []) [T1; T2] ->
  (forall d s, In d (nodes_of t) -> dSpl d = Some s ->
     exists cells, In (sFeature s, cells) (tRows T1) /\ In (sFeature s, cells) (tRows T2)) ->
  exists fm1 fm2, ParseAFM PF itoa (file_of (row_file T1)) = Ok fm1 /\ ParseAFM PF itoa (file_of (row_file T2)) = Ok fm2 /\
    TreeVote fm1 t tw bb = TreeVote fm2 t tw bb.
Proof.
  intros PF itoa T1 T2 t tw bb Hc Hlen HT Hrows. apply Forall_cons_iff in HT as [(R1 & X1 & L1 & Y1 & N1 & E1) HT].
  apply Forall_cons_iff in HT as [(R2 & X2 & L2 & Y2 & N2 & E2) _].
  rewrite (row_file_parsed PF itoa T1), (row_file_parsed PF itoa T2) by auto.
  eexists. eexists. split; [reflexivity|]. split; [reflexivity|].
  assert (A : forall T labels, rectangular T -> tRows T <> [] -> allcases (mkFM (map (fun r => filled PF (fst r) (snd r)) (tRows T)) (table_of (map (fun r => filled PF (fst r) (snd r)) (tRows T))) labels) = Ok (seq 0 (length (tLabels T)))).
  { clear. intros T labels HR HN. unfold allcases. cbn [fmData]. destruct (tRows T) as [|r rs] eqn:Er; [congruence|]. cbn. rewrite filled_length.
    unfold rectangular in HR. rewrite Er in HR. apply Forall_cons_iff in HR as [-> _]. reflexivity. }
  unfold TreeVote. rewrite !A by auto. cbn [bind]. rewrite Hlen. symmetry. apply C127_votes_by_values; [exact Hc|].
  assert (M : forall T, map fName (map (fun r => filled PF (fst r) (snd r)) (tRows T)) = map fst (tRows T)).
  { intros T. rewrite map_map. apply map_ext. intros r. apply filled_name. }
  assert (NM : forall T cells name, NoDup (map fst (tRows T)) -> In (name, cells) (tRows T) ->
    named (mkFM (map (fun r => filled PF (fst r) (snd r)) (tRows T)) (table_of (map (fun r => filled PF (fst r) (snd r)) (tRows T))) (tLabels T)) name (filled PF name cells)).
  { intros T cells name Hnd Hin. pose proof (table_named (mkFM (map (fun r => filled PF (fst r) (snd r)) (tRows T)) (table_of (map (fun r => filled PF (fst r) (snd r)) (tRows T))) (tLabels T))
      _ _ (filled PF name cells) eq_refl) as G. rewrite filled_name in G. apply G; [rewrite M; exact Hnd|].
    apply in_map_iff. exists (name, cells). auto. }
  intros d s Hd Hs. destruct (Hrows d s Hd Hs) as (cells & I1 & I2). exists (filled PF (sFeature s) cells), (filled PF (sFeature s) cells).
  split; [apply NM; auto|]. split; [apply NM; auto|]. split; [apply filled_flagged|]. split; [apply filled_flagged|].
  intros c Hin. apply in_seq in Hin. unfold rectangular in R2. rewrite Forall_forall in R2. specialize (R2 _ I2). cbn [snd] in R2.
  destruct (nth_error cells c) as [txt|] eqn:Et; [|apply nth_error_None in Et; lia].
  exists (cell_value PF (sFeature s) txt). split; apply filled_value; exact Et.
Qed.
Print Assumptions C127_same_rows_same_votes.

Lemma Forall2_at {A C} (R : A -> C -> Prop) : forall l l' k a, Forall2 R l l' -> nth_error l k = Some a -> exists b, nth_error l' k = Some b /\ R a b.
Proof. intros l l' k a H. revert k. induction H as [|x y l l' Hxy H IH]; intros [|k] E; cbn in E; try discriminate; [inversion E; subst; cbn; eauto|cbn; auto]. Qed.
Lemma map_nth_seq (l : list nat) : map (fun j => nth j l 0) (seq 0 (length l)) = l.
Proof.
  apply nth_error_ext'. intros i. rewrite nth_error_map. destruct (Nat.lt_ge_cases i (length l)) as [H|H].
  - rewrite (nth_error_nth' (seq 0 (length l)) 0) by (rewrite seq_length; exact H). cbn. rewrite seq_nth by exact H. symmetry. apply nth_error_nth'. exact H.
  - rewrite (proj2 (nth_error_None (seq 0 (length l)) i)) by (rewrite seq_length; exact H). symmetry. apply nth_error_None. exact H.
Qed.

(** ** Some cases of a matrix, written and read again, get the votes they had. *)
Theorem C127_written_cases : forall PF fmtF itoa fm cases t tw,
  cases <> [] -> fmData fm <> [] -> names_ok fm -> NoDup (map fName (fmData fm)) -> no_codes t -> has_features t fm ->
  (forall l, nth_error (fmLabels fm) (hd 0 cases) = Some l -> ~ looks_typed l) ->
  PF "NA" = None ->
  (forall c, In c cases -> exists l, nth_error (fmLabels fm) c = Some l /\ plain l) ->
  (forall f, In f (fmData fm) -> plain (fName f) /\ typed_name f /\
     forall c, In c cases -> exists v, value_at f c = Some v /\ cell_ok is_token PF fmtF v) ->
  exists out fm', WriteCases fmtF fm cases = Ok out /\ ParseAFM PF itoa out = Ok fm' /\
    VoteCases fm t tw cases [] = rmap (move_votes (fun j => nth j cases 0)) (TreeVote fm' t tw []).
Proof.
  intros PF fmtF itoa fm cases t tw Hne Hdata Hnames Hnd Hc Hf Hl HNA Hlab Hcells.
  destruct (C55_matrix_files_round_trip PF itoa fmtF fm cases Hne Hl HNA Hlab Hcells) as (out & fm' & Ew & Ep & _ & F2 & Hn').
  exists out, fm'. split; [exact Ew|]. split; [exact Ep|].
  assert (En : map fName (fmData fm') = map fName (fmData fm)).
  { clear - F2. induction F2 as [|f f' l l' (H & _) F2 IH]; cbn; congruence. }
  assert (Ea : allcases fm' = Ok (seq 0 (length cases))).
  { unfold allcases. inversion F2 as [E1 E2|f f' l l' (_ & _ & H & _) F2' E1 E2]; [congruence|]. cbn. rewrite H. reflexivity. }
  unfold TreeVote. rewrite Ea. cbn [bind].
  replace cases with (map (fun j => nth j cases 0) (seq 0 (length cases))) at 1 by (apply map_nth_seq).
  change (@nil (nat * string * f64)) with (map (move_vote (fun j => nth j cases 0)) []) at 1.
  (* the column of a name *)
  assert (Col : forall name f, named fm name f -> exists f', named fm' name f' /\
    (forall j c, nth_error cases j = Some c -> value_at f' j = value_at f c) /\ flagged f' /\ In f (fmData fm)).
  { intros name f (k & Ek & Nk). destruct Hnames as [H1 _]. destruct (H1 _ _ Ek) as (h & Eh & Hnm). assert (h = f) by congruence. subst h.
    destruct (Forall2_at _ _ _ k f F2 Nk) as (f' & Nk' & Hname & _ & Hlen & Hval & Hflag).
    destruct Hn' as [G1 G2]. destruct (G2 f') as [k' Ek']; [eapply nth_error_In; eauto|].
    rewrite Hname, Hnm in Ek'. destruct (G1 _ _ Ek') as (h & Eh' & Hh).
    assert (k' = k).
    { rewrite <- En in Hnd. eapply NoDup_nth_error; [exact Hnd|rewrite map_length; apply nth_error_Some; congruence|].
      rewrite !nth_error_map, Eh', Nk'. cbn. congruence. }
    subst k'. exists f'. split; [exists k; split; auto|]. split; [exact Hval|]. split; [|eapply nth_error_In; eauto].
    intros j Hj. apply Hflag. destruct (nth_error cases j) as [c|] eqn:Ecj.
    - exists c. split; [eapply nth_error_In; eauto|]. rewrite <- (Hval j c Ecj). exact Hj.
    - exfalso. apply nth_error_None in Ecj. assert (j < fLength f'); [|lia]. clear - Hj. destruct f' as [f'|f']; cbn in Hj |- *; unfold nLength, cLength.
      + destruct (nth_error (nMissing f') j) eqn:E; [|discriminate]. apply nth_error_Some. congruence.
      + destruct (nth_error (cMissing f') j) eqn:E; [|discriminate]. apply nth_error_Some. congruence. }
  apply C127_votes_by_answers; [exact Hc| |exact Hf|].
  - intros d s Hd Hs. destruct (Hf d s Hd Hs) as (f & Nf & _). destruct (Col _ _ Nf) as (f' & N' & _ & Fl & _). eauto.
  - intros j Hj d s f' f Hd Hs Nf' Nf. destruct (Col _ _ Nf) as (h & Nh & Hval & _ & Hin). rewrite (named_det _ _ _ _ Nf' Nh).
    apply in_seq in Hj. assert (Ej : nth_error cases j = Some (nth j cases 0)) by (apply nth_error_nth'; lia).
    destruct (Hcells f Hin) as (_ & _ & Hv). destruct (Hv (nth j cases 0)) as (v & Ev & _); [eapply nth_error_In; eauto|].
    exists v, v. rewrite (Hval _ _ Ej). auto.
Qed.
Print Assumptions C127_written_cases.

(** ** What is not looked at. *)
(** A feature the data does not have: the split is made by the first column. *)
Theorem C127_absent_feature_refuted :
  (forall fm s f rest cases, assoc (sFeature s) (fmMap fm) = None -> fmData fm = f :: rest -> splSplit fm s cases = splSplitF f s cases) /\
  exists fm t, no_codes t /\ (forall d s, In d (nodes_of t) -> dSpl d = Some s -> assoc (sFeature s) (fmMap fm) = None) /\ names_ok fm /\
    TreeVote fm t f1 [] = Ok ([0; 1], [(0, "small", f1); (1, "large", f1)]).
Proof.
  split.
  - intros fm s f rest cases E Ed. unfold splSplit, fmLookup. rewrite E, Ed. reflexivity.
  - exists (mkFM [FNum (mkNum [f0; f2] [false; false] "N:weight" false)] [("N:weight", 0)] ["p"; "q"]).
    exists (Node (mkNd CNil 0 "" (Some (mkSpl "N:height" true f1 []))) (Node (mkNd CNil 0 "small" None) Nil Nil Nil) (Node (mkNd CNil 0 "large" None) Nil Nil Nil) Nil).
    split; [|split; [|split]].
    + intros d Hd. cbn in Hd. repeat destruct Hd as [<-|Hd]; try reflexivity; contradiction.
    + intros d s Hd Hs. cbn in Hd. repeat destruct Hd as [<-|Hd]; try contradiction; inversion Hs; reflexivity.
    + apply (table_names_ok [FNum (mkNum [f0; f2] [false; false] "N:weight" false)]).
    + vm_compute. reflexivity.
Qed.
Print Assumptions C127_absent_feature_refuted.

(** The kind of the column is not compared with that of the splitter: a category is to the
    right of every threshold, a number is in the set of categories when it is not positive
    (a categorical splitter has 0 as its threshold). *)
Theorem C127_wrong_kind_refuted :
  (forall f s c n, flagged f -> value_at f c = Some (VCat n) -> sLeft s = [] -> fGoesLeft f c s = Ok false) /\
  (forall f s c x, flagged f -> value_at f c = Some (VNum x) -> sValue s = f0 -> fGoesLeft f c s = Ok (fleb x f0)) /\
  (forall f code, sValue (cDecodeSplit f code) = f0) /\ (forall f x s, nDecodeSplit f (CNum x) = Ok s -> sLeft s = []).
Proof.
  split; [|split; [|split]].
  - intros f s c n Hf Hv Hs. apply (proj2 (tests f s c (VCat n) Hf Hv)). cbn. rewrite Hs. reflexivity.
  - intros f s c x Hf Hv Hs. apply (proj2 (tests f s c (VNum x) Hf Hv)). cbn. rewrite Hs. reflexivity.
  - reflexivity.
  - intros f x s H. inversion H. reflexivity.
Qed.
Print Assumptions C127_wrong_kind_refuted.

(** ** An example: another order of columns, another numbering of categories and, for case
    1, a category the tree was not grown with. *)
Definition bn_tree : node :=
  Node (mkNd CNil 1 "" (Some (mkSpl "C:kind" false f0 ["a"])))
    (Node (mkNd CNil 0 "" (Some (mkSpl "N:age" true f1 []))) (Node (mkNd CNil 0 "x" None) Nil Nil Nil) (Node (mkNd CNil 0 "y" None) Nil Nil Nil) Nil)
    (Node (mkNd CNil 0 "z" None) Nil Nil Nil) Nil.
Definition bn_fm : fmatrix :=
  mkFM [FNum (mkNum [f0; f2; f2] [false; false; false] "N:age" false);
        FCat (mkCat (mkCM [("b", 1); ("a", 0)] ["a"; "b"]) [0; 1; 0] [false; false; false] "C:kind" false false)]
       [("C:kind", 1); ("N:age", 0)] ["p"; "q"; "r"].
Definition bn_fm' : fmatrix :=
  mkFM [FCat (mkCat (mkCM [("a", 1); ("new", 0)] ["new"; "a"]) [0; 1; 1] [false; false; false] "C:kind" false false);
        FNum (mkNum [f2; f2; f0] [false; false; false] "N:age" false)]
       [("N:age", 1); ("C:kind", 0)] ["q"; "r"; "p"].
Definition bn_move (c : nat) : nat := match c with 0 => 2 | 1 => 0 | _ => 1 end.
Example C127_ex :
  no_codes bn_tree /\ has_features bn_tree bn_fm /\ has_features bn_tree bn_fm' /\
  (forall c, In c [0; 1; 2] -> answer_alike bn_tree bn_fm c bn_fm' (bn_move c)) /\
  VoteCases bn_fm bn_tree f1 [0; 1; 2] [] = Ok ([0; 2; 1], [(0, "x", f1); (2, "y", f1); (1, "z", f1)]) /\
  VoteCases bn_fm' bn_tree f1 [2; 0; 1] [] = Ok ([2; 1; 0], [(2, "x", f1); (1, "y", f1); (0, "z", f1)]).
Proof.
  assert (N1 : forall h, named bn_fm "C:kind" h -> nth_error (fmData bn_fm) 1 = Some h) by (intros h (k & E & En); inversion E; subst; exact En).
  assert (N2 : forall h, named bn_fm "N:age" h -> nth_error (fmData bn_fm) 0 = Some h) by (intros h (k & E & En); inversion E; subst; exact En).
  assert (N3 : forall h, named bn_fm' "C:kind" h -> nth_error (fmData bn_fm') 0 = Some h) by (intros h (k & E & En); inversion E; subst; exact En).
  assert (N4 : forall h, named bn_fm' "N:age" h -> nth_error (fmData bn_fm') 1 = Some h) by (intros h (k & E & En); inversion E; subst; exact En).
  assert (Fl : forall f, In f (fmData bn_fm ++ fmData bn_fm') -> flagged f).
  { intros f Hf c Hc. exfalso. cbn in Hf. repeat destruct Hf as [<-|Hf]; try contradiction; destruct c as [|[|[|c]]]; discriminate Hc || (destruct c; discriminate Hc). }
  split; [|split; [|split; [|split; [|split; vm_compute; reflexivity]]]].
  - intros d Hd. cbn in Hd. repeat destruct Hd as [<-|Hd]; try reflexivity; contradiction.
  - intros d s Hd Hs. cbn in Hd. repeat destruct Hd as [<-|Hd]; try contradiction; inversion Hs; subst s; cbn [sFeature].
    + eexists. split; [exists 1; split; reflexivity|]. apply Fl. cbn. auto.
    + eexists. split; [exists 0; split; reflexivity|]. apply Fl. cbn. auto.
  - intros d s Hd Hs. cbn in Hd. repeat destruct Hd as [<-|Hd]; try contradiction; inversion Hs; subst s; cbn [sFeature].
    + eexists. split; [exists 0; split; reflexivity|]. apply Fl. cbn. auto.
    + eexists. split; [exists 1; split; reflexivity|]. apply Fl. cbn. auto.
  - intros c Hc d s f f' Hd Hs Nf Nf'. cbn in Hd. repeat destruct Hd as [<-|Hd]; try contradiction; inversion Hs; subst s; cbn [sFeature] in *.
    + apply N1 in Nf. apply N3 in Nf'. inversion Nf; inversion Nf'. cbn in Hc.
      repeat destruct Hc as [<-|Hc]; try contradiction; eexists; eexists; split; [reflexivity| |reflexivity| |reflexivity|]; split; reflexivity.
    + apply N2 in Nf. apply N4 in Nf'. inversion Nf; inversion Nf'. cbn in Hc.
      repeat destruct Hc as [<-|Hc]; try contradiction; eexists; eexists; split; [reflexivity| |reflexivity| |reflexivity|]; split; reflexivity.
Qed.
