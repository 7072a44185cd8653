(** Writing a tree and reading it back. *)
From Verif Require Import Go GoLemmas F64 ModelFeature ModelTree TreeSpec TreeProofs PropTree PropTree2 ModelText TextProofs ModelFile FileSpec FileProofs.
Local Open Scope string_scope.
Local Open Scope nat_scope.
Local Open Scope list_scope.

(** ** Paths *)
Definition dletter (s : dir) : ascii := match s with DL => "L" | DR => "R" | DM => "M" end.
Definition pstr (q : path) : bytes := "*"%char :: map dletter q.
Lemma pstr_snoc q s : pstr (q ++ [s]) = pstr q ++ [dletter s].
Proof. unfold pstr. rewrite map_app. reflexivity. Qed.
Lemma dirs_letters q : dirs (T (map dletter q)) = q.
Proof. unfold T. induction q as [|s q IH]; auto. destruct s; cbn; rewrite IH; auto. Qed.
Lemma dirs_pstr q : dirs (T (pstr q)) = q.
Proof. cbn. apply dirs_letters. Qed.
Lemma inertb_ok s : forallb (fun c => negb (Ascii.eqb c "," || Ascii.eqb c "=" || Ascii.eqb c quote || Ascii.eqb c nl)) s = true -> inert s.
Proof.
  intros H. apply Forall_forall. intros c Hc. rewrite forallb_forall in H. apply H in Hc.
  apply negb_true_iff, orb_false_iff in Hc as [Hc H4]. apply orb_false_iff in Hc as [Hc H3]. apply orb_false_iff in Hc as [H1 H2].
  repeat split; intros ->; rewrite Ascii.eqb_refl in *; discriminate.
Qed.
Lemma pstr_clean q : clean (pstr q).
Proof.
  assert (Hv : Forall (fun c => visible c /\ inert [c]) (pstr q)).
  { unfold pstr. constructor; [split; [unfold visible; cbn; lia|apply inertb_ok; reflexivity]|].
    induction q as [|s q IH]; cbn; constructor; auto. split; [destruct s; unfold visible; cbn; lia|].
    destruct s; apply inertb_ok; reflexivity. }
  split; [|split].
  - apply Forall_forall. intros c Hc. rewrite Forall_forall in Hv. apply Hv in Hc as [_ Hc]. inversion Hc; auto.
  - intros c s' E. rewrite E in Hv. inversion Hv; tauto.
  - intros c s' E. rewrite E in Hv. apply Forall_app in Hv as [_ Hv]. inversion Hv; tauto.
Qed.

(** ** The order of the paths *)
Lemma parents_first_app : forall t q ps, parents_first ps -> (exists p s, q = p ++ [s] /\ In p ps) ->
  (forall x, ~ In (q ++ x) ps) -> parents_first (ps ++ map (app q) (paths_of t)).
Proof.
  induction t as [|d l IHl r IHr m IHm]; intros q ps Hps (p & s & Eq & Hp) Hni.
  - cbn. rewrite app_nil_r. auto.
  - cbn [paths_of map]. rewrite app_nil_r.
    change (ps ++ q :: map (app q) (map (cons DL) (paths_of l) ++ map (cons DR) (paths_of r) ++ map (cons DM) (paths_of m)))
      with (ps ++ [q] ++ map (app q) (map (cons DL) (paths_of l) ++ map (cons DR) (paths_of r) ++ map (cons DM) (paths_of m))).
    assert (H0 : parents_first (ps ++ [q])).
    { rewrite Eq. apply pf_add; auto. rewrite <- Eq. specialize (Hni []). rewrite app_nil_r in Hni. auto. }
    assert (Em : forall a ns, map (app q) (map (cons a) ns) = map (app (q ++ [a])) ns).
    { intros a ns. rewrite map_map. apply map_ext. intros x. rewrite <- app_assoc. reflexivity. }
    assert (Hne : forall a x, q ++ [a] ++ x <> q).
    { intros a x E. apply (f_equal (@length dir)) in E. rewrite !app_length in E. cbn in E. lia. }
    assert (Hd : forall a b ns x, a <> b -> ~ In (q ++ [a] ++ x) (map (app (q ++ [b])) ns)).
    { intros a b ns x Hab X. apply in_map_iff in X as (y & E & _). rewrite <- app_assoc in E. apply app_inv_head in E. inversion E; congruence. }
    rewrite !map_app, !Em, !app_assoc.
    apply IHm.
    + apply IHr; [apply IHl; auto| |].
      * exists q, DL. split; auto. apply in_app_iff. right. left. auto.
      * intros x X. rewrite <- app_assoc in X. apply in_app_iff in X as [X|[X|[]]]; [apply (Hni _ X)|symmetry in X; apply (Hne _ _ X)].
      * exists q, DR. split; auto. apply in_app_iff. left. apply in_app_iff. right. left. auto.
      * intros x X. rewrite <- app_assoc in X. apply in_app_iff in X as [X|X].
        { apply in_app_iff in X as [X|[X|[]]]; [apply (Hni _ X)|symmetry in X; apply (Hne _ _ X)]. }
        { apply Hd in X; auto. discriminate. }
    + exists q, DM. split; auto. apply in_app_iff. left. apply in_app_iff. left. apply in_app_iff. right. left. auto.
    + intros x X. rewrite <- app_assoc in X. apply in_app_iff in X as [X|X].
      { apply in_app_iff in X as [X|X].
        - apply in_app_iff in X as [X|[X|[]]]; [apply (Hni _ X)|symmetry in X; apply (Hne _ _ X)].
        - apply Hd in X; auto. discriminate. }
      { apply Hd in X; auto. discriminate. }
Qed.
Lemma pf_paths_of t : t <> Nil -> parents_first (paths_of t).
Proof.
  destruct t as [|d l r m]; [congruence|]. intros _. cbn [paths_of].
  change (map (cons DL) (paths_of l)) with (map (app [DL]) (paths_of l)).
  change (map (cons DR) (paths_of r)) with (map (app [DR]) (paths_of r)).
  change (map (cons DM) (paths_of m)) with (map (app [DM]) (paths_of m)).
  match goal with |- parents_first ([] :: ?x ++ ?y ++ ?z) => change ([] :: x ++ y ++ z) with (([[]] ++ x) ++ y ++ z) end.
  rewrite (app_assoc (_ ++ _)).
  assert (Hd : forall (a b : dir) ns x, a <> b -> ~ In ([a] ++ x) (map (app [b]) ns)).
  { intros a b ns x Hab X. apply in_map_iff in X as (y & E & _). inversion E; congruence. }
  apply parents_first_app; [apply parents_first_app; [apply parents_first_app; [constructor| |]| |]| |].
  - exists [], DL. split; auto. left. auto.
  - intros x [X|[]]. discriminate.
  - exists [], DR. split; auto. left. auto.
  - intros x X. apply in_app_iff in X as [[X|[]]|X]; [discriminate|]. apply Hd in X; auto. discriminate.
  - exists [], DM. split; auto. left. auto.
  - intros x X. apply in_app_iff in X as [X|X]; [apply in_app_iff in X as [[X|[]]|X]; [discriminate|]|]; apply Hd in X; auto; discriminate.
Qed.

(** ** Writing *)
Section Writing.
  Variable fmtF : f64 -> bytes.
  Variable itoa : nat -> bytes.
  Variable ord : nat -> bytes -> list string -> list string.
  Variable PF : bytes -> option f64.
  Hypothesis Hord : forall i p l, Permutation (ord i p l) l.
  Hypothesis Hnum : numbers_ok fmtF PF itoa.

  Definition node_line (i : nat) (a : node) (p : path) : bytes := WriteNode fmtF ord i (node_nd (at_path a p)) (pstr p).

  Lemma writes_lines i : forall t q, t <> Nil -> right_branches t ->
    WriteNodeAndChildren fmtF ord i t (pstr q) =
    Ok (concat (map (fun p => WriteNode fmtF ord i (node_nd (at_path (as_filed t) p)) (pstr (q ++ p))) (paths_of (as_filed t)))).
  Proof.
    induction t as [|d l IHl r IHr m IHm]; intros q Hn Hr; [congruence|]. destruct Hr as (Hm & Hl & Hr).
    cbn [WriteNodeAndChildren as_filed]. destruct (dSpl d) as [s|] eqn:Es.
    2:{ cbn. rewrite !app_nil_r. reflexivity. }
    change (B "L") with [dletter DL]. change (B "R") with [dletter DR]. change (B "M") with [dletter DM].
    rewrite <- !pstr_snoc. cbn [andb].
    assert (El : (if negb (isNil l) then WriteNodeAndChildren fmtF ord i l (pstr (q ++ [DL])) else Ok []) =
      Ok (concat (map (fun p => WriteNode fmtF ord i (node_nd (at_path (as_filed l) p)) (pstr ((q ++ [DL]) ++ p))) (paths_of (as_filed l))))).
    { destruct l as [|? ? ? ?]; [reflexivity|]. apply IHl; auto. discriminate. }
    assert (Er : forall a, r <> Nil -> WriteNodeAndChildren fmtF ord i r (pstr (q ++ [a])) =
      Ok (concat (map (fun p => WriteNode fmtF ord i (node_nd (at_path (as_filed r) p)) (pstr ((q ++ [a]) ++ p))) (paths_of (as_filed r))))).
    { intros a Hr'. apply IHr; auto. }
    assert (Er' : (if negb (isNil r) then WriteNodeAndChildren fmtF ord i r (pstr (q ++ [DR])) else Ok []) =
      Ok (concat (map (fun p => WriteNode fmtF ord i (node_nd (at_path (as_filed r) p)) (pstr ((q ++ [DR]) ++ p))) (paths_of (as_filed r))))).
    { destruct r as [|? ? ? ?]; [reflexivity|]. apply Er; auto. discriminate. }
    assert (Em' : (if negb (isNil m) then WriteNodeAndChildren fmtF ord i r (pstr (q ++ [DM])) else Ok []) =
      Ok (concat (map (fun p => WriteNode fmtF ord i (node_nd (at_path (if isNil m then Nil else as_filed r) p)) (pstr ((q ++ [DM]) ++ p)))
           (paths_of (if isNil m then Nil else as_filed r))))).
    { destruct m as [|? ? ? ?]; [reflexivity|]. cbn [isNil negb]. apply Er. apply Hm. discriminate. }
    rewrite El, Er', Em'. cbn [bind]. f_equal.
    cbn [paths_of map concat]. rewrite app_nil_r. cbn [at_path node_nd]. f_equal.
    rewrite !map_app, !concat_app, !map_map.
    assert (G : forall a t', 
      concat (map (fun p => WriteNode fmtF ord i (node_nd (at_path t' p)) (pstr ((q ++ [a]) ++ p))) (paths_of t')) =
      concat (map (fun x => WriteNode fmtF ord i (node_nd (at_path t' x)) (pstr (q ++ a :: x))) (paths_of t'))).
    { intros a t'. f_equal. apply map_ext. intros p. rewrite <- app_assoc. reflexivity. }
    rewrite !G. reflexivity.
  Qed.

  (** ** One line for a node *)
  Definition node_fields (i : nat) (d : nd) (path : bytes) : list field :=
    mkF (B "NODE") path false
    :: (if (dPred d =? "")%string then [] else [mkF (B "PRED") (B (dPred d)) false])
    ++ match dSpl d with
       | None => []
       | Some s =>
           mkF (B "SPLITTER") (B (sFeature s)) false
           :: if sNumerical s
              then [mkF (B "SPLITTERTYPE") (B "NUMERICAL") false; mkF (B "LVALUES") (fmtF (sValue s)) false; mkF (B "RVALUES") (fmtF (sValue s)) false]
              else [mkF (B "SPLITTERTYPE") (B "CATEGORICAL") false; mkF (B "LVALUES") (join (B ":") (map B (ord i path (sLeft s)))) true]
       end.
  Lemma node_line_fields i d path : WriteNode fmtF ord i d path = render_line (node_fields i d path).
  Proof.
    unfold WriteNode, node_fields, render_line.
    destruct (dPred d =? "")%string; destruct (dSpl d) as [s|]; [destruct (sNumerical s)| |destruct (sNumerical s)|];
      cbn [map app join]; unfold render; cbn [fKey fVal fQuoted]; unfold DescribeMap; cbn [B list_ascii_of_string app];
      repeat (rewrite <- app_assoc; cbn [app]); rewrite ?app_nil_r; reflexivity.
  Qed.

  Definition nd_ok (d : nd) : Prop :=
    clean (B (dPred d)) /\
    match dSpl d with
    | None => True
    | Some s => clean (B (sFeature s)) /\
        (sNumerical s = false -> sLeft s <> [] /\ NoDup (sLeft s) /\ Forall category (sLeft s))
    end.
  Lemma inert_join ws : Forall inert ws -> inert (join (B ":") ws).
  Proof.
    induction 1 as [|w ws Hw H IH]; [constructor|]. destruct ws as [|w' ws]; [exact Hw|].
    change (join (B ":") (w :: w' :: ws)) with (w ++ B ":" ++ join (B ":") (w' :: ws)).
    apply inert_app. split; auto. apply inert_app. split; auto. apply inertb_ok. reflexivity.
  Qed.
  Lemma key_ok k v b : clean (B k) -> k <> "" -> inert v -> (b = false -> tight is_space v) -> field_ok (mkF (B k) v b).
  Proof.
    intros [K1 K2] Kn Hv Hb. split; [exact K1|]. split; [cbn; destruct k; [congruence|discriminate]|].
    split; [apply visible_tight; exact K2|]. split; [exact Hv|exact Hb].
  Qed.
  Lemma clean_const s : forallb (fun c => negb (Ascii.eqb c "," || Ascii.eqb c "=" || Ascii.eqb c quote || Ascii.eqb c nl)
      && (33 <=? nat_of_ascii c) && (nat_of_ascii c <=? 126)) s = true -> clean s.
  Proof.
    intros H. rewrite forallb_forall in H.
    assert (Hv : forall c, In c s -> visible c).
    { intros c Hc. apply H in Hc. apply andb_true_iff in Hc as [Hc H2]. apply andb_true_iff in Hc as [_ H1].
      apply Nat.leb_le in H1, H2. split; auto. }
    split; [|split].
    - apply inertb_ok. apply forallb_forall. intros c Hc. apply H in Hc. apply andb_true_iff in Hc as [Hc _].
      apply andb_true_iff in Hc as [Hc _]. auto.
    - intros c s' ->. apply Hv. left. auto.
    - intros c s' ->. apply Hv. apply in_app_iff. right. left. auto.
  Qed.
  Lemma field_clean k v : clean (B k) -> k <> "" -> clean v -> field_ok (mkF (B k) v false).
  Proof. intros A Bn [C D]. apply key_ok; auto. intros _. apply visible_tight. auto. Qed.
  Lemma node_fields_ok i d path : nd_ok d -> clean path -> Forall field_ok (node_fields i d path).
  Proof.
    intros [Hp Hs] Hpath. destruct Hnum as [Hf _]. unfold node_fields. constructor.
    { apply field_clean; auto; [apply clean_const; reflexivity|discriminate]. }
    apply Forall_app. split.
    - destruct (dPred d =? "")%string; constructor; [|constructor].
      apply field_clean; auto; [apply clean_const; reflexivity|discriminate].
    - destruct (dSpl d) as [s|]; [|constructor]. destruct Hs as [Hsf Hc]. constructor.
      { apply field_clean; auto; [apply clean_const; reflexivity|discriminate]. }
      destruct (sNumerical s).
      + repeat apply Forall_cons; try apply Forall_nil; apply field_clean; try discriminate;
          first [apply Hf|apply clean_const; reflexivity].
      + destruct Hc as (Hl & Hnd & Hcat); auto. repeat apply Forall_cons; try apply Forall_nil.
        * apply field_clean; try apply clean_const; try reflexivity; discriminate.
        * apply key_ok; [apply clean_const; reflexivity|discriminate| |discriminate].
          apply inert_join. apply Forall_forall. intros w Hw. apply in_map_iff in Hw as (c & <- & Hw).
          rewrite Forall_forall in Hcat. apply Hcat. eapply Permutation_in; eauto.
  Qed.

  Definition read_splitter (i : nat) (path : bytes) (s : splitter) : splitter :=
    if sNumerical s then mkSpl (sFeature s) true (sValue s) []
    else mkSpl (sFeature s) false f0 (fold_left add_key (ord i path (sLeft s)) []).
  Lemma node_parsed i d path : nd_ok d -> clean path ->
    exists m, ParseLine (WriteNode fmtF ord i d path) = Ok m
      /\ T (lookup0 (B "NODE") m) = T path /\ T (lookup0 (B "PRED") m) = dPred d
      /\ node_splitter PF m = option_map (read_splitter i path) (dSpl d).
  Proof.
    intros Hd Hp. rewrite node_line_fields, parse_fields; [|discriminate|apply node_fields_ok; auto].
    eexists. split; [reflexivity|]. unfold node_fields, node_splitter.
    assert (HP : (dPred d =? "")%string = true -> dPred d = "") by apply String.eqb_eq.
    assert (Hpf : forall x, pf0 PF (fmtF x) = x).
    { intros x. unfold pf0. destruct Hnum as [Hf _]. rewrite (proj2 (Hf x)). reflexivity. }
    destruct Hd as [_ Hd].
    destruct (dSpl d) as [s|]; [unfold option_map, read_splitter; destruct (sNumerical s) eqn:En|];
      destruct (dPred d =? "")%string; (split; [reflexivity|]);
      (split; [first [apply TB|symmetry; apply HP; reflexivity]|]); try reflexivity.
    1,2: transitivity (Some (mkSpl (T (B (sFeature s))) true (pf0 PF (fmtF (sValue s))) []));
         [reflexivity|rewrite TB, Hpf; reflexivity].
    all: transitivity (Some (mkSpl (T (B (sFeature s))) false f0
            (fold_left add_key (map T (split ":" (join (B ":") (map B (ord i path (sLeft s)))))) [])));
         [reflexivity|rewrite TB].
    all: destruct Hd as (_ & Hc); destruct (Hc eq_refl) as (Hne & _ & Hcat).
    all: change (B ":") with [":"%char]; rewrite split_join.
    all: try (rewrite map_map; rewrite (map_ext (fun x => T (B x)) (fun x => x) TB), map_id; reflexivity).
    1,3: intros E; apply map_eq_nil in E; apply Hne; apply Permutation_nil; rewrite <- E; auto.
    all: apply Forall_forall; intros w Hw; apply in_map_iff in Hw as (c & <- & Hw); rewrite Forall_forall in Hcat;
      apply Hcat; eapply Permutation_in; eauto.
  Qed.

  Lemma add_keys_set ks : forall m, NoDup m ->
    NoDup (fold_left add_key ks m) /\ forall c, In c (fold_left add_key ks m) <-> In c m \/ In c ks.
  Proof.
    induction ks as [|k ks IH]; intros m Hm; cbn; [split; auto; tauto|].
    assert (Hk : NoDup (add_key m k) /\ forall c, In c (add_key m k) <-> In c m \/ c = k).
    { unfold add_key. destruct (in_dec string_dec k m) as [Hi|Hi].
      - split; auto. intros c. split; auto. intros [X| ->]; auto.
      - split.
        + apply NoDup_app'; auto; [constructor; [intros []|constructor]|]. intros x A [<-|[]]. auto.
        + intros c. rewrite in_app_iff. cbn. split; intros [A|A]; auto. destruct A as [A|[]]; auto. }
    destruct Hk as [Hk1 Hk2]. destruct (IH _ Hk1) as [A C]. split; auto. intros c. rewrite C, Hk2.
    split; [intros [[X|X]|X]|intros [X|[X|X]]]; auto.
  Qed.
  Lemma read_splitter_same i path d : same_splitter (option_map (read_splitter i path) (dSpl d)) (dSpl d).
  Proof.
    destruct (dSpl d) as [s|]; cbn; auto. unfold read_splitter. destruct (sNumerical s); cbn; repeat split; auto.
    - apply add_keys_set. constructor.
    - intros X. apply add_keys_set in X; [|constructor]. destruct X as [[]|X]. eapply Permutation_in; eauto.
    - intros X. apply add_keys_set; [constructor|]. right. eapply Permutation_in; [symmetry; apply Hord|auto].
  Qed.

  Lemma texts_filed t : texts_ok t -> texts_ok (as_filed t).
  Proof.
    induction t as [|d l IHl r IHr m IHm]; cbn; auto. intros (A & C & D & E & F0).
    destruct (dSpl d) as [s|] eqn:Es; cbn; rewrite Es; (split; [exact A|]); (split; [exact C|]); auto.
    split; auto. split; auto. destruct (isNil m); cbn; auto.
  Qed.
  Lemma texts_at p : forall t, texts_ok t -> at_path t p <> Nil -> nd_ok (node_nd (at_path t p)).
  Proof.
    induction p as [|s p IH]; intros [|d l r m] Ht Hn; try (exfalso; apply Hn; reflexivity).
    - destruct Ht as (A & C & _). split; [exact A|exact C].
    - exfalso. apply Hn. cbn [at_path child]. clear. induction p as [|[] p IH]; cbn; auto.
    - cbn [at_path]. destruct Ht as (_ & _ & A & C & D). apply IH; [destruct s; auto|exact Hn].
  Qed.

  (** ** Reading a node line, and all of them *)
  Lemma has_prefix_app p s : has_prefix p (p ++ s) = true.
  Proof. induction p; cbn; auto. rewrite Ascii.eqb_refl. auto. Qed.
  Lemma line_ends fs rest : fs <> [] -> Forall field_ok fs -> read_line (render_line fs ++ rest) = Some (render_line fs, rest).
  Proof.
    intros Hn H. unfold render_line. rewrite <- app_assoc. apply read_line_ok.
    clear Hn. induction fs as [|f fs IH]; [intros []|]. inversion H as [|? ? Hf Hfs]; subst.
    destruct fs as [|f' fs]; [cbn; apply render_no; auto|].
    change (join (B ",") (map render (f :: f' :: fs))) with (render f ++ [","%char] ++ join (B ",") (map render (f' :: fs))).
    apply no_app. split; [apply render_no; auto|]. apply no_app. split; [intros [X|[]]; discriminate|]. apply IH. auto.
  Qed.
  Lemma reads_node i d path rest h r tg w f : nd_ok d -> clean path ->
    read_step PF (WriteNode fmtF ord i d path ++ rest, true, Some (mkRT h r tg w), f) =
    (let* (h', r') := AddNode h r (T path) (dPred d) (option_map (read_splitter i path) (dSpl d)) in
     Ok (Next (rest, true, Some (mkRT h' r' tg w), f))).
  Proof.
    intros Hd Hp. destruct (node_parsed i d path Hd Hp) as (m & Em & E1 & E2 & E3).
    assert (El : read_line (WriteNode fmtF ord i d path ++ rest) = Some (WriteNode fmtF ord i d path, rest)).
    { rewrite node_line_fields. apply line_ends; [discriminate|apply node_fields_ok; auto]. }
    remember (WriteNode fmtF ord i d path) as line eqn:Eline.
    assert (Ep : exists s', line = B "NODE" ++ s').
    { rewrite Eline. unfold WriteNode. exists (B "=" ++ path ++ (if (dPred d =? "")%string then [] else B ",PRED=" ++ B (dPred d))
       ++ match dSpl d with
          | None => []
          | Some s =>
           B ",SPLITTER=" ++ B (sFeature s)
           ++ (if sNumerical s
               then B ",SPLITTERTYPE=NUMERICAL,LVALUES=" ++ fmtF (sValue s) ++ B ",RVALUES=" ++ fmtF (sValue s)
               else B ",SPLITTERTYPE=CATEGORICAL,LVALUES=" ++ DescribeMap (ord i path (sLeft s)))
          end ++ [nl]). reflexivity. }
    destruct Ep as (s' & Ep).
    unfold read_step. destruct (line ++ rest) as [|c s] eqn:Ecs; [exfalso; rewrite Ep in Ecs; discriminate|].
    assert (Hc : c = "N"%char). { rewrite Ep in Ecs. inversion Ecs; auto. }
    rewrite Hc at 1 2. cbn [andb Ascii.eqb orb Bool.eqb].
    rewrite El, Em. cbn [bind].
    replace (has_prefix (B "FOREST") line) with false by (rewrite Ep; reflexivity).
    replace (has_prefix (B "TREE") line) with false by (rewrite Ep; reflexivity).
    replace (has_prefix (B "NODE") line) with true by (rewrite Ep; reflexivity).
    cbn [negb rtHeap rtRoot rtTarget rtWeight]. rewrite E1, E2, E3. reflexivity.
  Qed.

  Definition file_entry (i : nat) (a : node) (p : path) : entry :=
    let d := node_nd (at_path a p) in mkE (T (pstr p)) (dPred d) (option_map (read_splitter i (pstr p)) (dSpl d)).
  Lemma reads_nodes i a : texts_ok a -> forall ps h r tg w fo h' r' rest f res,
    (forall p, In p ps -> at_path a p <> Nil) ->
    add_all (map (file_entry i a) ps) (h, r) = Ok (h', r') ->
    loop f (read_step PF) (rest, true, Some (mkRT h' r' tg w), fo) = Ok res ->
    loop (length ps + f) (read_step PF) (concat (map (node_line i a) ps) ++ rest, true, Some (mkRT h r tg w), fo) = Ok res.
  Proof.
    intros Ha. induction ps as [|p ps IH]; intros h r tg w fo h' r' rest f res Hps Ea El.
    - cbn in Ea. inversion Ea; subst. exact El.
    - unfold add_all in Ea. cbn [map foreach] in Ea.
      destruct (AddNode h r (enPath (file_entry i a p)) (enPred (file_entry i a p)) (enSpl (file_entry i a p))) as [[h1 r1]| |] eqn:E1; try discriminate.
      cbn [bind] in Ea. cbn [map concat length plus]. rewrite <- app_assoc.
      eapply loop_next.
      + unfold node_line at 1. rewrite reads_node.
        * change (AddNode h r (T (pstr p)) (dPred (node_nd (at_path a p))) (option_map (read_splitter i (pstr p)) (dSpl (node_nd (at_path a p)))))
            with (AddNode h r (enPath (file_entry i a p)) (enPred (file_entry i a p)) (enSpl (file_entry i a p))).
          rewrite E1. reflexivity.
        * apply texts_at; auto. apply Hps. left. auto.
        * apply pstr_clean.
      + eapply IH; eauto. intros q Hq. apply Hps. right. auto.
  Qed.

  (** ** Headers *)
  Definition read_weight (w : f64) : f64 := if fleb f0 w then w else fneg f1.
  Definition head_fields (k : string) (i : nat) (tg : string) (extra : list field) : list field :=
    mkF (B k) (itoa i) false :: mkF (B "TARGET") (B tg) true :: extra.
  Lemma reads_tree_header i tg w rest fo : inert (B tg) ->
    read_step PF (WriteTreeHeader fmtF itoa i tg w ++ rest, false, None, fo) =
    Ok (Next (rest, true, Some (mkRT [] None tg (read_weight w)), fo)).
  Proof.
    intros Ht. destruct Hnum as [Hf Hi]. set (fs := head_fields "TREE" i tg (if fleb f0 w then [mkF (B "WEIGHT") (fmtF w) false] else [])).
    assert (Ef : WriteTreeHeader fmtF itoa i tg w = render_line fs).
    { unfold WriteTreeHeader, fs, render_line, head_fields. destruct (fleb f0 w); cbn [map app join]; unfold render; cbn [fKey fVal fQuoted];
        cbn [B list_ascii_of_string app]; repeat (rewrite <- app_assoc; cbn [app]); rewrite ?app_nil_r; reflexivity. }
    assert (Ho : Forall field_ok fs).
    { unfold fs, head_fields. apply Forall_cons; [apply field_clean; [apply clean_const; reflexivity|discriminate|apply Hi]|].
      apply Forall_cons; [apply key_ok; auto; [apply clean_const; reflexivity|discriminate|discriminate]|].
      destruct (fleb f0 w); constructor; [|constructor]. apply field_clean; [apply clean_const; reflexivity|discriminate|apply Hf]. }
    assert (Hn : fs <> []) by discriminate.
    unfold read_step. rewrite Ef. destruct (render_line fs ++ rest) as [|c s] eqn:Ecs; [discriminate|]. cbn [andb].
    rewrite <- Ecs, line_ends by auto. rewrite parse_fields by auto. cbn [bind].
    replace (has_prefix (B "FOREST") (render_line fs)) with false by reflexivity.
    replace (has_prefix (B "TREE") (render_line fs)) with true by reflexivity.
    assert (E1 : lookup0 (B "TARGET") (rev (map (fun f => (fKey f, fVal f)) fs)) = B tg).
    { unfold fs. destruct (fleb f0 w); reflexivity. }
    assert (E2 : lookup (B "WEIGHT") (rev (map (fun f => (fKey f, fVal f)) fs)) = if fleb f0 w then Some (fmtF w) else None).
    { unfold fs. destruct (fleb f0 w); reflexivity. }
    rewrite E1, E2, TB. unfold read_weight, pf0. destruct (fleb f0 w); auto. rewrite (proj2 (Hf w)). reflexivity.
  Qed.
  Definition read_intercept (x : f64) : f64 := if feqb x f0 then f0 else x.
  Lemma reads_forest_header i tg x rest : inert (B tg) ->
    read_step PF (WriteForestHeader fmtF itoa i tg x ++ rest, false, None, None) =
    Ok (Next (rest, false, None, Some (mkRF tg (read_intercept x) []))).
  Proof.
    intros Ht. destruct Hnum as [Hf Hi]. set (fs := head_fields "FOREST" i tg (if feqb x f0 then [] else [mkF (B "INTERCEPT") (fmtF x) false])).
    assert (Ef : WriteForestHeader fmtF itoa i tg x = render_line fs).
    { unfold WriteForestHeader, fs, render_line, head_fields. destruct (feqb x f0); cbn [map app join]; unfold render; cbn [fKey fVal fQuoted];
        cbn [B list_ascii_of_string app]; repeat (rewrite <- app_assoc; cbn [app]); rewrite ?app_nil_r; reflexivity. }
    assert (Ho : Forall field_ok fs).
    { unfold fs, head_fields. apply Forall_cons; [apply field_clean; [apply clean_const; reflexivity|discriminate|apply Hi]|].
      apply Forall_cons; [apply key_ok; auto; [apply clean_const; reflexivity|discriminate|discriminate]|].
      destruct (feqb x f0); constructor; [|constructor]. apply field_clean; [apply clean_const; reflexivity|discriminate|apply Hf]. }
    assert (Hn : fs <> []) by discriminate.
    unfold read_step. rewrite Ef. destruct (render_line fs ++ rest) as [|c s] eqn:Ecs; [discriminate|]. cbn [andb].
    rewrite <- Ecs, line_ends by auto. rewrite parse_fields by auto. cbn [bind].
    replace (has_prefix (B "FOREST") (render_line fs)) with true by reflexivity.
    assert (E1 : lookup0 (B "TARGET") (rev (map (fun f => (fKey f, fVal f)) fs)) = B tg).
    { unfold fs. destruct (feqb x f0); reflexivity. }
    assert (E2 : lookup (B "INTERCEPT") (rev (map (fun f => (fKey f, fVal f)) fs)) = if feqb x f0 then None else Some (fmtF x)).
    { unfold fs. destruct (feqb x f0); reflexivity. }
    rewrite E1, E2, TB. unfold read_intercept, pf0. destruct (feqb x f0); auto. rewrite (proj2 (Hf x)). reflexivity.
  Qed.

  (** ** A tree *)
  Lemma filed_holds i a h : texts_ok a -> a <> Nil ->
    add_all (map (file_entry i a) (paths_of a)) ([], None) = Ok (h, Some 0) ->
    holds h (Some 0) a /\ unshared h 0.
  Proof.
    intros Ha Hn E.
    assert (Em : map (fun e => dirs (enPath e)) (map (file_entry i a) (paths_of a)) = paths_of a).
    { rewrite map_map. rewrite <- (map_id (paths_of a)) at 2. apply map_ext. intros p. apply dirs_pstr. }
    destruct (C72_paths_address_nodes (map (file_entry i a) (paths_of a))) as (h0 & E0 & L & HF & HN).
    { rewrite Em. apply pf_paths_of; auto. }
    rewrite E in E0. inversion E0; subst h0. clear E0. rewrite Em in HF. rewrite map_length in L.
    split.
    - assert (G : forall t q, at_path a q = t -> holds h (find h 0 q) t).
      { induction t as [|d l IHl r IHr m IHm]; intros q Eq.
        - destruct (find h 0 q) as [k|] eqn:Ek; [|constructor]. exfalso. apply HF in Ek. apply nth_error_In in Ek.
          apply paths_of_at in Ek. contradiction.
        - assert (Hq : In q (paths_of a)) by (apply paths_of_at; rewrite Eq; discriminate).
          apply In_nth_error in Hq as [k Hk]. pose proof (proj2 (HF q k) Hk) as Hfq. rewrite Hfq.
          assert (Hk' : nth_error (map (file_entry i a) (paths_of a)) k = Some (file_entry i a q)) by (rewrite nth_error_map, Hk; reflexivity).
          destruct (HN k _ Hk') as (x & Hx & Hp & Hs).
          unfold file_entry in Hp, Hs. cbn [enPred enSpl] in Hp, Hs. rewrite Eq in Hp, Hs. cbn [node_nd] in Hp, Hs.
          assert (Hc : forall s, find h 0 (q ++ [s]) = hchild x s) by (intros s; rewrite find_snoc, Hfq, Hx; reflexivity).
          assert (Hat : forall s, at_path a (q ++ [s]) = child (Node d l r m) s).
          { intros s. rewrite <- Eq. clear. revert a. induction q as [|s' q IH]; intros a; cbn; auto. }
          apply (holds_node h k x); auto.
          + rewrite Hs. apply read_splitter_same.
          + specialize (IHl _ (Hat DL)). rewrite Hc in IHl. exact IHl.
          + specialize (IHr _ (Hat DR)). rewrite Hc in IHr. exact IHr.
          + specialize (IHm _ (Hat DM)). rewrite Hc in IHm. exact IHm. }
      exact (G a [] eq_refl).
    - split.
      + intros q q' k A C. apply HF in A, C. congruence.
      + intros k Hk. rewrite L in Hk. destruct (nth_error (paths_of a) k) as [q|] eqn:Eq.
        * exists q. apply HF. auto.
        * apply nth_error_None in Eq. lia.
  Qed.

  Definition tree_ok (t : wtree) : Prop :=
    inert (B (wtTarget t)) /\ wtRoot t <> Nil /\ texts_ok (wtRoot t) /\ right_branches (wtRoot t).
  Definition tree_out (i : nat) (t : wtree) : bytes :=
    WriteTreeHeader fmtF itoa i (wtTarget t) (wtWeight t) ++ concat (map (node_line i (as_filed (wtRoot t))) (paths_of (as_filed (wtRoot t)))).
  Lemma writes_tree i t : tree_ok t -> WriteTree fmtF itoa ord t i = Ok (tree_out i t).
  Proof.
    intros (_ & Hn & _ & Hr). unfold WriteTree. change (B "*") with (pstr []). rewrite writes_lines by auto. reflexivity.
  Qed.
  Lemma filed_not_nil t : t <> Nil -> as_filed t <> Nil.
  Proof. destruct t as [|d l r m]; cbn; auto. destruct (dSpl d); discriminate. Qed.

  Definition starts_next (rest : bytes) : Prop := rest = [] \/ exists c s, rest = c :: s /\ (c = "T"%char \/ c = "F"%char).
  Definition end_of (rest : bytes) : goerr := match rest with [] => EEof | _ => ENone end.
  Lemma reads_tree i t rest : tree_ok t -> starts_next rest ->
    exists h, holds h (Some 0) (as_filed (wtRoot t)) /\ unshared h 0 /\
      forall fo f, length (tree_out i t) < f ->
        loop f (read_step PF) (tree_out i t ++ rest, false, None, fo) =
        Ok (Some (mkRT h (Some 0) (wtTarget t) (read_weight (wtWeight t))), fo, end_of rest, rest).
  Proof.
    intros (Htg & Hn & Ht & Hr) Hrest. pose proof (texts_filed _ Ht) as Hf. pose proof (filed_not_nil _ Hn) as Hfn.
    set (a := as_filed (wtRoot t)) in *.
    destruct (C72_paths_address_nodes (map (file_entry i a) (paths_of a))) as (h & E & L & _ & _).
    { rewrite map_map. rewrite (map_ext _ (fun p => p)); [rewrite map_id; apply pf_paths_of; auto|]. intros p. apply dirs_pstr. }
    destruct (filed_holds i a h Hf Hfn E) as [H1 H2].
    exists h. split; auto. split; auto. intros fo f Hlen.
    apply (loop_more _ (S (length (paths_of a) + 1))).
    { unfold tree_out in Hlen. rewrite app_length in Hlen. fold a in Hlen.
      assert (1 <= length (WriteTreeHeader fmtF itoa i (wtTarget t) (wtWeight t))) by (unfold WriteTreeHeader; cbn; lia).
      assert (length (paths_of a) <= length (concat (map (node_line i a) (paths_of a)))).
      { clear. induction (paths_of a) as [|p ps IH]; cbn [map concat length]; auto. rewrite app_length.
        apply (Nat.add_le_mono 1 _ (length ps) _); [|exact IH]. unfold node_line, WriteNode. cbn. lia. }
      lia. }
    unfold tree_out. fold a. rewrite <- app_assoc. eapply loop_next; [apply reads_tree_header; auto|].
    eapply reads_nodes; eauto.
    - intros p Hp. apply paths_of_at. auto.
    - apply loop_done. destruct Hrest as [-> |(c & s & -> & Hc)]; [reflexivity|]. unfold read_step. cbn [andb].
      destruct Hc; subst; reflexivity.
  Qed.

  (** ** A forest *)
  Fixpoint trees_out (i : nat) (ts : list wtree) : bytes :=
    match ts with [] => [] | t :: ts => tree_out i t ++ trees_out (S i) ts end.
  Lemma writes_trees : forall ts i out, Forall tree_ok ts ->
    foreach (combine (seq i (length ts)) ts) (fun '((i, t) : nat * wtree) out =>
      let* w := WriteTree fmtF itoa ord t i in Ok (out ++ w)) out = Ok (out ++ trees_out i ts).
  Proof.
    induction ts as [|t ts IH]; intros i out H; cbn [length seq combine foreach trees_out]; [rewrite app_nil_r; auto|].
    inversion H; subst. rewrite writes_tree by auto. cbn [bind]. rewrite IH by auto. rewrite app_assoc. reflexivity.
  Qed.
  Lemma trees_out_next i ts : starts_next (trees_out i ts).
  Proof.
    destruct ts as [|t ts]; cbn; [left; auto|]. right. unfold tree_out, WriteTreeHeader. cbn.
    eexists. eexists. split; [reflexivity|]. auto.
  Qed.
  (** What is read is the tree that was written. *)
  Definition tree_read (r : rtree) (t : wtree) : Prop :=
    rtTarget r = wtTarget t /\ rtWeight r = read_weight (wtWeight t) /\ rtRoot r = Some 0 /\
    holds (rtHeap r) (rtRoot r) (as_filed (wtRoot t)) /\ unshared (rtHeap r) 0.
  Lemma reads_trees : forall ts i F f, ts <> [] -> Forall tree_ok ts -> length ts <= f ->
    exists rs, Forall2 tree_read rs ts /\
      loop f (forest_step PF) (trees_out i ts, Some F) = Ok (Some (mkRF (rfTarget F) (rfIntercept F) (rfTrees F ++ rs)), ENone, []).
  Proof.
    induction ts as [|t ts IH]; intros i F f Hn H Hf; [congruence|]. inversion H as [|? ? Ht Hts]; subst.
    destruct (reads_tree i t (trees_out (S i) ts) Ht (trees_out_next _ _)) as (h & H1 & H2 & H3).
    set (rt := mkRT h (Some 0) (wtTarget t) (read_weight (wtWeight t))).
    assert (Hrt : tree_read rt t) by (repeat split; auto; apply H2).
    destruct f as [|f]; [cbn in Hf; lia|].
    assert (Es : forest_step PF (trees_out i (t :: ts), Some F) =
      match end_of (trees_out (S i) ts) with
      | ENone => Ok (Next (trees_out (S i) ts, Some (add_tree F rt)))
      | _ => Ok (Done (Some (add_tree F rt), ENone, trees_out (S i) ts))
      end).
    { unfold forest_step. cbn [trees_out].
      assert (E : ReadTree PF (tree_out i t ++ trees_out (S i) ts) = Ok (Some rt, None, end_of (trees_out (S i) ts), trees_out (S i) ts)).
      { unfold ReadTree. apply H3. rewrite app_length. lia. }
      rewrite E. unfold tree_out at 1, WriteTreeHeader at 1. cbn [B list_ascii_of_string app].
      destruct (end_of (trees_out (S i) ts)); reflexivity. }
    cbn [loop]. rewrite Es. destruct ts as [|t' ts].
    - exists [rt]. split; [constructor; auto|]. reflexivity.
    - destruct (IH (S i) (add_tree F rt) f) as (rs & R1 & R2); auto; [discriminate|cbn in *; lia|].
      exists (rt :: rs). split; [constructor; auto|].
      assert (Ee : end_of (trees_out (S i) (t' :: ts)) = ENone) by reflexivity.
      rewrite Ee. cbn [bind]. rewrite R2. cbn [add_tree rfTrees rfTarget rfIntercept]. rewrite <- app_assoc. reflexivity.
  Qed.
  Lemma trees_out_length : forall ts i, length ts <= length (trees_out i ts).
  Proof.
    induction ts as [|t ts IH]; intros i; cbn [length trees_out]; auto. rewrite app_length.
    apply (Nat.add_le_mono 1 _ (length ts) _); [|apply IH]. unfold tree_out, WriteTreeHeader. cbn. lia.
  Qed.

  (** The first call, with the forest header or without. *)
  Lemma reads_forest f out : inert (B (wfTarget f)) -> Forall tree_ok (wfTrees f) ->
    (feqb (wfIntercept f) f0 = true -> exists t ts, wfTrees f = t :: ts /\ wtTarget t = wfTarget f) ->
    WriteForest fmtF itoa ord f = Ok out ->
    exists rs, Forall2 tree_read rs (wfTrees f) /\
      ReadForest PF out = Ok (Some (mkRF (wfTarget f) (read_intercept (wfIntercept f)) rs), ENone, []).
  Proof.
    intros Htg Hts H0 Ew. unfold WriteForest in Ew. rewrite writes_trees in Ew by auto. inversion Ew; subst out. clear Ew.
    unfold read_intercept. destruct (feqb (wfIntercept f) f0) eqn:Ei.
    - destruct (H0 eq_refl) as (t & ts & Ets & Et). rewrite Ets in *. inversion Hts as [|? ? Ht Hts']; subst.
      cbn [app]. set (F0 := mkRF (wfTarget f) f0 []).
      destruct (reads_tree 0 t (trees_out 1 ts) Ht (trees_out_next _ _)) as (h & H1 & H2 & H3).
      set (rt := mkRT h (Some 0) (wtTarget t) (read_weight (wtWeight t))).
      assert (Hrt : tree_read rt t) by (repeat split; auto; apply H2).
      assert (Es : forest_step PF (trees_out 0 (t :: ts), None) =
        match end_of (trees_out 1 ts) with
        | ENone => Ok (Next (trees_out 1 ts, Some (add_tree F0 rt)))
        | _ => Ok (Done (Some (add_tree F0 rt), ENone, trees_out 1 ts))
        end).
      { unfold forest_step. cbn [trees_out].
        assert (E : ReadTree PF (tree_out 0 t ++ trees_out 1 ts) = Ok (Some rt, None, end_of (trees_out 1 ts), trees_out 1 ts)).
        { unfold ReadTree. apply H3. rewrite app_length. lia. }
        rewrite E. unfold tree_out at 1, WriteTreeHeader at 1. cbn [B list_ascii_of_string app Ascii.eqb Bool.eqb andb bind].
        replace (mkRF (rtTarget rt) f0 []) with F0 by (unfold F0, rt; cbn; rewrite Et; reflexivity).
        destruct (end_of (trees_out 1 ts)); reflexivity. }
      assert (Hf : forall fu, length ts <= fu -> exists rs, Forall2 tree_read rs (t :: ts) /\
        loop (S fu) (forest_step PF) (trees_out 0 (t :: ts), None) = Ok (Some (mkRF (wfTarget f) f0 rs), ENone, [])).
      { intros fu Hfu. cbn [loop]. rewrite Es. destruct ts as [|t' ts].
        - exists [rt]. split; [constructor; auto|]. reflexivity.
        - destruct (reads_trees (t' :: ts) 1 (add_tree F0 rt) fu) as (rs & R1 & R2); auto; [discriminate|].
          exists (rt :: rs). split; [constructor; auto|].
          assert (Ee : end_of (trees_out 1 (t' :: ts)) = ENone) by reflexivity.
          rewrite Ee. cbn [bind]. rewrite R2. reflexivity. }
      destruct (Hf (length (trees_out 0 (t :: ts)))) as (rs & R1 & R2).
      { pose proof (trees_out_length (t :: ts) 0). cbn [length] in *. lia. }
      exists rs. split; [exact R1|]. exact R2.
    - set (F0 := mkRF (wfTarget f) (wfIntercept f) []).
      set (hd := WriteForestHeader fmtF itoa 0 (wfTarget f) (wfIntercept f)).
      assert (Hhd : forall x, match hd ++ x with [] => False | c :: _ => c = "F"%char end) by (intros x; reflexivity).
      assert (Hlen : 1 <= length hd) by (unfold hd, WriteForestHeader; cbn; lia).
      assert (ERF : forall x, ReadForest PF (hd ++ x) = loop (S (length (hd ++ x))) (forest_step PF) (hd ++ x, None)) by reflexivity.
      rewrite ERF. clear ERF.
      assert (Eh : forall x, read_step PF (hd ++ x, false, None, None) = Ok (Next (x, false, None, Some F0))).
      { intros x. unfold hd. rewrite reads_forest_header by auto. unfold read_intercept. rewrite Ei. reflexivity. }
      destruct (wfTrees f) as [|t ts] eqn:Ets.
      + exists []. split; [constructor|]. cbn [trees_out]. apply loop_done. unfold forest_step.
        assert (E : ReadTree PF (hd ++ []) = Ok (None, Some F0, EEof, [])).
        { unfold ReadTree. apply (loop_more _ 2); [rewrite app_length; lia|]. eapply loop_next; [apply Eh|]. apply loop_done. reflexivity. }
        specialize (Hhd []). rewrite E. destruct (hd ++ []) as [|c s]; [contradiction|]. subst c. reflexivity.
      + inversion Hts as [|? ? Ht Hts']; subst.
        destruct (reads_tree 0 t (trees_out 1 ts) Ht (trees_out_next _ _)) as (h & H1 & H2 & H3).
        set (rt := mkRT h (Some 0) (wtTarget t) (read_weight (wtWeight t))).
        assert (Hrt : tree_read rt t) by (repeat split; auto; apply H2).
        assert (Es : forest_step PF (hd ++ trees_out 0 (t :: ts), None) =
          match end_of (trees_out 1 ts) with
          | ENone => Ok (Next (trees_out 1 ts, Some (add_tree F0 rt)))
          | _ => Ok (Done (Some (add_tree F0 rt), ENone, trees_out 1 ts))
          end).
        { unfold forest_step.
          assert (E : ReadTree PF (hd ++ trees_out 0 (t :: ts)) = Ok (Some rt, Some F0, end_of (trees_out 1 ts), trees_out 1 ts)).
          { unfold ReadTree. eapply loop_next; [apply Eh|]. cbn [trees_out]. apply H3. rewrite !app_length. lia. }
          specialize (Hhd (trees_out 0 (t :: ts))). rewrite E.
          destruct (hd ++ trees_out 0 (t :: ts)) as [|c s]; [contradiction|]. subst c.
          destruct (end_of (trees_out 1 ts)); reflexivity. }
        cbn [loop]. rewrite Es. destruct ts as [|t' ts].
        * exists [rt]. split; [constructor; auto|]. reflexivity.
        * destruct (reads_trees (t' :: ts) 1 (add_tree F0 rt) (length (hd ++ trees_out 0 (t :: t' :: ts)))) as (rs & R1 & R2); auto; [discriminate| |].
          { pose proof (trees_out_length (t :: t' :: ts) 0). rewrite app_length. cbn [length] in *. lia. }
          exists (rt :: rs). split; [constructor; auto|].
          assert (Ee : end_of (trees_out 1 (t' :: ts)) = ENone) by reflexivity.
          rewrite Ee. cbn [bind]. rewrite R2. reflexivity.
  Qed.
End Writing.
