(** C61, C68, C72: Climb, the scikit export and AddNode. *)
From Verif Require Import Go GoLemmas F64 ModelFeature ModelSplit SplitSpec ModelTree TreeSpec TreeProofs PropTree.
Local Open Scope string_scope.
Local Open Scope nat_scope.
Local Open Scope list_scope.

(** ** C68 *)

(** Applying [c] along a list of nodes. *)
Fixpoint along {St} (c : nd -> St -> nd * St) (ds : list nd) (s : St) : list nd * St :=
  match ds with
  | [] => ([], s)
  | d :: ds' => let (d', s') := c d s in let (r, s'') := along c ds' s' in (d' :: r, s'')
  end.
Lemma along_app {St} (c : nd -> St -> nd * St) l l' s :
  along c (l ++ l') s = let (a, s1) := along c l s in let (b, s2) := along c l' s1 in (a ++ b, s2).
Proof.
  revert s; induction l as [|d l IH]; intros s; cbn.
  - destruct (along c l' s); auto.
  - destruct (c d s) as [d' s']. rewrite IH. destruct (along c l s') as [a s1].
    destruct (along c l' s1); auto.
Qed.
Lemma along_length {St} (c : nd -> St -> nd * St) l s : length (fst (along c l s)) = length l.
Proof.
  revert s; induction l as [|d l IH]; intros s; cbn; auto. destruct (c d s) as [d' s'].
  specialize (IH s'). destruct (along c l s'). cbn in *. auto.
Qed.

Lemma paths_of_at : forall n p, In p (paths_of n) <-> at_path n p <> Nil.
Proof.
  induction n as [|d l IHl r IHr m IHm]; intros p.
  - cbn. split; [intros []|]. intros H. exfalso. apply H. induction p as [|[] p IH]; cbn; auto.
  - cbn [paths_of]. destruct p as [|s p].
    + cbn. split; [congruence|auto].
    + cbn [at_path]. split.
      * intros [H|H]; [discriminate|].
        apply in_app_or in H as [H|H]; [|apply in_app_or in H as [H|H]];
          apply in_map_iff in H as (q & E & H); inversion E; subst; cbn [child];
          [apply IHl|apply IHr|apply IHm]; auto.
      * intros H. right. destruct s; cbn [child] in H.
        -- apply in_or_app. left. apply in_map, IHl. auto.
        -- apply in_or_app. right. apply in_or_app. left. apply in_map, IHr. auto.
        -- apply in_or_app. right. apply in_or_app. right. apply in_map, IHm. auto.
Qed.

Lemma NoDup_app' {A} (l l' : list A) : NoDup l -> NoDup l' -> (forall x, In x l -> In x l' -> False) -> NoDup (l ++ l').
Proof.
  induction 1 as [|a l Ha Hl IH]; cbn; intros H' D; auto. constructor.
  - intros H. apply in_app_or in H as [H|H]; eauto.
  - apply IH; auto. intros x A1 A2. eapply D; eauto.
Qed.

Lemma paths_of_nodup : forall n, NoDup (paths_of n).
Proof.
  assert (HN : forall s (l : list path), NoDup l -> NoDup (map (cons s) l)).
  { intros s l0 H. apply FinFun.Injective_map_NoDup; auto. intros a b E; congruence. }
  induction n as [|d l IHl r IHr m IHm]; cbn; constructor.
  - intros H. apply in_app_or in H as [H|H]; [|apply in_app_or in H as [H|H]];
      apply in_map_iff in H as (q & E & _); discriminate.
  - apply NoDup_app'; auto. { apply NoDup_app'; auto.
      intros x A B. apply in_map_iff in A as (y & <- & _). apply in_map_iff in B as (z & E & _). discriminate. }
    intros x A B. apply in_map_iff in A as (y & <- & _).
    apply in_app_or in B as [B|B]; apply in_map_iff in B as (z & E & _); discriminate.
Qed.

(** No node comes after one of its descendants. *)
Definition not_after (a b : path) : Prop := forall q, a <> b ++ q.
Lemma paths_of_parents_first : forall n, ForallOrdPairs not_after (paths_of n).
Proof.
  assert (HM : forall s l, ForallOrdPairs not_after l -> ForallOrdPairs not_after (map (cons s) l)).
  { intros s l H. induction H as [|a l Ha Hl IH]; cbn; constructor; auto.
    apply Forall_forall. intros x Hx. apply in_map_iff in Hx as (y & <- & Hy).
    rewrite Forall_forall in Ha. intros q E. apply (Ha y Hy q). cbn in E. congruence. }
  assert (HX : forall s s' (l l' : list path) a b, s <> s' -> In a (map (cons s) l) -> In b (map (cons s') l') -> not_after a b).
  { intros s s' l l' a b Hs A B q E. apply in_map_iff in A as (y & <- & _). apply in_map_iff in B as (z & <- & _).
    cbn in E. congruence. }
  induction n as [|d l IHl r IHr m IHm]; cbn; constructor.
  - apply Forall_forall. intros x Hx q E.
    apply in_app_or in Hx as [Hx|Hx]; [|apply in_app_or in Hx as [Hx|Hx]];
      apply in_map_iff in Hx as (y & <- & _); discriminate.
  - apply FOP_app; auto; [apply FOP_app; auto|].
    + intros a b. apply HX. congruence.
    + intros a b A B. apply in_app_or in B as [B|B]; [eapply (HX DL DR)|eapply (HX DL DM)]; eauto; congruence.
Qed.

Lemma nodes_of_paths : forall n, nodes_of n = map (fun p => node_nd (at_path n p)) (paths_of n).
Proof.
  induction n as [|d l IHl r IHr m IHm]; cbn; auto.
  rewrite !map_app, !map_map, IHl, IHr, IHm. reflexivity.
Qed.

Lemma climb_ok {St} (c : nd -> St -> nd * St) : forall n s,
  along c (nodes_of n) s = (nodes_of (fst (climb c n s)), snd (climb c n s))
  /\ paths_of (fst (climb c n s)) = paths_of n.
Proof.
  induction n as [|d l IHl r IHr m IHm]; intros s; cbn [nodes_of climb]; auto.
  cbn [along]. destruct (c d s) as [d' s0]. rewrite !along_app.
  destruct (IHl s0) as [El Pl]. destruct (climb c l s0) as [l' s1]. cbn [fst snd] in *. rewrite El.
  rewrite along_app. destruct (IHr s1) as [Er Pr]. destruct (climb c r s1) as [r' s2]. cbn [fst snd] in *. rewrite Er.
  destruct (IHm s2) as [Em Pm]. destruct (climb c m s2) as [m' s3]. cbn [fst snd] in *. rewrite Em.
  cbn. rewrite Pl, Pr, Pm. auto.
Qed.

(** Climb calls its function once for every node of the tree, a node before its
    descendants, threading the captured state; the shape of the tree is kept
    and every node ends up with the fields the function left in it. *)
Theorem C68_climb_visits_each_node_once : forall St (c : nd -> St -> nd * St) n s,
  n <> Nil ->
  exists order n' s',
    Climb c n s = Ok (n', s')
    /\ NoDup order
    /\ (forall p, In p order <-> at_path n p <> Nil)
    /\ ForallOrdPairs not_after order
    /\ along c (map (fun p => node_nd (at_path n p)) order) s
       = (map (fun p => node_nd (at_path n' p)) order, s')
    /\ (forall p, at_path n' p <> Nil <-> at_path n p <> Nil).
Proof.
  intros St c n s Hn. exists (paths_of n), (fst (climb c n s)), (snd (climb c n s)).
  destruct (climb_ok c n s) as [E P].
  split; [|split; [|split; [|split; [|split]]]].
  - destruct n; [congruence|]. unfold Climb. destruct (climb c _ s); auto.
  - apply paths_of_nodup.
  - apply paths_of_at.
  - apply paths_of_parents_first.
  - rewrite <- nodes_of_paths, E. f_equal. rewrite nodes_of_paths, P. auto.
  - intros p. rewrite <- !paths_of_at, P. tauto.
Qed.
Print Assumptions C68_climb_visits_each_node_once.

(** StripCodes forgets the coded splits and nothing else. *)
Theorem C68_strip_codes : forall n, n <> Nil ->
  exists n', StripCodes n = Ok n' /\
    forall p, match at_path n p, at_path n' p with
              | Nil, Nil => True
              | Node d _ _ _, Node d' _ _ _ =>
                  dCode d' = CNil /\ dSpl d' = dSpl d /\ dPred d' = dPred d /\ dFeat d' = dFeat d
              | _, _ => False
              end.
Proof.
  intros n Hn. set (c := fun d (u : unit) =>
    (if isCNil (dCode d) then d else mkNd CNil (dFeat d) (dPred d) (dSpl d), u)).
  exists (fst (climb c n tt)). split.
  - unfold StripCodes, Climb. destruct n; [congruence|]. fold c. destruct (climb c _ tt); auto.
  - clear Hn. assert (G : forall n p, match at_path n p, at_path (fst (climb c n tt)) p with
              | Nil, Nil => True
              | Node d _ _ _, Node d' _ _ _ =>
                  dCode d' = CNil /\ dSpl d' = dSpl d /\ dPred d' = dPred d /\ dFeat d' = dFeat d
              | _, _ => False
              end).
    { clear. induction n as [|d l IHl r IHr m IHm]; intros p.
      - cbn. assert (E : at_path Nil p = Nil) by (induction p as [|[] p IH]; cbn; auto). rewrite E. auto.
      - cbn [climb]. destruct (c d tt) as [d' []] eqn:Ec.
        destruct (climb c l tt) as [l' []] eqn:El. destruct (climb c r tt) as [r' []] eqn:Er.
        destruct (climb c m tt) as [m' []] eqn:Em. cbn [fst] in *.
        destruct p as [|[] p]; cbn [at_path child];
          [|apply (IHl p)|apply (IHr p)|apply (IHm p)].
        unfold c in Ec. destruct (dCode d) eqn:Ed; cbn in Ec; inversion Ec; subst; cbn; auto. }
    apply G.
Qed.
Print Assumptions C68_strip_codes.

Example C68_example :
  Climb (fun d s => (d, s ++ [dPred d])) ex_tree [] = Ok (ex_tree, [""; ""; "LL"; "LR"; ""; "RL"; "RR"; "M"]) /\
  exists t, StripCodes ex_tree = Ok t /\ node_nd (at_path t [DL]) = mkNd CNil 1 "" (Some (mkSpl "C:b" false f0 ["x"])).
Proof. split; [reflexivity|]. eexists; split; reflexivity. Qed.

(** ** C61 *)

Lemma reads_ext ns ns' i n idx : reads ns i n idx ->
  (forall k, In k idx -> nth_error ns' k = nth_error ns k) -> reads ns' i n idx.
Proof.
  intros H. induction H as [i d l r m x E1 E2 E3 E4|i d l r m s x a b ia ib E1 E2 E3 E4 E5 E6 Ha Hb R1 IH1 R2 IH2]; intros HX.
  - eapply reads_leaf; eauto. rewrite HX; auto. left; auto.
  - eapply reads_split; eauto.
    + rewrite HX; auto. left; auto.
    + apply IH1. intros k Hk. apply HX. right. apply in_or_app; auto.
    + apply IH2. intros k Hk. apply HX. right. apply in_or_app; auto.
Qed.

Lemma build_ok : forall n depth t, exportable n ->
  skCount t = length (skNodes t) -> skCap t = length (skNodes t) ->
  exists t' new, BuildScikitTree depth n t = Ok t'
    /\ skNodes t' = skNodes t ++ new
    /\ length new = sksize n
    /\ skCount t' = length (skNodes t') /\ skCap t' = length (skNodes t')
    /\ skDepth t' = Nat.max (skDepth t) (depth + skheight n)
    /\ reads (skNodes t') (length (skNodes t)) n (seq (length (skNodes t)) (sksize n)).
Proof.
  induction n as [|d l IHl r IHr m IHm]; intros depth t Hex Hc Hcap; [destruct Hex|].
  cbn [exportable sksize skheight] in *. cbn [BuildScikitTree].
  assert (Hmax : (if skDepth t <? depth then depth else skDepth t) = Nat.max (skDepth t) depth).
  { destruct (Nat.ltb_spec (skDepth t) depth); lia. }
  rewrite Hmax. cbn [skNodes skCount skCap skDepth].
  destruct (dSpl d) as [s|] eqn:Es.
  - destruct Hex as [Hl Hr]. rewrite set_mid by auto. cbn [bind].
    destruct (IHl (S depth) (mkSkt (Nat.max (skDepth t) depth) (S (skCount t)) (S (skCap t))
       (skNodes t ++ [mkSk (Z.of_nat (S (skCount t))) 0 (dFeat d) (sValue s)])) Hl)
      as (t1 & new1 & E1 & N1 & L1 & C1 & P1 & D1 & R1);
      try (cbn; rewrite app_length; cbn; lia).
    rewrite E1. cbn [bind skNodes skDepth] in *. rewrite N1, <- app_assoc.
    cbn [app]. rewrite get_mid by auto. cbn [bind skLeft skFeat skThr]. rewrite set_mid by auto. cbn [bind].
    set (x := mkSk (Z.of_nat (S (skCount t))) (Z.of_nat (skCount t1)) (dFeat d) (sValue s)).
    destruct (IHr (S depth) (mkSkt (skDepth t1) (skCount t1) (skCap t1) (skNodes t ++ x :: new1)) Hr)
      as (t2 & new2 & E2 & N2 & L2 & C2 & P2 & D2 & R2);
      try (cbn; rewrite ?C1, ?P1, ?N1, !app_length; cbn; lia).
    cbn [skNodes skDepth skCount] in *. exists t2, (x :: new1 ++ new2).
    assert (Hlen1 : length (skNodes t ++ [mkSk (Z.of_nat (S (skCount t))) 0 (dFeat d) (sValue s)]) = S (length (skNodes t)))
      by (rewrite app_length; cbn; lia).
    assert (Hlen2 : length (skNodes t ++ x :: new1) = S (length (skNodes t) + sksize l))
      by (rewrite app_length; cbn; lia).
    split; auto. split. { rewrite N2, <- app_assoc. auto. }
    split. { cbn. rewrite app_length. lia. }
    split; auto. split; auto. split. { rewrite D2, D1. cbn. lia. }
    change (1 + sksize l + sksize r) with (S (sksize l + sksize r)). cbn [seq].
    rewrite seq_app.
    rewrite Hlen1 in R1. rewrite Hlen2 in R2.
    replace (S (length (skNodes t)) + sksize l) with (S (length (skNodes t) + sksize l)) by lia.
    eapply reads_split with (s := s) (x := x) (a := S (length (skNodes t))) (b := S (length (skNodes t) + sksize l)); auto.
    + rewrite N2, <- app_assoc. cbn. apply nth_error_mid.
    + cbn. rewrite Hc. lia.
    + cbn. rewrite C1, N1, !app_length. cbn. lia.
    + lia.
    + eapply reads_ext; [exact R1|]. intros k Hk. apply in_seq in Hk.
      rewrite N2, N1, <- !app_assoc. rewrite !(nth_error_app2 (skNodes t)) by lia. cbn [app].
      destruct (k - length (skNodes t)) as [|k'] eqn:Ek; [lia|]. cbn.
      rewrite nth_error_app1 by lia. auto.
  - rewrite set_mid by auto. cbn [bind].
    exists (mkSkt (Nat.max (skDepth t) depth) (S (skCount t)) (S (skCap t)) (skNodes t ++ [mkSk (-1) (-1) 0 f0])),
      [mkSk (-1) (-1) 0 f0].
    cbn [skNodes skCount skCap skDepth length seq]. rewrite app_length. cbn [length].
    repeat split; auto; try lia.
    eapply reads_leaf; eauto using nth_error_mid.
Qed.

(** Following the child indices from node 0 rebuilds the tree and meets every
    index exactly once; the counters are the number of nodes and the depth. *)
Theorem C61_scikit_layout_is_the_tree : forall t, exportable t ->
  exists sk, BuildScikitTree 0 t NewScikitTree = Ok sk
    /\ reads (skNodes sk) 0 t (seq 0 (length (skNodes sk)))
    /\ length (skNodes sk) = sksize t
    /\ skCount sk = sksize t /\ skCap sk = sksize t /\ skDepth sk = skheight t.
Proof.
  intros t H. destruct (build_ok t 0 NewScikitTree H eq_refl eq_refl) as (t' & new & E & N & L & C & P & D & R).
  cbn [skNodes NewScikitTree app length skDepth] in *. exists t'.
  split; auto. rewrite N in *. rewrite L. repeat split; auto; try congruence.
Qed.
Print Assumptions C61_scikit_layout_is_the_tree.

Lemma reads_facts ns i n idx : reads ns i n idx ->
  forall k, In k idx -> k < length ns /\ exists x, nth_error ns k = Some x /\
    ((skLeft x = (-1)%Z /\ skRight x = (-1)%Z) \/
     exists a b, skLeft x = Z.of_nat a /\ skRight x = Z.of_nat b /\ k < a /\ k < b /\ In a idx /\ In b idx).
Proof.
  assert (Hhd : forall i n idx, reads ns i n idx -> In i idx).
  { intros i0 n0 idx0 H; inversion H; subst; left; auto. }
  intros H. induction H as [i d l r m x E1 E2 E3 E4|i d l r m s x a b ia ib E1 E2 E3 E4 E5 E6 Ha Hb R1 IH1 R2 IH2]; intros k Hk.
  - destruct Hk as [<-|[]]. split; [eapply nth_error_some_lt; eauto|]. exists x. split; auto.
  - destruct Hk as [<-|Hk].
    + split; [eapply nth_error_some_lt; eauto|]. exists x. split; auto. right. exists a, b.
      repeat split; auto; right; apply in_or_app; eauto.
    + apply in_app_or in Hk as [Hk|Hk]; [destruct (IH1 k Hk) as (A & y & B & C)|destruct (IH2 k Hk) as (A & y & B & C)];
        (split; auto; exists y; split; auto; destruct C as [C|(a' & b' & C1 & C2 & C3 & C4 & C5 & C6)]; auto;
         right; exists a', b'; repeat split; auto; right; apply in_or_app; auto).
Qed.

(** Child indices are in range and larger than the index of their parent. *)
Theorem C61_child_indices : forall t, exportable t ->
  exists sk, BuildScikitTree 0 t NewScikitTree = Ok sk /\
  forall k x, nth_error (skNodes sk) k = Some x ->
    (skLeft x = (-1)%Z /\ skRight x = (-1)%Z) \/
    exists a b, skLeft x = Z.of_nat a /\ skRight x = Z.of_nat b /\ k < a /\ k < b /\
                a < length (skNodes sk) /\ b < length (skNodes sk).
Proof.
  intros t H. destruct (C61_scikit_layout_is_the_tree t H) as (sk & E & R & L & _).
  exists sk. split; auto. intros k x Hx. pose proof (nth_error_some_lt _ _ Hx) as Hk.
  destruct (reads_facts _ _ _ _ R k) as (_ & y & Hy & [C|(a & b & C1 & C2 & C3 & C4 & C5 & C6)]).
  { apply in_seq. lia. }
  - left. replace x with y by congruence. auto.
  - right. exists a, b. replace x with y by congruence. apply in_seq in C5, C6. repeat split; auto; lia.
Qed.
Print Assumptions C61_child_indices.

Example C61_example : exportable ex_tree /\
  BuildScikitTree 0 ex_tree NewScikitTree = Ok (mkSkt 2 7 7
    [mkSk 1 4 0 f1; mkSk 2 3 1 f0; mkSk (-1) (-1) 0 f0; mkSk (-1) (-1) 0 f0;
     mkSk 5 6 0 f0; mkSk (-1) (-1) 0 f0; mkSk (-1) (-1) 0 f0]).
Proof. split; [cbn; auto|vm_compute; reflexivity]. Qed.

(** ** C72 *)

Lemma find_snoc h : forall p k x,
  find h k (p ++ [x]) = match find h k p with
                        | None => None
                        | Some k' => match nth_error h k' with None => None | Some y => hchild y x end
                        end.
Proof.
  induction p as [|s p IH]; intros k x; cbn.
  - destruct (nth_error h k) as [y|]; auto. destruct (hchild y x); auto.
  - destruct (nth_error h k) as [y|]; auto. destruct (hchild y s); auto.
Qed.

Lemma add_step_exists c n h loc x k s :
  nth_error h loc = Some x -> dirs (String c EmptyString) = [s] -> hchild x s = Some k ->
  add_step c n h loc = Ok (h, k).
Proof.
  intros Hx Hd Hk. unfold add_step. rewrite (get_nth _ _ Hx). cbn [bind]. cbn in Hd.
  destruct (Ascii.eqb c "L"); [|destruct (Ascii.eqb c "R"); [|destruct (Ascii.eqb c "M")]];
    inversion Hd; subst; cbn in Hk; rewrite Hk; auto.
Qed.

Definition with_child (x : hnode) (s : dir) (n : nat) : hnode :=
  match s with
  | DL => mkH (hPred x) (hSpl x) (Some n) (hR x) (hM x)
  | DR => mkH (hPred x) (hSpl x) (hL x) (Some n) (hM x)
  | DM => mkH (hPred x) (hSpl x) (hL x) (hR x) (Some n)
  end.

Lemma add_step_new c n h loc x s :
  nth_error h loc = Some x -> dirs (String c EmptyString) = [s] -> hchild x s = None ->
  add_step c n h loc = Ok (upd h loc (with_child x s n), n).
Proof.
  intros Hx Hd Hk. unfold add_step. rewrite (get_nth _ _ Hx). cbn [bind]. cbn in Hd.
  pose proof (nth_error_some_lt _ _ Hx) as Hlt.
  destruct (Ascii.eqb c "L"); [|destruct (Ascii.eqb c "R"); [|destruct (Ascii.eqb c "M")]];
    inversion Hd; subst; cbn in Hk; rewrite Hk, set_ok by auto; auto.
Qed.

Lemma add_step_skip c n h loc x :
  nth_error h loc = Some x -> dirs (String c EmptyString) = [] -> add_step c n h loc = Ok (h, loc).
Proof.
  intros Hx Hd. unfold add_step. rewrite (get_nth _ _ Hx). cbn [bind]. cbn in Hd.
  destruct (Ascii.eqb c "L"); [discriminate|destruct (Ascii.eqb c "R"); [discriminate|destruct (Ascii.eqb c "M")]];
    [discriminate|auto].
Qed.

Lemma dirs_cons c s : dirs (String c s) = dirs (String c EmptyString) ++ dirs s.
Proof. cbn. destruct (Ascii.eqb c "L"), (Ascii.eqb c "R"), (Ascii.eqb c "M"); auto. Qed.
Lemma dirs_one c : dirs (String c EmptyString) = [] \/ exists s, dirs (String c EmptyString) = [s].
Proof. cbn. destruct (Ascii.eqb c "L"), (Ascii.eqb c "R"), (Ascii.eqb c "M"); eauto. Qed.

(** Pointers stay inside the heap. *)
Definition closed (h : list hnode) : Prop :=
  forall k x s k', nth_error h k = Some x -> hchild x s = Some k' -> k' < length h.

Lemma add_walk_exists n h : closed h -> forall path loc k,
  loc < length h -> find h loc (dirs path) = Some k -> add_walk path n h loc = Ok (h, k).
Proof.
  intros HC. induction path as [|c path IH]; intros loc k Hl Hf.
  - cbn in *. congruence.
  - rewrite dirs_cons in Hf. cbn [add_walk].
    destruct (nth_error h loc) as [x|] eqn:Hx; [|apply nth_error_None in Hx; lia].
    destruct (dirs_one c) as [E|(s & E)]; rewrite E in Hf; cbn [app] in Hf.
    + rewrite (add_step_skip c n h loc x) by auto. cbn. auto.
    + cbn in Hf. rewrite Hx in Hf. destruct (hchild x s) as [k'|] eqn:Ek; [|discriminate].
      rewrite (add_step_exists c n h loc x k' s) by auto. cbn. apply IH; auto. eapply HC; eauto.
Qed.

Lemma add_walk_trailing n h : forall path loc x, nth_error h loc = Some x -> dirs path = [] -> add_walk path n h loc = Ok (h, loc).
Proof.
  induction path as [|c path IH]; intros loc x Hx E; cbn [add_walk]; auto.
  rewrite dirs_cons in E. apply app_eq_nil in E as [E1 E2].
  rewrite (add_step_skip c n h loc x) by auto. cbn. eauto.
Qed.

Lemma add_walk_new n h : closed h -> n < length h -> forall path p s loc k x,
  loc < length h -> dirs path = p ++ [s] -> find h loc p = Some k ->
  nth_error h k = Some x -> hchild x s = None ->
  add_walk path n h loc = Ok (upd h k (with_child x s n), n).
Proof.
  intros HC Hn. induction path as [|c path IH]; intros p s loc k x Hl Hd Hf Hx Hs.
  - cbn in Hd. destruct p; discriminate.
  - rewrite dirs_cons in Hd. cbn [add_walk].
    destruct (nth_error h loc) as [y|] eqn:Hy; [|apply nth_error_None in Hy; lia].
    destruct (dirs_one c) as [E|(s' & E)]; rewrite E in Hd; cbn [app] in Hd.
    + rewrite (add_step_skip c n h loc y) by auto. cbn. eapply IH; eauto.
    + destruct p as [|s0 p]; cbn in Hd; inversion Hd; subst.
      * cbn in Hf. inversion Hf; subst. assert (y = x) by congruence. subst.
        rewrite (add_step_new c n h k x s) by auto. cbn [bind].
        destruct (nth_error (upd h k (with_child x s n)) n) as [z|] eqn:Ez.
        2:{ apply nth_error_None in Ez. rewrite upd_length in Ez. lia. }
        eapply add_walk_trailing; eauto.
      * cbn in Hf. rewrite Hy in Hf. destruct (hchild y s0) as [k'|] eqn:Ek; [|discriminate].
        rewrite (add_step_exists c n h loc y k' s0) by auto. cbn. eapply IH; eauto.
Qed.

(** One addition below an existing node at a free place. *)
Lemma AddNode_new h r path pred spl p s k :
  closed h -> r < length h -> dirs path = p ++ [s] -> find h r p = Some k ->
  find h r (p ++ [s]) = None -> k < length h ->
  (forall q, find h r q = Some k -> q = p) ->
  (forall q j, find h r q = Some j -> j < length h) ->
  exists h', AddNode h (Some r) path pred spl = Ok (h', Some r)
    /\ length h' = S (length h) /\ closed h'
    /\ (forall j x, nth_error h j = Some x -> exists x', nth_error h' j = Some x' /\ hPred x' = hPred x /\ hSpl x' = hSpl x)
    /\ (exists x', nth_error h' (length h) = Some x' /\ hPred x' = pred /\ hSpl x' = spl)
    /\ forall q, find h' r q = if path_dec q (p ++ [s]) then Some (length h) else find h r q.
Proof.
  intros HC Hr Hd Hf Hnone Hk Hinj Hrange. set (n := length h).
  set (new := mkH pred spl None None None). set (h0 := h ++ [new]).
  assert (Hlen0 : length h0 = S n) by (unfold h0; rewrite app_length; cbn; lia).
  assert (Hold : forall j, j < n -> nth_error h0 j = nth_error h j) by (intros; apply nth_error_app1; auto).
  assert (Hnew : nth_error h0 n = Some new) by (apply nth_error_mid).
  assert (HC0 : closed h0).
  { intros j x d j' Hx Hj. rewrite Hlen0. destruct (Nat.lt_ge_cases j n) as [L|L].
    - rewrite Hold in Hx by auto. specialize (HC _ _ _ _ Hx Hj). unfold n. lia.
    - assert (j = n). { pose proof (nth_error_some_lt _ _ Hx). lia. } subst j. rewrite Hnew in Hx.
      inversion Hx; subst. destruct d; discriminate. }
  assert (Hf0 : forall q j, find h r q = Some j -> find h0 r q = Some j).
  { induction q as [|d q IH] using rev_ind; intros j Hj; [cbn in *; auto|].
    rewrite find_snoc in Hj |- *. destruct (find h r q) as [j0|] eqn:Eq; [|discriminate].
    rewrite (IH j0 eq_refl). rewrite Hold by (eapply Hrange; eauto). auto. }
  destruct (nth_error h k) as [x|] eqn:Hx; [|apply nth_error_None in Hx; lia].
  assert (Hs : hchild x s = None). { rewrite find_snoc, Hf, Hx in Hnone. auto. }
  set (h1 := upd h0 k (with_child x s n)).
  assert (Hat : forall j, nth_error h1 j = if j =? k then Some (with_child x s n) else nth_error h0 j).
  { intros j. unfold h1. rewrite nth_error_upd.
    destruct (j =? k) eqn:E; cbn [andb]; auto.
    replace (k <? length h0) with true; auto. symmetry. apply Nat.ltb_lt. lia. }
  exists h1. split.
  { unfold AddNode. fold n new h0. rewrite (add_walk_new n h0 HC0) with (p := p) (s := s) (k := k) (x := x); auto; try lia.
    rewrite Hold; auto. }
  split. { unfold h1. rewrite upd_length. auto. }
  assert (HW1 : forall d, hchild (with_child x s n) d = if dir_dec d s then Some n else hchild x d).
  { intros d. destruct s, d; cbn; auto. }
  split.
  { intros j y d j' Hy Hj. unfold h1. rewrite upd_length, Hlen0. rewrite Hat in Hy.
    destruct (j =? k).
    - inversion Hy; subst. rewrite HW1 in Hj. destruct (dir_dec d s); [inversion Hj; lia|].
      specialize (HC _ _ _ _ Hx Hj). unfold n. lia.
    - specialize (HC0 _ _ _ _ Hy Hj). lia. }
  split.
  { intros j y Hy. pose proof (nth_error_some_lt _ _ Hy) as Hj. rewrite Hat. destruct (j =? k) eqn:E.
    - apply Nat.eqb_eq in E; subst. assert (y = x) by congruence. subst. eexists; split; [reflexivity|].
      destruct s; auto.
    - rewrite Hold by auto. eauto. }
  split.
  { exists new. rewrite Hat. destruct (n =? k) eqn:E; [apply Nat.eqb_eq in E; unfold n in *; lia|]. auto. }
  induction q as [|d q IH] using rev_ind.
  - destruct (path_dec [] (p ++ [s])) as [E|E]; [destruct p; discriminate|reflexivity].
  - rewrite !find_snoc, IH. destruct (path_dec q (p ++ [s])) as [E|E].
    + destruct (path_dec (q ++ [d]) (p ++ [s])) as [E'|E'].
      { apply app_inj_tail in E' as [E' _]. subst q. exfalso.
        apply (f_equal (@length dir)) in E'. rewrite app_length in E'. cbn in E'. lia. }
      subst q. rewrite Hat. fold n. destruct (n =? k) eqn:En; [apply Nat.eqb_eq in En; unfold n in *; lia|].
      rewrite Hnew, Hnone. destruct d; auto.
    + destruct (find h r q) as [j|] eqn:Ej.
      * rewrite Hat. destruct (j =? k) eqn:Ejk.
        -- apply Nat.eqb_eq in Ejk; subst. specialize (Hinj q Ej). subst q. rewrite HW1, Hx.
           destruct (dir_dec d s), (path_dec (p ++ [d]) (p ++ [s])) as [E'|E']; subst; auto.
           ++ congruence.
           ++ apply app_inj_tail in E' as [_ E']. congruence.
        -- rewrite Hold by (eapply Hrange; eauto).
           destruct (path_dec (q ++ [d]) (p ++ [s])) as [E'|E']; auto.
           apply app_inj_tail in E' as [E' _]. subst q. rewrite Hf in Ej. inversion Ej; subst.
           rewrite Nat.eqb_refl in Ejk. discriminate.
      * destruct (path_dec (q ++ [d]) (p ++ [s])) as [E'|E']; auto.
        apply app_inj_tail in E' as [E' _]. subst q. congruence.
Qed.

(** A sequence of additions. *)
Record entry := mkE { enPath : string; enPred : string; enSpl : option splitter }.
Definition add_all (es : list entry) (t : list hnode * option nat) : res (list hnode * option nat) :=
  foreach es (fun e '((h, r) : list hnode * option nat) => AddNode h r (enPath e) (enPred e) (enSpl e)) t.

(** The root first, every other path after its parent, no path twice. *)
Inductive parents_first : list path -> Prop :=
| pf_root : parents_first [[]]
| pf_add ps p s : parents_first ps -> In p ps -> ~ In (p ++ [s]) ps -> parents_first (ps ++ [p ++ [s]]).

Lemma parents_first_nodup ps : parents_first ps -> NoDup ps.
Proof.
  induction 1; [constructor; [intros []|constructor]|].
  apply NoDup_app'; auto. constructor; [intros []|constructor].
  intros x A [<-|[]]. contradiction.
Qed.

Lemma foreach_snoc {A St} (l : list A) a (body : A -> St -> res St) s :
  foreach (l ++ [a]) body s = let* s' := foreach l body s in body a s'.
Proof. rewrite foreach_app. destruct (foreach l body s); cbn; auto. destruct (body a a0); auto. Qed.

Theorem C72_paths_address_nodes : forall es,
  parents_first (map (fun e => dirs (enPath e)) es) ->
  exists h, add_all es ([], None) = Ok (h, Some 0)
    /\ length h = length es
    /\ (forall q k, find h 0 q = Some k <-> nth_error (map (fun e => dirs (enPath e)) es) k = Some q)
    /\ (forall k e, nth_error es k = Some e ->
          exists x, nth_error h k = Some x /\ hPred x = enPred e /\ hSpl x = enSpl e).
Proof.
  intros es. remember (map (fun e => dirs (enPath e)) es) as ps eqn:Hps. intros H. revert es Hps.
  assert (G : forall es, ps = map (fun e => dirs (enPath e)) es ->
    exists h, add_all es ([], None) = Ok (h, Some 0)
    /\ length h = length es /\ closed h
    /\ (forall q k, find h 0 q = Some k <-> nth_error (map (fun e => dirs (enPath e)) es) k = Some q)
    /\ (forall k e, nth_error es k = Some e ->
          exists x, nth_error h k = Some x /\ hPred x = enPred e /\ hSpl x = enSpl e)).
  { induction H as [|ps p s H IH Hin Hni]; intros es Hps.
    - destruct es as [|e [|]]; try discriminate. cbn in Hps. inversion Hps as [Hd].
      exists [mkH (enPred e) (enSpl e) None None None]. cbn. split; [reflexivity|]. split; [reflexivity|].
      split; [|split].
      + intros k x d k' Hx Hk. destruct k as [|[|]]; cbn in Hx; try discriminate. inversion Hx; subst. destruct d; discriminate.
      + intros q k. rewrite <- Hd. destruct q as [|d q].
        * cbn. split; [intros E; inversion E; auto|]. destruct k as [|[|]]; cbn; auto; discriminate.
        * cbn. split; [destruct d; discriminate|]. destruct k as [|[|]]; discriminate.
      + intros k e' Hk. destruct k as [|[|]]; cbn in Hk; try discriminate. inversion Hk; subst. cbn. eauto.
    - destruct (@exists_last _ es) as (es' & e & ->).
      { intros ->. destruct ps; discriminate. }
      rewrite map_app in Hps. cbn in Hps. apply app_inj_tail in Hps as [Hps Hd].
      destruct (IH es' Hps) as (h & E & L & HC & HF & HN).
      pose proof (parents_first_nodup _ H) as ND.
      assert (Hlen : length ps = length h) by (rewrite Hps, map_length; auto).
      apply In_nth_error in Hin as [k Hk].
      assert (Hfk : find h 0 p = Some k) by (apply HF; rewrite <- Hps; auto).
      assert (Hpos : 0 < length h) by (pose proof (nth_error_some_lt _ _ Hk); lia).
      destruct (AddNode_new h 0 (enPath e) (enPred e) (enSpl e) p s k) as (h' & E' & L' & HC' & HO & HNew & HF'); auto.
      { destruct (find h 0 (p ++ [s])) as [j|] eqn:Ej; auto. exfalso. apply Hni.
        apply HF in Ej. rewrite <- Hps in Ej. eapply nth_error_In; eauto. }
      { rewrite <- Hlen. eapply nth_error_some_lt; eauto. }
      { intros q Hq. apply HF in Hq. rewrite <- Hps in Hq. congruence. }
      { intros q j Hq. apply HF in Hq. rewrite <- Hps in Hq. rewrite <- Hlen. eapply nth_error_some_lt; eauto. }
      exists h'. split; [|split; [|split; [|split]]]; auto.
      + unfold add_all in *. rewrite foreach_snoc, E. cbn [bind]. exact E'.
      + rewrite app_length. cbn. lia.
      + intros q j. rewrite HF', map_app, <- Hps. cbn [map]. rewrite <- Hd.
        destruct (path_dec q (p ++ [s])) as [->|Hne].
        * split.
          -- intros Hj. inversion Hj; subst j. rewrite <- Hlen. apply nth_error_mid.
          -- intros Hj. f_equal. destruct (Nat.lt_ge_cases j (length ps)) as [Lj|Lj].
             ++ rewrite nth_error_app1 in Hj by auto. exfalso. apply Hni. eapply nth_error_In; eauto.
             ++ rewrite nth_error_app2 in Hj by auto. destruct (j - length ps) as [|[|]] eqn:Ej; cbn in Hj; try discriminate. lia.
        * rewrite HF, <- Hps. split; intros Hj.
          -- rewrite nth_error_app1; auto. eapply nth_error_some_lt; eauto.
          -- destruct (Nat.lt_ge_cases j (length ps)) as [Lj|Lj].
             ++ rewrite nth_error_app1 in Hj by auto. auto.
             ++ rewrite nth_error_app2 in Hj by auto. destruct (j - length ps) as [|[|]] eqn:Ej; cbn in Hj; try discriminate.
                inversion Hj; congruence.
      + intros j e' Hj. destruct (Nat.lt_ge_cases j (length es')) as [Lj|Lj].
        * rewrite nth_error_app1 in Hj by auto. destruct (HN j e' Hj) as (x & A & B & C).
          destruct (HO j x A) as (x' & A' & B' & C'). exists x'. repeat split; auto; congruence.
        * rewrite nth_error_app2 in Hj by auto. destruct (j - length es') as [|[|]] eqn:Ej; cbn in Hj; try discriminate.
          inversion Hj; subst e'. destruct HNew as (x' & A' & B' & C'). exists x'.
          replace j with (length h) by lia. auto. }
  intros es Hps. destruct (G es Hps) as (h & A & B & _ & C & D). exists h. rewrite Hps. auto.
Qed.
Print Assumptions C72_paths_address_nodes.

(** Adding under a path that exists already changes nothing that can be found. *)
Theorem C72_existing_nodes_are_kept : forall h r path pred spl k,
  closed h -> r < length h -> find h r (dirs path) = Some k ->
  (forall q j, find h r q = Some j -> j < length h) ->
  AddNode h (Some r) path pred spl = Ok (h ++ [mkH pred spl None None None], Some r)
  /\ forall q, find (h ++ [mkH pred spl None None None]) r q = find h r q.
Proof.
  intros h r path pred spl k HC Hr Hf Hrange. set (new := mkH pred spl None None None).
  assert (HC0 : closed (h ++ [new])).
  { intros j x d j' Hx Hj. rewrite app_length. cbn. destruct (Nat.lt_ge_cases j (length h)) as [L|L].
    - rewrite nth_error_app1 in Hx by auto. specialize (HC _ _ _ _ Hx Hj). lia.
    - rewrite nth_error_app2 in Hx by auto. destruct (j - length h) as [|[|]]; cbn in Hx; try discriminate.
      inversion Hx; subst. destruct d; discriminate. }
  assert (HF : forall q, find (h ++ [new]) r q = find h r q).
  { induction q as [|d q IH] using rev_ind; [reflexivity|]. rewrite !find_snoc, IH.
    destruct (find h r q) as [j|] eqn:Ej; auto. rewrite nth_error_app1; auto. eapply Hrange; eauto. }
  split; auto. unfold AddNode. fold new.
  rewrite (add_walk_exists (length h) (h ++ [new]) HC0 path r k); auto.
  - rewrite app_length. lia.
  - rewrite HF. auto.
Qed.
Print Assumptions C72_existing_nodes_are_kept.

Example C72_example :
  let es := [mkE "*" "" None; mkE "*R" "r" None; mkE "*L" "l" None; mkE "*LM" "lm" None] in
  parents_first (map (fun e => dirs (enPath e)) es) /\
  (let* (h, _) := add_all es ([], None) in Ok (find h 0 [DL; DM])) = Ok (Some 3).
Proof.
  cbv zeta. split; [|reflexivity]. cbn.
  apply (pf_add [[]; [DR]; [DL]] [DL] DM); [|cbn; auto|cbn; intuition discriminate].
  apply (pf_add [[]; [DR]] [] DL); [|cbn; auto|cbn; intuition discriminate].
  apply (pf_add [[]] [] DR); [|cbn; auto|cbn; intuition discriminate].
  constructor.
Qed.
