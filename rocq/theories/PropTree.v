(** C17, C18, C26, C61, C68, C72, C75: traversing and building trees. *)
From Verif Require Import Go GoLemmas F64 ModelFeature ModelSplit SplitSpec ModelBallot Conc BallotSpec BallotProofs
  PropBallot ModelTree TreeSpec TreeProofs.
Local Open Scope string_scope.
Local Open Scope nat_scope.
Local Open Scope list_scope.

(** ** C17 *)

Lemma foreach_leaves vs : Forall (fun v => isLeaf (vNode v) = Ok (vterm v)) vs -> forall acc,
  foreach vs (fun v '((leaves, preds) : list (nat * nat) * list string) =>
    let* lf := isLeaf (vNode v) in
    Ok (if lf then (leaves ++ [(vLo v, vHi v)], preds ++ [node_pred (vNode v)])
        else (leaves, preds))) acc
  = Ok (fst acc ++ map vwin (filter vterm vs),
        snd acc ++ map (fun v => node_pred (vNode v)) (filter vterm vs)).
Proof.
  induction 1 as [|v vs Hv Hvs IH]; intros [a b]; cbn.
  - rewrite !app_nil_r; auto.
  - rewrite Hv. cbn [bind]. rewrite IH. destruct (vterm v); cbn; auto.
    rewrite <- !app_assoc. auto.
Qed.

Definition spl_adds (fm : fmatrix) (v : visit) : addcalls :=
  match node_spl (vNode v) with
  | Some s => map (fun c => (c, fmIndex fm (sFeature s), 1%Z)) (vCases v)
  | None => []
  end.

Lemma foreach_getleaves fm vs : Forall (fun v => isLeaf (vNode v) = Ok (vterm v)) vs -> forall acc cnt,
  foreach vs (fun v '((leaves, cnt) : list leaf * option addcalls) =>
    let* lf := isLeaf (vNode v) in
    let leaves' := if lf then leaves ++ [mkLeaf (vLo v) (vHi v) (node_pred (vNode v))] else leaves in
    match cnt, node_spl (vNode v) with
    | Some m, Some s =>
        Ok (leaves', Some (m ++ map (fun c => (c, fmIndex fm (sFeature s), 1%Z)) (vCases v)))
    | _, _ => Ok (leaves', cnt)
    end) (acc, cnt)
  = Ok (acc ++ map (fun v => mkLeaf (vLo v) (vHi v) (node_pred (vNode v))) (filter vterm vs),
        match cnt with None => None | Some m => Some (m ++ flat_map (spl_adds fm) vs) end).
Proof.
  induction 1 as [|v vs Hv Hvs IH]; intros a cnt; cbn.
  - destruct cnt; rewrite !app_nil_r; auto.
  - rewrite Hv. cbn [bind].
    assert (HH : forall cnt',
      foreach vs (fun v '((leaves, cnt) : list leaf * option addcalls) =>
        let* lf := isLeaf (vNode v) in
        let leaves' := if lf then leaves ++ [mkLeaf (vLo v) (vHi v) (node_pred (vNode v))] else leaves in
        match cnt, node_spl (vNode v) with
        | Some m, Some s =>
            Ok (leaves', Some (m ++ map (fun c => (c, fmIndex fm (sFeature s), 1%Z)) (vCases v)))
        | _, _ => Ok (leaves', cnt)
        end) (if vterm v then a ++ [mkLeaf (vLo v) (vHi v) (node_pred (vNode v))] else a, cnt')
      = Ok (a ++ map (fun v => mkLeaf (vLo v) (vHi v) (node_pred (vNode v)))
                   (if vterm v then v :: filter vterm vs else filter vterm vs),
            match cnt' with None => None | Some m => Some (m ++ flat_map (spl_adds fm) vs) end)).
    { intros cnt'. rewrite IH. destruct (vterm v); cbn; auto. rewrite <- app_assoc. auto. }
    unfold spl_adds at 1. destruct cnt as [m|]; [destruct (node_spl (vNode v))|]; cbn [bind]; rewrite HH; auto.
    rewrite <- app_assoc. auto.
Qed.

(** The leaf a path leads to, and its content. *)
Definition leaf_at (fm : fmatrix) (t : node) (cases arr : list nat) (p : path) (lf : leaf) : Prop :=
  (exists d m, at_path t p = Node d Nil Nil m /\ terminal d = true /\ lfPred lf = dPred d) /\
  exists cs, slice arr (lfLo lf) (lfHi lf) = Ok cs /\ Permutation cs (filter (ends_at fm t p) cases).
Definition lwin (lf : leaf) : nat * nat := (lfLo lf, lfHi lf).

Lemma GetLeaves_ok fm t f fbycase :
  nth_error (fmData fm) 0 = Some f -> t <> Nil -> well_formed t ->
  usable fm (seq 0 (fLength f)) t ->
  exists arr leaves cnt paths,
    GetLeaves fm t fbycase = Ok (arr, (leaves, cnt))
    /\ TreePartition fm t = Ok (arr, (map lwin leaves, map lfPred leaves))
    /\ Permutation (seq 0 (fLength f)) arr
    /\ ForallOrdPairs apart (map lwin leaves)
    /\ NoDup paths
    /\ Forall2 (leaf_at fm t (seq 0 (fLength f)) arr) paths leaves
    /\ (forall c p, c < fLength f -> follow fm t c = Some p -> In p paths)
    /\ match fbycase with
       | None => cnt = None
       | Some m => exists adds, cnt = Some (m ++ adds) /\
           forall c k, sum_added c k adds =
             Z.of_nat (list_sum (map (fun e => (match dSpl (node_nd (eNode e)) with
                                      | Some s => if fmIndex fm (sFeature s) =? k then 1 else 0
                                      | None => 0 end) * occ c (eCases e))
                      (expected fm t (seq 0 (fLength f)) 0)))
             /\ Forall (fun '(_, _, v) => v = 1%Z) adds
       end.
Proof.
  intros Hf Hn Hwf Hus. set (w := seq 0 (fLength f)) in *.
  destruct (traversal fm t w Hn Hwf Hus) as (w' & vs & E & P & F & HL & O & paths & ND & FP & HC).
  exists w', (map (fun v => mkLeaf (vLo v) (vHi v) (node_pred (vNode v))) (filter vterm vs)),
    (match fbycase with None => None | Some m => Some (m ++ flat_map (spl_adds fm) vs) end), paths.
  assert (Ec : allcases fm = Ok w).
  { unfold allcases. rewrite (get_nth _ _ Hf). reflexivity. }
  split; [|split; [|split; [|split; [|split; [|split; [|split]]]]]]; auto.
  - unfold GetLeaves. rewrite Ec. cbn [bind]. rewrite E, foreach_getleaves by auto. reflexivity.
  - unfold TreePartition. rewrite Ec. cbn [bind]. rewrite E, foreach_leaves by auto. cbn.
    rewrite !map_map. reflexivity.
  - rewrite map_map. exact O.
  - clear - FP. induction FP as [|p v ps lv (A & B & C) FP IH]; cbn; constructor; auto.
    split; auto. exists (vCases v). auto.
  - intros c p Hc Hp. eapply HC; eauto. apply in_seq. lia.
  - destruct fbycase as [m|]; auto. eexists; split; [reflexivity|]. intros c k. split.
    + rewrite <- (map_id (expected fm t w 0)) at 1. clear - F. 
      rewrite map_id. revert F. generalize (expected fm t w 0) as es. intros es F.
      induction F as [|v e vs es M F IH]; cbn [flat_map map]; [reflexivity|].
      change (list_sum (?a :: ?b)) with (a + list_sum b). rewrite Nat2Z.inj_add, <- IH.
      assert (SA : forall l l', sum_added c k (l ++ l') = (sum_added c k l + sum_added c k l')%Z).
      { unfold sum_added. induction l as [|[[a b] z] l IHl]; intros l'; cbn; auto.
        destruct (_ && _); rewrite IHl; lia. }
      rewrite SA. f_equal. destruct M as (M1 & M2 & M3).
      unfold spl_adds. rewrite M1. destruct (eNode e) as [|d l r m]; cbn; auto.
      destruct (dSpl d) as [s|]; [|reflexivity].
      assert (HO : occ c (eCases e) = occ c (vCases v)).
      { unfold occ. apply Permutation_length, Permutation_filter. symmetry; auto. }
      rewrite HO. clear. induction (vCases v) as [|x l IH].
      * unfold occ; cbn. lia.
      * cbn [map]. unfold sum_added in *. cbn [fold_right]. rewrite IH.
        unfold occ; cbn [filter]. rewrite (Nat.eqb_sym c x).
        destruct (x =? c), (fmIndex fm (sFeature s) =? k); cbn [andb length]; lia.
    + apply Forall_forall. intros [[a b] z] Hin. apply in_flat_map in Hin as (v & _ & Hin).
      unfold spl_adds in Hin. destruct (node_spl (vNode v)); [|destruct Hin].
      apply in_map_iff in Hin as (y & Ey & _). congruence.
Qed.

(** GetLeaves and Partition send every case to the leaf it reaches when the
    splitters are followed one case at a time, and nowhere else. *)
Theorem C17_leaves_partition_the_cases : forall fm t f fbycase,
  nth_error (fmData fm) 0 = Some f -> t <> Nil -> well_formed t ->
  usable fm (seq 0 (fLength f)) t ->
  exists arr leaves cnt paths,
    GetLeaves fm t fbycase = Ok (arr, (leaves, cnt))
    /\ TreePartition fm t = Ok (arr, (map lwin leaves, map lfPred leaves))
    /\ Permutation (seq 0 (fLength f)) arr
    /\ ForallOrdPairs apart (map lwin leaves)
    /\ NoDup paths
    /\ Forall2 (leaf_at fm t (seq 0 (fLength f)) arr) paths leaves
    /\ (forall c p, c < fLength f -> follow fm t c = Some p -> In p paths).
Proof.
  intros fm t f fb H1 H2 H3 H4.
  destruct (GetLeaves_ok fm t f fb H1 H2 H3 H4) as (arr & leaves & cnt & paths & A & B & C & D & E & F & G & _).
  exists arr, leaves, cnt, paths. auto 10.
Qed.
Print Assumptions C17_leaves_partition_the_cases.

(** A case reaches no leaf exactly if it is missing at a splitter on its way
    that has no missing branch. *)
Theorem C17_no_leaf_iff_missing : forall fm t c,
  t <> Nil -> well_formed t ->
  (follow fm t c = None <->
   exists p d l r, passes fm t c p /\ at_path t p = Node d l r Nil /\ turn fm d c = Some DM).
Proof. intros; apply no_leaf; auto. Qed.
Print Assumptions C17_no_leaf_iff_missing.

(** A matrix with two columns, and a tree with a missing branch below which
    cases are lost at a second splitter without one. *)
Definition ex_fm : fmatrix :=
  mkFM [FNum (mkNum [f1; f2; f1; f2; f0] [false; false; true; false; false] "N:a" true);
        FCat (mkCat (mkCM [("y", 1); ("x", 0)] ["x"; "y"]) [0; 0; 1; 1; 0]
                    [false; false; false; false; true] "C:b" false true)]
       [("N:a", 0); ("C:b", 1)] ["1"; "2"; "3"; "4"; "5"].
Definition ex_leaf (p : string) := Node (mkNd CNil 0 p None) Nil Nil Nil.
Definition ex_tree : node :=
  Node (mkNd CNil 0 "" (Some (mkSpl "N:a" true f1 [])))
    (Node (mkNd (CInt 1) 1 "" (Some (mkSpl "C:b" false f0 ["x"]))) (ex_leaf "LL") (ex_leaf "LR") Nil)
    (Node (mkNd CNil 0 "" (Some (mkSpl "C:b" false f0 ["x"]))) (ex_leaf "RL") (ex_leaf "RR") Nil)
    (ex_leaf "M").
Example C17_example :
  well_formed ex_tree /\ usable ex_fm (seq 0 5) ex_tree /\
  follow ex_fm ex_tree 4 = None /\ follow ex_fm ex_tree 2 = Some [DM] /\
  GetLeaves ex_fm ex_tree (Some []) =
    Ok ([0; 4; 2; 1; 3], ([mkLeaf 0 1 "LL"; mkLeaf 2 2 "LR"; mkLeaf 3 4 "RL"; mkLeaf 4 5 "RR"; mkLeaf 2 3 "M"],
        Some [(0, 0, 1%Z); (1, 0, 1%Z); (2, 0, 1%Z); (3, 0, 1%Z); (4, 0, 1%Z);
              (0, 1, 1%Z); (4, 1, 1%Z); (3, 1, 1%Z); (1, 1, 1%Z)])).
Proof.
  assert (FS1 : flag_sound (column ex_fm 0)).
  { intros c H. reflexivity. }
  assert (FS2 : flag_sound (column ex_fm 1)).
  { intros c H. reflexivity. }
  assert (HC1 : Forall (has_case (column ex_fm 0)) (seq 0 5)).
  { repeat constructor. }
  assert (HC2 : Forall (has_case (column ex_fm 1)) (seq 0 5)).
  { repeat constructor. }
  split; [|split; [|split; [|split]]].
  - cbn. repeat (apply conj). all: try exact I. all: unfold ex_leaf; congruence.
  - cbn [usable ex_tree ex_leaf]. unfold answers. cbn [dCode dSpl dFeat].
    repeat (split; auto); cbn; auto.
  - reflexivity.
  - reflexivity.
  - vm_compute. reflexivity.
Qed.

(** ** C75: the branch counts *)

Theorem C75_branch_counts : forall fm t f m,
  nth_error (fmData fm) 0 = Some f -> t <> Nil -> well_formed t ->
  usable fm (seq 0 (fLength f)) t ->
  exists arr leaves adds,
    GetLeaves fm t (Some m) = Ok (arr, (leaves, Some (m ++ adds)))
    /\ forall c k, c < fLength f ->
         sum_added c k adds =
         Z.of_nat (length (filter (fun d => match dSpl d with
                                            | Some s => fmIndex fm (sFeature s) =? k
                                            | None => false
                                            end) (route fm t c))).
Proof.
  intros fm t f m H1 H2 H3 H4.
  destruct (GetLeaves_ok fm t f (Some m) H1 H2 H3 H4)
    as (arr & leaves & cnt & paths & A & _ & _ & _ & _ & _ & _ & adds & -> & G).
  exists arr, leaves, adds. split; auto. intros c k Hc. destruct (G c k) as [-> _].
  f_equal.
  rewrite (expected_route fm (fun d => match dSpl d with
     | Some s => if fmIndex fm (sFeature s) =? k then 1 else 0 | None => 0 end)).
  assert (Ho : occ c (seq 0 (fLength f)) = 1).
  { unfold occ. clear - Hc. assert (HS : forall n lo, length (filter (Nat.eqb c) (seq lo n)) = if (lo <=? c) && (c <? lo + n) then 1 else 0).
    { induction n as [|n IH]; intros lo; cbn [seq filter].
      - destruct (Nat.leb_spec lo c), (Nat.ltb_spec c (lo + 0)); cbn; lia.
      - destruct (Nat.eqb_spec c lo); cbn [length]; rewrite IH;
          destruct (Nat.leb_spec (S lo) c), (Nat.ltb_spec c (S lo + n)),
            (Nat.leb_spec lo c), (Nat.ltb_spec c (lo + S n)); cbn [andb]; lia. }
    rewrite HS. replace (0 <=? c) with true by (symmetry; apply Nat.leb_le; lia).
    replace (c <? 0 + fLength f) with true by (symmetry; apply Nat.ltb_lt; lia). auto. }
  rewrite Ho, Nat.mul_1_r. clear. induction (route fm t c) as [|d l IH]; cbn [map filter]; auto.
  change (list_sum (?a :: ?b)) with (a + list_sum b). rewrite IH.
  destruct (dSpl d) as [s|]; auto. destruct (_ =? k); cbn; auto.
Qed.
Print Assumptions C75_branch_counts.

(** ** C18 *)

(** The votes a tree should cast. *)
Definition due (fm : fmatrix) (t : node) (w : f64) (cases : list nat) : ballots :=
  flat_map (fun c => match follow fm t c with
                     | Some p => [(c, node_pred (at_path t p), w)]
                     | None => []
                     end) cases.

Lemma skipn_cons {A} : forall i (l : list A) a, nth_error l i = Some a -> skipn i l = a :: skipn (S i) l.
Proof.
  induction i; intros [|b l] a H; cbn in *; try discriminate; [congruence|auto].
Qed.
Lemma for_up_votes {B} (k : nat -> B) l : forall bb : list B,
  for_up (length l) 0 (fun i bb => let* c := get l i in Ok (bb ++ [k c])) bb = Ok (bb ++ map k l).
Proof.
  assert (G : forall n lo bb, lo + n = length l ->
    for_up n lo (fun i bb => let* c := get l i in Ok (bb ++ [k c])) bb = Ok (bb ++ map k (skipn lo l))).
  { induction n as [|n IH]; intros lo bb H; cbn.
    - rewrite skipn_all2 by lia. cbn. rewrite app_nil_r; auto.
    - destruct (@get_ok _ l lo) as (a & E1 & E2); [lia|]. rewrite E1. cbn.
      rewrite IH by lia. f_equal. rewrite <- app_assoc. f_equal. cbn.
      rewrite (skipn_cons _ _ _ E2). reflexivity. }
  intros bb. rewrite G by lia. reflexivity.
Qed.

Theorem C18_each_case_votes_once : forall fm t tw cases bb,
  t <> Nil -> well_formed t -> usable fm cases t ->
  exists arr votes,
    VoteCases fm t tw cases bb = Ok (arr, bb ++ votes)
    /\ Permutation cases arr
    /\ Permutation votes (due fm t (if fleb f0 tw then tw else f1) cases).
Proof.
  intros fm t tw cases bb Hn Hwf Hus.
  destruct (traversal fm t cases Hn Hwf Hus) as (w' & vs & E & P & F & HL & O & paths & ND & FP & HC).
  set (w := if fleb f0 tw then tw else f1).
  exists w', (flat_map (fun v => map (fun c => (c, node_pred (vNode v), w)) (vCases v)) (filter vterm vs)).
  split; [|split]; auto.
  - unfold VoteCases. fold w. rewrite E.
    assert (G : forall bb, foreach vs (fun v bb =>
       let* lf := isLeaf (vNode v) in
       if lf then
         for_up (length (vCases v)) 0 (fun i bb =>
           let* c := get (vCases v) i in Ok (bb ++ [(c, node_pred (vNode v), w)])) bb
       else Ok bb) bb = Ok (bb ++ flat_map (fun v => map (fun c => (c, node_pred (vNode v), w)) (vCases v)) (filter vterm vs))).
    { clear - HL. induction HL as [|v vs Hv Hvs IH]; intros bb; cbn.
      - rewrite app_nil_r; auto.
      - rewrite Hv. cbn [bind]. destruct (vterm v); cbn; auto.
        rewrite (for_up_votes (fun c => (c, node_pred (vNode v), w))). cbn. rewrite IH, app_assoc. auto. }
    rewrite G. reflexivity.
  - unfold due. rewrite <- (by_paths fm t (fun p c => (c, node_pred (at_path t p), w)) paths ND cases HC).
    clear - FP. induction FP as [|p v ps lv (A & B & C) FP IH]; cbn; auto.
    apply Permutation_app; auto. destruct A as (d & m & A1 & A2 & A3). rewrite A1, A3. cbn.
    apply Permutation_map. auto.
Qed.
Print Assumptions C18_each_case_votes_once.

(** Rearranging the list of cases does not change which votes are cast. *)
Theorem C18_order_of_cases_irrelevant : forall fm t tw cases cases' bb,
  t <> Nil -> well_formed t -> usable fm cases t -> Permutation cases cases' ->
  exists arr votes arr' votes',
    VoteCases fm t tw cases bb = Ok (arr, bb ++ votes)
    /\ VoteCases fm t tw cases' bb = Ok (arr', bb ++ votes')
    /\ Permutation votes votes'.
Proof.
  intros fm t tw cases cases' bb Hn Hwf Hus P.
  destruct (C18_each_case_votes_once fm t tw cases bb Hn Hwf Hus) as (arr & votes & A & _ & B).
  assert (Hus' : usable fm cases' t).
  { eapply usable_incl; [|exact Hus]. intros x Hx. eapply Permutation_in; [symmetry; exact P|auto]. }
  destruct (C18_each_case_votes_once fm t tw cases' bb Hn Hwf Hus') as (arr' & votes' & A' & _ & B').
  exists arr, votes, arr', votes'. split; [|split]; auto.
  rewrite B, B'. unfold due. apply flat_map_perm; auto.
Qed.
Print Assumptions C18_order_of_cases_irrelevant.

(** Vote uses all cases of the first column. *)
Corollary C18_vote_covers_all_cases : forall fm t tw f bb,
  nth_error (fmData fm) 0 = Some f -> t <> Nil -> well_formed t -> usable fm (seq 0 (fLength f)) t ->
  exists arr votes,
    TreeVote fm t tw bb = Ok (arr, bb ++ votes)
    /\ Permutation votes (due fm t (if fleb f0 tw then tw else f1) (seq 0 (fLength f))).
Proof.
  intros fm t tw f bb Hf Hn Hwf Hus.
  destruct (C18_each_case_votes_once fm t tw (seq 0 (fLength f)) bb Hn Hwf Hus) as (arr & votes & A & _ & B).
  exists arr, votes. split; auto. unfold TreeVote, allcases. rewrite (get_nth _ _ Hf). exact A.
Qed.
Print Assumptions C18_vote_covers_all_cases.

Example C18_example :
  usable ex_fm [3; 4; 2; 2; 0] ex_tree /\
  VoteCases ex_fm ex_tree f2 [3; 4; 2; 2; 0] [] =
    Ok ([0; 4; 2; 2; 3], [(0, "LL", f2); (3, "RR", f2); (2, "M", f2); (2, "M", f2)]).
Proof.
  split.
  - eapply usable_incl; [|apply C17_example]. intros x Hx. apply in_seq. cbn in Hx. lia.
  - vm_compute. reflexivity.
Qed.

(** ** C26 *)

Definition pairs (cs : list nat) : addcalls :=
  flat_map (fun a => map (fun b => (a, b, 1%Z)) cs) cs.

Lemma for_up_flat {B} (k : nat -> list B) l : forall (bb : list B) body,
  (forall i bb, body i bb = let* c := get l i in Ok (bb ++ k c)) ->
  for_up (length l) 0 body bb = Ok (bb ++ flat_map k l).
Proof.
  intros bb body HB.
  assert (G : forall n lo bb, lo + n = length l ->
    for_up n lo body bb = Ok (bb ++ flat_map k (skipn lo l))).
  { induction n as [|n IH]; intros lo bb0 H; cbn.
    - rewrite skipn_all2 by lia. cbn. rewrite app_nil_r; auto.
    - rewrite HB. destruct (@get_ok _ l lo) as (a & E1 & E2); [lia|]. rewrite E1. cbn.
      rewrite IH by lia. f_equal. rewrite <- app_assoc. f_equal. cbn.
      rewrite (skipn_cons _ _ _ E2). reflexivity. }
  rewrite G by lia. reflexivity.
Qed.

Lemma for_up_ext {St} n : forall lo (b b' : nat -> St -> res St) s,
  (forall i s, lo <= i < lo + n -> b i s = b' i s) -> for_up n lo b s = for_up n lo b' s.
Proof.
  induction n as [|n IH]; intros lo b b' s H; cbn; auto.
  rewrite H by lia. destruct (b' lo s); cbn; auto. apply IH. intros; apply H; lia.
Qed.

Lemma leaf_adds_ok fm t cases arr : forall paths leaves m,
  Forall2 (leaf_at fm t cases arr) paths leaves ->
  exists css, leaf_adds arr m leaves = Ok (m ++ flat_map pairs css)
    /\ Forall2 (fun p cs => Permutation cs (filter (ends_at fm t p) cases)) paths css.
Proof.
  intros paths leaves m H. revert m. induction H as [|p lf ps ls (A & cs & B & C) H IH]; intros m.
  - exists []. cbn. rewrite app_nil_r. auto.
  - unfold leaf_adds. cbn [foreach]. rewrite B. cbn [bind].
    assert (E : for_up (length cs) 0 (fun j m =>
      for_up (length cs) 0 (fun k m =>
        let* a := get cs j in
        let* b := get cs k in
        Ok (m ++ [(a, b, 1%Z)])) m) m = Ok (m ++ pairs cs)).
    { rewrite (for_up_ext _ _ _ (fun j m => let* a := get cs j in Ok (m ++ map (fun b => (a, b, 1%Z)) cs))).
      - apply (for_up_flat (fun a => map (fun b => (a, b, 1%Z)) cs)). auto.
      - intros i s Hi. destruct (@get_ok _ cs i) as (a & E1 & E2); [lia|]. rewrite E1. cbn [bind].
        apply (for_up_votes (fun b => (a, b, 1%Z))). }
    rewrite E. cbn [bind]. destruct (IH (m ++ pairs cs)) as (css & E' & F).
    exists (cs :: css). split; [|constructor; auto]. unfold leaf_adds in E'. rewrite E'.
    cbn [flat_map]. rewrite app_assoc. auto.
Qed.

Lemma sum_added_app i j l l' : sum_added i j (l ++ l') = (sum_added i j l + sum_added i j l')%Z.
Proof.
  unfold sum_added. induction l as [|[[a b] z] l IHl]; cbn [app fold_right]; auto.
  destruct (_ && _); rewrite IHl; lia.
Qed.

Lemma sum_pairs i j cs : sum_added i j (pairs cs) = Z.of_nat (occ i cs * occ j cs).
Proof.
  unfold pairs.
  assert (G : forall l, sum_added i j (flat_map (fun a => map (fun b => (a, b, 1%Z)) cs) l)
                        = Z.of_nat (occ i l * occ j cs)).
  { induction l as [|a l IH]; cbn [flat_map]; [reflexivity|]. rewrite sum_added_app, IH.
    assert (E : sum_added i j (map (fun b => (a, b, 1%Z)) cs) = Z.of_nat (if i =? a then occ j cs else 0)).
    { clear. induction cs as [|b cs IH]; cbn [map]; [destruct (_ =? _); reflexivity|].
      unfold sum_added in *. cbn [fold_right]. rewrite IH. unfold occ. cbn [filter].
      rewrite (Nat.eqb_sym a i), (Nat.eqb_sym b j).
      destruct (i =? a), (j =? b); cbn [andb length]; lia. }
    rewrite E. unfold occ. cbn [filter]. destruct (i =? a); cbn [length]; lia. }
  apply G.
Qed.

Lemma occ_seq c n : occ c (seq 0 n) = if c <? n then 1 else 0.
Proof.
  unfold occ.
  assert (HS : forall n lo, length (filter (Nat.eqb c) (seq lo n)) = if (lo <=? c) && (c <? lo + n) then 1 else 0).
  { clear. induction n as [|n IH]; intros lo; cbn [seq filter].
    - destruct (Nat.leb_spec lo c), (Nat.ltb_spec c (lo + 0)); cbn; lia.
    - destruct (Nat.eqb_spec c lo); cbn [length]; rewrite IH;
        destruct (Nat.leb_spec (S lo) c), (Nat.ltb_spec c (S lo + n)),
          (Nat.leb_spec lo c), (Nat.ltb_spec c (lo + S n)); cbn [andb]; lia. }
  rewrite HS. reflexivity.
Qed.

Lemma sum_one_tree fm t n paths css i j :
  NoDup paths ->
  (forall c p, c < n -> follow fm t c = Some p -> In p paths) ->
  Forall2 (fun p cs => Permutation cs (filter (ends_at fm t p) (seq 0 n))) paths css ->
  sum_added i j (flat_map pairs css)
  = Z.of_nat (if (i <? n) && (j <? n) && shares fm i j t then 1 else 0).
Proof.
  intros ND Hc F.
  assert (S : sum_added i j (flat_map pairs css)
     = Z.of_nat (if (i <? n) && (j <? n) then length (filter (fun p => ends_at fm t p i && ends_at fm t p j) paths) else 0)).
  { clear ND Hc. induction F as [|p cs ps css P F IH]; cbn [flat_map filter].
    - destruct (_ && _); reflexivity.
    - rewrite sum_added_app, IH, sum_pairs.
      assert (HO : forall c, occ c cs = if ends_at fm t p c then (if c <? n then 1 else 0) else 0).
      { intros c. unfold occ at 1. rewrite (Permutation_length (Permutation_filter _ P)).
        change (length (filter (Nat.eqb c) ?l)) with (occ c l). rewrite occ_filter, occ_seq. auto. }
      rewrite !HO. destruct (i <? n), (j <? n), (ends_at fm t p i), (ends_at fm t p j); cbn [andb length]; lia. }
  rewrite S. f_equal. destruct (i <? n) eqn:Ei, (j <? n) eqn:Ej; cbn [andb]; auto.
  apply Nat.ltb_lt in Ei, Ej. unfold shares.
  destruct (follow fm t i) as [q|] eqn:Eq.
  - assert (E : forall l, NoDup l -> length (filter (fun p => ends_at fm t p i && ends_at fm t p j) l)
               = if in_dec path_dec q l then (if ends_at fm t q j then 1 else 0) else 0).
    { intros l HND. induction HND as [|p l Hp HND IH]; auto. cbn [filter].
      assert (Epi : ends_at fm t p i = if path_dec q p then true else false) by (unfold ends_at; rewrite Eq; auto).
      rewrite Epi. destruct (in_dec path_dec q (p :: l)) as [I|I].
      - destruct (path_dec q p) as [E|E]; cbn [andb].
        + subst. destruct (ends_at fm t p j); cbn [length]; rewrite IH; destruct (in_dec path_dec p l); auto; contradiction.
        + rewrite IH. destruct (in_dec path_dec q l); auto. exfalso. destruct I; subst; auto.
      - destruct (path_dec q p) as [E|E]; cbn [andb].
        + exfalso. apply I. left; auto.
        + rewrite IH. destruct (in_dec path_dec q l); auto. exfalso. apply I. right; auto. }
    rewrite E by auto. destruct (in_dec path_dec q paths); auto. exfalso. eauto.
  - assert (E : forall p, ends_at fm t p i = false) by (intros p; unfold ends_at; rewrite Eq; auto).
    clear - E. induction paths as [|p l IH]; auto. cbn [filter]. rewrite E. auto.
Qed.

Definition sharing (fm : fmatrix) (i j : nat) (trees : list node) : nat :=
  length (filter (shares fm i j) trees).

Definition tree_ok (fm : fmatrix) (n : nat) (t : node) : Prop :=
  t <> Nil /\ well_formed t /\ usable fm (seq 0 n) t.

Lemma pairs_ones css : Forall (fun '(_, _, v) => v = 1%Z) (flat_map pairs css).
Proof.
  apply Forall_forall. intros [[a b] v] H. apply in_flat_map in H as (cs & _ & H).
  apply in_flat_map in H as (x & _ & H). apply in_map_iff in H as (y & E & _). congruence.
Qed.

Lemma leafcount_ok fm f : nth_error (fmData fm) 0 = Some f -> forall trees m,
  Forall (tree_ok fm (fLength f)) trees ->
  exists adds, leafcount fm trees m None = Ok (m ++ adds, None)
    /\ (forall i j, sum_added i j adds =
          Z.of_nat (if (i <? fLength f) && (j <? fLength f) then sharing fm i j trees else 0))
    /\ Forall (fun '(_, _, v) => v = 1%Z) adds.
Proof.
  intros Hf trees. induction trees as [|t ts IH]; intros m H.
  - exists []. cbn. rewrite app_nil_r. split; [|split]; auto. intros. destruct (_ && _); reflexivity.
  - inversion H as [|? ? (Hn & Hwf & Hus) Hts]; subst.
    destruct (GetLeaves_ok fm t f None Hf Hn Hwf Hus)
      as (arr & leaves & cnt & paths & A & _ & _ & _ & D & E & F & ->).
    destruct (leaf_adds_ok fm t _ arr paths leaves m E) as (css & E1 & E2).
    destruct (IH (m ++ flat_map pairs css) Hts) as (adds & B1 & B2 & B3).
    exists (flat_map pairs css ++ adds). split; [|split].
    + unfold leafcount in *. cbn [foreach]. rewrite A. cbn [bind]. rewrite E1. cbn [bind]. rewrite B1.
      rewrite app_assoc. auto.
    + intros i j. rewrite sum_added_app, B2, (sum_one_tree fm t (fLength f) paths css i j D F E2).
      unfold sharing. cbn [filter]. destruct (i <? fLength f), (j <? fLength f); cbn [andb]; auto.
      destruct (shares fm i j t); cbn [length]; lia.
    + apply Forall_app; split; auto. apply pairs_ones.
Qed.

(** Each goroutine handles the trees of the files it received; whatever the
    distribution and the interleaving, an entry of the output is the number of
    trees in which the two cases share a leaf. *)
Theorem C26_leaf_cooccurrence : forall fm f (works : list (list node)),
  nth_error (fmData fm) 0 = Some f ->
  Forall (Forall (tree_ok fm (fLength f))) works ->
  exists adds, Forall2 (fun ts a => leafcount fm ts [] None = Ok (a, None)) works adds /\
  forall sched m', exec sched (scAdds_start adds) = Some m' -> finished m' ->
  exists c, mCells m' = [c] /\ forall outer, iterated c outer ->
    NoDup (map fst (WriteTsv outer)) /\
    forall i j v, In (i, j, v) (WriteTsv outer) <->
      i < fLength f /\ j < fLength f /\ v = Z.of_nat (sharing fm i j (concat works)) /\ (0 < v)%Z.
Proof.
  intros fm f works Hf Hw.
  assert (HA : exists adds, Forall2 (fun ts a => leafcount fm ts [] None = Ok (a, None)) works adds /\
     (forall i j, sum_added i j (concat adds) =
          Z.of_nat (if (i <? fLength f) && (j <? fLength f) then sharing fm i j (concat works) else 0)) /\
     Forall (fun '(_, _, v) => v = 1%Z) (concat adds)).
  { induction Hw as [|ts works Ht Hw IH].
    - exists []. split; [|split]; cbn [concat]; auto. intros. destruct (_ && _); reflexivity.
    - destruct IH as (adds & A & B & C).
      destruct (leafcount_ok fm f Hf ts [] Ht) as (a & A1 & B1 & C1).
      exists (a :: adds). split; [|split].
      + constructor; auto.
      + intros i j. cbn [concat]. rewrite sum_added_app, B, B1. unfold sharing.
        rewrite filter_app, app_length. destruct (_ && _); lia.
      + cbn [concat]. apply Forall_app; auto. }
  destruct HA as (adds & A & B & C). exists adds. split; auto.
  intros sched m' Ex Hfin. destruct (C25_sparse_counts adds sched m' Ex Hfin) as (c & Hc & Ho).
  exists c. split; auto. intros outer Hit. destruct (Ho outer Hit) as [N1 N2]. split; auto.
  intros i j v. rewrite N2, B.
  assert (Hpos : (exists x, In (i, j, x) (concat adds)) <-> (0 < sum_added i j (concat adds))%Z).
  { clear - C. induction C as [|[[a b] x] l Hx C IH]; cbn.
    - split; [intros (x & []) | lia].
    - assert (Hnn : (0 <= sum_added i j l)%Z).
      { clear - C. unfold sum_added. induction C as [|[[a b] x] l Hx C IH]; cbn [fold_right]; [lia|].
        subst. destruct (_ && _); lia. }
      unfold sum_added in *. cbn [fold_right].
      destruct ((a =? i) && (b =? j)) eqn:E.
      + apply andb_true_iff in E as [E1 E2]. apply Nat.eqb_eq in E1, E2. subst.
        split; intros _; [lia|]. exists 1%Z. left. auto.
      + rewrite <- IH. split; intros (y & Hy); exists y; auto.
        destruct Hy as [Hy|Hy]; auto. inversion Hy; subst. rewrite !Nat.eqb_refl in E. discriminate. }
  rewrite Hpos, B. destruct (Nat.ltb_spec i (fLength f)), (Nat.ltb_spec j (fLength f)); cbn [andb].
  - split; [intros (P & ->)|intros (_ & _ & -> & P)]; auto.
  - split; [intros (P & _); cbn in P; lia|lia].
  - split; [intros (P & _); cbn in P; lia|lia].
  - split; [intros (P & _); cbn in P; lia|lia].
Qed.
Print Assumptions C26_leaf_cooccurrence.

(** The matrix is symmetric and the diagonal counts the trees in which a case
    reaches a leaf at all. *)
Theorem C26_symmetric_with_reach_on_diagonal : forall fm i j trees,
  sharing fm i j trees = sharing fm j i trees /\
  sharing fm i i trees = length (filter (reaches fm i) trees).
Proof.
  intros fm i j trees. unfold sharing. split; f_equal; apply filter_ext; intros t; unfold shares, reaches, ends_at.
  - destruct (follow fm t i) as [p|] eqn:E1, (follow fm t j) as [q|] eqn:E2; rewrite ?E1, ?E2; auto.
    destruct (path_dec q p), (path_dec p q); congruence.
  - destruct (follow fm t i) as [p|]; auto. destruct (path_dec p p); congruence.
Qed.
Print Assumptions C26_symmetric_with_reach_on_diagonal.

Example C26_example :
  tree_ok ex_fm 5 ex_tree /\
  sharing ex_fm 0 0 [ex_tree; ex_leaf "x"] = 2 /\ sharing ex_fm 0 2 [ex_tree; ex_leaf "x"] = 1 /\
  sharing ex_fm 4 4 [ex_tree; ex_leaf "x"] = 1.
Proof.
  split; [|vm_compute; auto].
  destruct C17_example as (A & B & _). split; [discriminate|auto].
Qed.
