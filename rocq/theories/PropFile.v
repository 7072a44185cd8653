(** C52-C54, C82: forest files. *)
From Verif Require Import Go GoLemmas F64 ModelFeature ModelSplit ModelTree TreeSpec TreeProofs PropTree2 ModelText TextProofs ModelFile FileSpec FileProofs FileProofs2.
Local Open Scope string_scope.
Local Open Scope nat_scope.
Local Open Scope list_scope.

(** ** C52 *)
(** A forest the format can hold.  Without an intercept no header is written and the
    reader takes the target of the first tree. *)
Definition forest_ok (f : wforest) : Prop :=
  inert (B (wfTarget f)) /\
  Forall (fun t => inert (B (wtTarget t)) /\ wtRoot t <> Nil /\ texts_ok (wtRoot t)) (wfTrees f) /\
  (feqb (wfIntercept f) f0 = true -> exists t ts, wfTrees f = t :: ts /\ wtTarget t = wfTarget f).
Definition same_tree (r : rtree) (t : wtree) (shape : node) : Prop :=
  rtTarget r = wtTarget t /\ rtWeight r = wtWeight t /\
  exists k, rtRoot r = Some k /\ holds (rtHeap r) (Some k) shape /\ unshared (rtHeap r) k.

Lemma filed_same t : no_missing_branch t -> leaves_bare t -> as_filed t = t.
Proof.
  induction t as [|d l IHl r IHr m IHm]; cbn; auto. intros (-> & Hl & Hr) (Hs & Bl & Br & _).
  destruct (dSpl d) as [s|] eqn:Es.
  - rewrite IHl, IHr by auto. reflexivity.
  - destruct (Hs eq_refl) as (-> & -> & _). reflexivity.
Qed.
Lemma no_missing_right t : no_missing_branch t -> right_branches t.
Proof. induction t as [|d l IHl r IHr m IHm]; cbn; auto. intros (-> & Hl & Hr). repeat split; auto. Qed.

(** What comes back from a file, missing branches or not. *)
Theorem C52_what_files_keep : forall fmtF itoa ord PF f,
  (forall i p l, Permutation (ord i p l) l) -> numbers_ok fmtF PF itoa ->
  forest_ok f -> Forall (fun t => weight_ok (wtWeight t) /\ right_branches (wtRoot t)) (wfTrees f) ->
  exists out r, WriteForest fmtF itoa ord f = Ok out /\ ReadForest PF out = Ok (Some r, ENone, [])
    /\ rfTarget r = wfTarget f
    /\ (rfIntercept r = wfIntercept f \/ feqb (wfIntercept f) f0 = true /\ rfIntercept r = f0)
    /\ Forall2 (fun r t => same_tree r t (as_filed (wtRoot t))) (rfTrees r) (wfTrees f).
Proof.
  intros fmtF itoa ord PF f Hord Hnum (Htg & Hts & H0) Hw.
  assert (Hok : Forall tree_ok (wfTrees f)).
  { apply Forall_forall. intros t Ht. rewrite Forall_forall in Hts, Hw. destruct (Hts t Ht) as (A & C & D). destruct (Hw t Ht) as (_ & E).
    repeat split; auto. }
  assert (Ew : exists out, WriteForest fmtF itoa ord f = Ok out).
  { unfold WriteForest. rewrite writes_trees by auto. eauto. }
  destruct Ew as (out & Ew).
  destruct (reads_forest fmtF itoa ord PF Hord Hnum f out Htg Hok H0 Ew) as (rs & R1 & R2).
  exists out. eexists. split; [exact Ew|]. split; [exact R2|]. cbn [rfTarget rfIntercept rfTrees]. split; auto. split.
  - unfold read_intercept. destruct (feqb (wfIntercept f) f0); auto.
  - clear R2 Ew H0. revert Hw. clear -R1. induction R1 as [|r t rs ts H R1 IH]; intros Hw; constructor.
    + destruct H as (A & C & D & E & F0). apply Forall_inv in Hw as [Hw _]. split; auto. split.
      * rewrite C. unfold read_weight. destruct Hw as [Hw|Hw]; [rewrite Hw; auto|]. rewrite Hw. reflexivity.
      * exists 0. rewrite D in E. auto.
    + apply IH. apply Forall_inv_tail in Hw. auto.
Qed.
Print Assumptions C52_what_files_keep.

Theorem C52_forest_files_round_trip : forall fmtF itoa ord PF f,
  (forall i p l, Permutation (ord i p l) l) -> numbers_ok fmtF PF itoa ->
  forest_ok f ->
  Forall (fun t => weight_ok (wtWeight t) /\ no_missing_branch (wtRoot t) /\ leaves_bare (wtRoot t)) (wfTrees f) ->
  exists out r, WriteForest fmtF itoa ord f = Ok out /\ ReadForest PF out = Ok (Some r, ENone, [])
    /\ rfTarget r = wfTarget f
    /\ (rfIntercept r = wfIntercept f \/ feqb (wfIntercept f) f0 = true /\ rfIntercept r = f0)
    /\ Forall2 (fun r t => same_tree r t (wtRoot t)) (rfTrees r) (wfTrees f).
Proof.
  intros fmtF itoa ord PF f Hord Hnum Hf Hw.
  destruct (C52_what_files_keep fmtF itoa ord PF f Hord Hnum Hf) as (out & r & E1 & E2 & E3 & E4 & E5).
  { eapply Forall_impl; [|exact Hw]. intros t (A & C & D). split; auto. apply no_missing_right; auto. }
  exists out, r. repeat split; auto.
  revert E5 Hw. clear. generalize (rfTrees r) (wfTrees f). intros rs ts H. induction H as [|x t rs ts H R1 IH]; intros Hw; constructor; auto.
  - apply Forall_inv in Hw as (_ & A & C). rewrite (filed_same _ A C) in H. exact H.
  - apply IH. apply Forall_inv_tail in Hw. auto.
Qed.
Print Assumptions C52_forest_files_round_trip.

(** A way to print and parse every float64, to show that the assumptions on numbers can be
    met: constructor, sign, and binary digits from the lowest. *)
Fixpoint enc_pos (p : positive) : bytes :=
  match p with xH => B "h" | xO p => "0"%char :: enc_pos p | xI p => "1"%char :: enc_pos p end.
Definition enc_bool (b : bool) : ascii := if b then "-"%char else "+"%char.
Definition enc_Z (z : Z) : bytes :=
  match z with Z0 => B "z" | Zpos p => "+"%char :: enc_pos p | Zneg p => "-"%char :: enc_pos p end.
Definition enc (x : f64) : bytes :=
  match x with
  | S754_zero s => ["Z"%char; enc_bool s]
  | S754_infinity s => ["I"%char; enc_bool s]
  | S754_nan => B "N"
  | S754_finite s m e => "F"%char :: enc_bool s :: enc_pos m ++ enc_Z e
  end.
Fixpoint dec_pos (b : bytes) : option (positive * bytes) :=
  match b with
  | [] => None
  | c :: b => if Ascii.eqb c "h" then Some (xH, b)
              else match dec_pos b with
                   | None => None
                   | Some (p, r) => if Ascii.eqb c "0" then Some (xO p, r) else Some (xI p, r)
                   end
  end.
Definition dec_bool (c : ascii) : bool := Ascii.eqb c "-".
Definition dec_Z (b : bytes) : Z :=
  match b with
  | [] => 0%Z
  | c :: b => match dec_pos b with
              | None => 0%Z
              | Some (p, _) => if dec_bool c then Zneg p else Zpos p
              end
  end.
Definition dec (b : bytes) : option f64 :=
  match b with
  | c :: s :: r =>
      if Ascii.eqb c "Z" then Some (S754_zero (dec_bool s))
      else if Ascii.eqb c "I" then Some (S754_infinity (dec_bool s))
      else match dec_pos r with
           | None => None
           | Some (m, r) => Some (S754_finite (dec_bool s) m (dec_Z r))
           end
  | _ => Some S754_nan
  end.
Lemma dec_enc_pos p : forall r, dec_pos (enc_pos p ++ r) = Some (p, r).
Proof. induction p as [p IH|p IH|]; intros r; cbn; auto; rewrite IH; auto. Qed.
Lemma dec_enc_bool b : dec_bool (enc_bool b) = b.
Proof. destruct b; reflexivity. Qed.
Lemma dec_enc_Z z : dec_Z (enc_Z z) = z.
Proof. destruct z as [|p|p]; auto; cbn; rewrite <- (app_nil_r (enc_pos p)), dec_enc_pos; reflexivity. Qed.
Lemma dec_enc x : dec (enc x) = Some x.
Proof.
  destruct x as [s|s| |s m e]; auto.
  - cbn -[enc_bool]. rewrite dec_enc_bool. auto.
  - cbn -[enc_bool]. rewrite dec_enc_bool. auto.
  - cbn -[enc_bool]. rewrite dec_enc_pos, dec_enc_Z, dec_enc_bool. auto.
Qed.
Definition ok_char (c : ascii) : bool :=
  negb (Ascii.eqb c "," || Ascii.eqb c "=" || Ascii.eqb c quote || Ascii.eqb c nl) && (33 <=? nat_of_ascii c) && (nat_of_ascii c <=? 126).
Lemma enc_pos_chars p : forallb ok_char (enc_pos p) = true.
Proof. induction p; auto. Qed.
Lemma enc_clean x : clean (enc x).
Proof.
  apply clean_const. change (forallb ok_char (enc x) = true). destruct x as [[]|[]| |s m e]; auto.
  cbn [enc forallb]. rewrite forallb_app, enc_pos_chars. destruct s; destruct e; cbn; rewrite ?enc_pos_chars; auto.
Qed.
Lemma ex_numbers : numbers_ok enc dec (fun i => repeat "1"%char i).
Proof.
  split; [intros x; split; [apply enc_clean|apply dec_enc]|].
  intros i. apply clean_const. induction i; auto.
Qed.
Definition ex_ord (i : nat) (p : bytes) (l : list string) : list string := rev l.
Lemma ex_ord_perm i p l : Permutation (ex_ord i p l) l.
Proof. symmetry. apply Permutation_rev. Qed.

Definition leaf (s : string) : node := Node (mkNd CNil 0 s None) Nil Nil Nil.
Definition ex_root : node :=
  Node (mkNd CNil 0 "" (Some (mkSpl "C:colour" false f0 ["red"; " dark blue "])))
    (leaf "yes")
    (Node (mkNd CNil 0 "" (Some (mkSpl "N:size" true f1 []))) (leaf "no") (leaf "yes") Nil)
    Nil.
Definition ex_forest : wforest := mkWF "B:bought" f1 [mkWT ex_root "B:bought" (fneg f1); mkWT (leaf "no") "B:bought" f1].

Ltac solve_texts := repeat match goal with
  | |- _ /\ _ => split
  | |- Forall _ [] => constructor
  | |- Forall _ (_ :: _) => constructor
  | |- clean _ => apply clean_const; reflexivity
  | |- inert _ => apply inertb_ok; reflexivity
  | |- category _ => unfold category
  | |- ~ In _ _ => intros X; cbn in X; repeat (destruct X as [X|X]; [discriminate|]); destruct X
  | |- NoDup _ => constructor
  | |- _ -> _ => intros ?
  | |- True => exact I
  | |- texts_ok _ => cbn [texts_ok wtRoot ex_root leaf dPred dSpl sFeature sNumerical sLeft]
  | |- _ = _ => reflexivity
  | |- _ <> _ => discriminate
  end.
Example C52_example : forest_ok ex_forest /\
  Forall (fun t => weight_ok (wtWeight t) /\ no_missing_branch (wtRoot t) /\ leaves_bare (wtRoot t)) (wfTrees ex_forest) /\
  (exists out, WriteForest enc (fun i => repeat "1"%char i) ex_ord ex_forest = Ok out /\ length out = 550).
Proof.
  split; [|split].
  - split; [apply inertb_ok; reflexivity|]. split.
    + cbn. solve_texts; try discriminate.
    + discriminate.
  - cbn. apply Forall_cons; [|apply Forall_cons; [|apply Forall_nil]].
    + split; [right; reflexivity|]. cbn. solve_texts; try discriminate.
    + split; [left; reflexivity|]. cbn. solve_texts; try discriminate.
  - eexists. split; vm_compute; reflexivity.
Qed.

(** ** C53: the right branch is written in place of the missing branch *)
Theorem C53_right_branch_takes_over : forall fmtF itoa ord PF f t d l r m s,
  (forall i p l, Permutation (ord i p l) l) -> numbers_ok fmtF PF itoa -> forest_ok f ->
  Forall (fun t => weight_ok (wtWeight t) /\ right_branches (wtRoot t)) (wfTrees f) ->
  In t (wfTrees f) -> wtRoot t = Node d l r m -> dSpl d = Some s -> m <> Nil ->
  exists out g rt x, WriteForest fmtF itoa ord f = Ok out /\ ReadForest PF out = Ok (Some g, ENone, []) /\
    In rt (rfTrees g) /\ nth_error (rtHeap rt) 0 = Some x /\
    holds (rtHeap rt) (hL x) (as_filed l) /\ holds (rtHeap rt) (hR x) (as_filed r) /\ holds (rtHeap rt) (hM x) (as_filed r).
Proof.
  intros fmtF itoa ord PF f t d l r m s Hord Hnum Hf Hw Hin Er Es Hm.
  destruct Hf as (Htg & Hts & H0).
  assert (Hok : Forall tree_ok (wfTrees f)).
  { apply Forall_forall. intros t' Ht. rewrite Forall_forall in Hts, Hw. destruct (Hts t' Ht) as (A & C & D). destruct (Hw t' Ht) as (_ & E).
    repeat split; auto. }
  assert (Ew : exists out, WriteForest fmtF itoa ord f = Ok out).
  { unfold WriteForest. rewrite writes_trees by auto. eauto. }
  destruct Ew as (out & Ew).
  destruct (reads_forest fmtF itoa ord PF Hord Hnum f out Htg Hok H0 Ew) as (rs & R1 & R2).
  assert (Hrt : exists rt, In rt rs /\ tree_read rt t).
  { revert Hin. clear -R1. induction R1 as [|a b rs ts H R IH]; intros [].
    - subst. exists a. split; auto. left. auto.
    - destruct (IH H0) as (rt & A & C). exists rt. split; auto. right. auto. }
  destruct Hrt as (rt & Hi & (_ & _ & E0 & Hh & _)). rewrite E0, Er in Hh. cbn [as_filed] in Hh. rewrite Es in Hh.
  assert (En : isNil m = false) by (destruct m; [congruence|reflexivity]). rewrite En in Hh.
  inversion Hh as [|k x d' l' r' m' Hx Hp Hs Hl Hr Hmm]; subst.
  exists out, (mkRF (wfTarget f) (read_intercept (wfIntercept f)) rs), rt, x. auto 10.
Qed.
Print Assumptions C53_right_branch_takes_over.

(** Without a right branch the writer panics. *)
Theorem C53_writer_panics_without_right_branch : forall fmtF itoa ord t i d l m s,
  wtRoot t = Node d l Nil m -> dSpl d = Some s -> m <> Nil -> no_missing_branch l ->
  WriteTree fmtF itoa ord t i = Panic.
Proof.
  intros fmtF itoa ord t i d l m s Er Es Hm Hl. unfold WriteTree. rewrite Er. cbn [WriteNodeAndChildren]. rewrite Es.
  assert (En : isNil m = false) by (destruct m; [congruence|reflexivity]). rewrite En. cbn [andb negb isNil].
  assert (El : exists w, (if negb (isNil l) then WriteNodeAndChildren fmtF ord i l (B "*" ++ B "L") else Ok []) = Ok w).
  { destruct (isNil l) eqn:Ez; cbn [negb]; [exists []; reflexivity|]. eexists. apply (writes_lines fmtF ord i l [DL]).
    - intros ->. discriminate.
    - apply no_missing_right; auto. }
  destruct El as (w & ->). reflexivity.
Qed.
Print Assumptions C53_writer_panics_without_right_branch.

Lemma holds_at h : forall q k t, holds h (Some k) t -> forall d l r m, at_path t q = Node d l r m ->
  exists j x, find h k q = Some j /\ nth_error h j = Some x /\ hPred x = dPred d.
Proof.
  induction q as [|s q IH]; intros k t H d l r m E.
  - cbn in E. subst t. inversion H; subst. cbn. eauto.
  - inversion H as [|k' x d' l' r' m' Hx _ _ Hl Hr Hm]; subst. cbn [at_path child] in E. cbn [find]. rewrite Hx.
    assert (Hc : holds h (hchild x s) (child (Node d' l' r' m') s)) by (destruct s; assumption).
    cbn [child] in Hc. destruct (hchild x s) as [k'|]; [eapply IH; eauto|].
    revert E Hc. generalize (match s with DL => l' | DR => r' | DM => m' end). intros c E Hc. inversion Hc. subst c. exfalso. clear -E. induction q as [|[] q IH]; cbn in *; auto; discriminate.
Qed.

Definition ex_missing : node :=
  Node (mkNd CNil 0 "" (Some (mkSpl "N:size" true f1 []))) (leaf "low") (leaf "high") (leaf "unknown").
Definition ex_missing_forest : wforest := mkWF "N:y" f1 [mkWT ex_missing "N:y" (fneg f1)].
Theorem C53_missing_branches_lost_refuted :
  forest_ok ex_missing_forest /\
  Forall (fun t => weight_ok (wtWeight t) /\ leaves_bare (wtRoot t)) (wfTrees ex_missing_forest) /\
  forall out r, WriteForest enc (fun i => repeat "1"%char i) ex_ord ex_missing_forest = Ok out ->
    ReadForest dec out = Ok (Some r, ENone, []) ->
    ~ Forall2 (fun r t => same_tree r t (wtRoot t)) (rfTrees r) (wfTrees ex_missing_forest).
Proof.
  assert (Hf : forest_ok ex_missing_forest).
  { split; [apply inertb_ok; reflexivity|]. split; [|discriminate]. cbn. solve_texts; try discriminate.
    all: cbn; solve_texts; discriminate. }
  split; auto. split.
  { cbn. apply Forall_cons; [|apply Forall_nil]. split; [right; reflexivity|]. cbn. solve_texts; discriminate. }
  intros out r Ew Er HF.
  destruct (C52_what_files_keep enc (fun i => repeat "1"%char i) ex_ord dec ex_missing_forest) as (out' & r' & E1 & E2 & _ & _ & E5); auto.
  { apply ex_ord_perm. } { apply ex_numbers. }
  { apply Forall_cons; [|apply Forall_nil]. split; [right; reflexivity|]. cbn. repeat split; auto; discriminate. }
  rewrite Ew in E1. inversion E1; subst out'. rewrite Er in E2. inversion E2; subst r'.
  unfold ex_missing_forest in HF, E5. cbn [wfTrees] in HF, E5.
  destruct (rfTrees r) as [|a rs]; [inversion HF|].
  assert (HI : forall (P : rtree -> wtree -> Prop) x y xs ys, Forall2 P (x :: xs) (y :: ys) -> P x y).
  { intros P x y xs ys H. inversion H; auto. }
  apply HI in HF as Ha. apply HI in E5 as Hb. clear HI.
  destruct Ha as (_ & _ & k & Ek & Hh & _). destruct Hb as (_ & _ & k' & Ek' & Hh' & _).
  rewrite Ek in Ek'. inversion Ek'; subst k'. cbn [wtRoot ex_missing] in Hh, Hh'.
  destruct (holds_at _ [DM] _ _ Hh (mkNd CNil 0 "unknown" None) Nil Nil Nil eq_refl) as (j & x & Hj & Hx & Hp).
  destruct (holds_at _ [DM] _ _ Hh' (mkNd CNil 0 "high" None) Nil Nil Nil eq_refl) as (j' & x' & Hj' & Hx' & Hp').
  rewrite Hj in Hj'. inversion Hj'; subst j'. rewrite Hx in Hx'. inversion Hx'; subst x'. rewrite Hp in Hp'. discriminate.
Qed.
Print Assumptions C53_missing_branches_lost_refuted.

(** ** C54: category sets *)
Definition one_split (l : list string) : wtree :=
  mkWT (Node (mkNd CNil 0 "" (Some (mkSpl "C:x" false f0 l))) (leaf "a") (leaf "b") Nil) "N:y" (fneg f1).
(** The category set of the root of the only tree after a round trip, for a map visited
    in order; [None] if there is none. *)
Definition left_set_back (l : list string) : option (list string) :=
  match (let* out := WriteForest enc (fun i => repeat "1"%char i) (fun _ _ l => l) (mkWF "N:y" f0 [one_split l]) in ReadForest dec out) with
  | Ok (Some r, ENone, []) =>
      match rfTrees r with
      | [t] => match nth_error (rtHeap t) 0 with Some x => option_map sLeft (hSpl x) | None => None end
      | _ => None
      end
  | _ => None
  end.
Theorem C54_delimiters_refuted :
  left_set_back ["a:b"] = Some ["a"; "b"] /\
  left_set_back ["x=1"] = Some ["x"] /\
  left_set_back ["a, b"] = Some ["a,b"] /\
  left_set_back [T (quote :: B "q" ++ [quote])] = Some ["q"] /\
  left_set_back [] = Some [""] /\
  left_set_back ["a=,=b"] = Some ["a"].
Proof. repeat split; vm_compute; reflexivity. Qed.
Print Assumptions C54_delimiters_refuted.

(** Categories without the five delimiters survive, blanks included. *)
Theorem C54_plain_categories_survive_partial : forall fmtF itoa ord PF l,
  (forall i p l, Permutation (ord i p l) l) -> numbers_ok fmtF PF itoa ->
  l <> [] -> NoDup l -> Forall category l ->
  exists out r t x s, WriteForest fmtF itoa ord (mkWF "N:y" f0 [one_split l]) = Ok out /\
    ReadForest PF out = Ok (Some r, ENone, []) /\ rfTrees r = [t] /\
    nth_error (rtHeap t) 0 = Some x /\ hSpl x = Some s /\ sNumerical s = false /\ NoDup (sLeft s) /\
    forall c, In c (sLeft s) <-> In c l.
Proof.
  intros fmtF itoa ord PF l Hord Hnum Hne Hnd Hc.
  assert (Hf : forest_ok (mkWF "N:y" f0 [one_split l])).
  { split; [apply inertb_ok; reflexivity|]. split.
    - apply Forall_cons; [|apply Forall_nil]. split; [apply inertb_ok; reflexivity|]. split; [discriminate|].
      cbn. split; [apply clean_const; reflexivity|]. split.
      + split; [apply clean_const; reflexivity|]. auto.
      + assert (Ha : clean (B "a")) by (apply clean_const; reflexivity).
        assert (Hb : clean (B "b")) by (apply clean_const; reflexivity). cbn in Ha, Hb. auto 10.
    - intros _. exists (one_split l), []. auto. }
  destruct Hf as (Htg & Hts & H0).
  assert (Hok : Forall tree_ok [one_split l]).
  { apply Forall_cons; [|apply Forall_nil]. apply Forall_inv in Hts as (A & C & D).
    split; [exact A|]. split; [exact C|]. split; [exact D|]. cbn. repeat split; intros; congruence. }
  assert (Ew : exists out, WriteForest fmtF itoa ord (mkWF "N:y" f0 [one_split l]) = Ok out).
  { unfold WriteForest. rewrite writes_trees by auto. eauto. }
  destruct Ew as (out & Ew).
  destruct (reads_forest fmtF itoa ord PF Hord Hnum _ out Htg Hok H0 Ew) as (rs & R1 & R2).
  cbn [wfTrees] in R1. inversion R1 as [|t ? ts ? Ht Hn]; subst. inversion Hn; subst.
  destruct Ht as (_ & _ & E0 & Hh & _). rewrite E0 in Hh. inversion Hh as [|k x d' l' r' m' Hx Hp Hs _ _ _]; subst.
  cbn in Hs. destruct (hSpl x) as [s|] eqn:Es; [|contradiction]. destruct Hs as (_ & A & C & D). cbn in A, D.
  eexists out, _, t, x, s. split; [exact Ew|]. split; [exact R2|]. auto 10.
Qed.
Print Assumptions C54_plain_categories_survive_partial.
Example C54_example : Forall category ["dark blue"; " "; "é"; ""] /\ NoDup ["dark blue"; " "; "é"; ""] /\
  left_set_back ["dark blue"; " "; "é"; ""] = Some ["dark blue"; " "; "é"; ""].
Proof.
  split; [solve_texts|]. split; [|vm_compute; reflexivity].
  repeat constructor; cbn; intuition discriminate.
Qed.

(** ** C82: errors in forest files *)
(** A node line outside a tree: ReadTree reports an error, ReadForest does not. *)
Theorem C82_outside_node_error_lost_refuted : forall fmtF itoa ord PF target x i d q rest,
  (forall i p l, Permutation (ord i p l) l) -> numbers_ok fmtF PF itoa -> inert (B target) -> texts_ok (Node d Nil Nil Nil) ->
  let input := WriteForestHeader fmtF itoa 0 target x ++ WriteNode fmtF ord i d (pstr q) ++ rest in
  (exists f, ReadTree PF input = Ok (None, Some f, EOther, rest)) /\
  (exists f, ReadForest PF input = Ok (Some f, ENone, rest) /\ rfTrees f = []).
Proof.
  intros fmtF itoa ord PF target x i d q rest Hord Hnum Htg Hd input.
  assert (Hnd : nd_ok d) by (destruct Hd as (A & C & _); split; auto).
  set (F0 := mkRF target (read_intercept x) []).
  assert (E : ReadTree PF input = Ok (None, Some F0, EOther, rest)).
  { unfold ReadTree, input.
    destruct (length (WriteForestHeader fmtF itoa 0 target x ++ WriteNode fmtF ord i d (pstr q) ++ rest)) as [|n] eqn:El; [exfalso; unfold WriteForestHeader in El; discriminate|].
    eapply loop_next; [apply (reads_forest_header fmtF itoa PF Hnum); auto|].
    apply loop_done. destruct (node_parsed fmtF itoa ord PF Hord Hnum i d (pstr q) Hnd (pstr_clean q)) as (m & Em & _).
    assert (Erl : read_line (WriteNode fmtF ord i d (pstr q) ++ rest) = Some (WriteNode fmtF ord i d (pstr q), rest)).
    { rewrite node_line_fields. apply line_ends; [discriminate|]. eapply node_fields_ok; eauto. apply pstr_clean. }
    unfold read_step. destruct (WriteNode fmtF ord i d (pstr q) ++ rest) as [|c s] eqn:Ecs; [discriminate|].
    cbn [andb]. rewrite Erl, Em. reflexivity. }
  split; [exists F0; exact E|]. exists F0. split; [|reflexivity].
  assert (EF : ReadForest PF input = loop (S (length input)) (forest_step PF) (input, None)) by reflexivity.
  rewrite EF. apply loop_done. unfold forest_step. rewrite E. reflexivity.
Qed.
Print Assumptions C82_outside_node_error_lost_refuted.

(** A weight that is no number is read as 0, without error: the tree never counts. *)
Theorem C82_unreadable_weight_refuted : forall fmtF itoa PF i tg w rest,
  inert (B tg) -> clean (itoa i) -> clean (fmtF w) -> fleb f0 w = true -> PF (fmtF w) = None ->
  ReadTree PF (WriteTreeHeader fmtF itoa i tg w) = Ok (Some (mkRT [] None tg f0), None, EEof, []) /\
  read_step PF (WriteTreeHeader fmtF itoa i tg w ++ rest, false, None, None) = Ok (Next (rest, true, Some (mkRT [] None tg f0), None)).
Proof.
  intros fmtF itoa PF i tg w rest Ht Hi Hf Hw Hp.
  assert (E : forall rest, read_step PF (WriteTreeHeader fmtF itoa i tg w ++ rest, false, None, None) = Ok (Next (rest, true, Some (mkRT [] None tg f0), None))).
  { clear rest. intros rest. set (fs := head_fields itoa "TREE" i tg [mkF (B "WEIGHT") (fmtF w) false]).
    assert (Ef : WriteTreeHeader fmtF itoa i tg w = render_line fs).
    { unfold WriteTreeHeader, fs, render_line, head_fields. rewrite Hw. cbn [map app join]. unfold render. cbn [fKey fVal fQuoted].
      cbn [B list_ascii_of_string app]. repeat (rewrite <- app_assoc; cbn [app]). reflexivity. }
    assert (Ho : Forall field_ok fs).
    { unfold fs, head_fields. apply Forall_cons; [apply field_clean; [apply clean_const; reflexivity|discriminate|apply Hi]|].
      apply Forall_cons; [apply key_ok; auto; [apply clean_const; reflexivity|discriminate|discriminate]|].
      constructor; [|constructor]. apply field_clean; [apply clean_const; reflexivity|discriminate|apply Hf]. }
    assert (Hn : fs <> []) by discriminate.
    unfold read_step. rewrite Ef. destruct (render_line fs ++ rest) as [|c s] eqn:Ecs; [discriminate|]. cbn [andb].
    rewrite <- Ecs, line_ends by auto. rewrite parse_fields by auto. cbn [bind].
    replace (has_prefix (B "FOREST") (render_line fs)) with false by reflexivity.
    replace (has_prefix (B "TREE") (render_line fs)) with true by reflexivity.
    assert (E1 : lookup0 (B "TARGET") (rev (map (fun f => (fKey f, fVal f)) fs)) = B tg) by reflexivity.
    assert (E2 : lookup (B "WEIGHT") (rev (map (fun f => (fKey f, fVal f)) fs)) = Some (fmtF w)) by reflexivity.
    rewrite E1, E2, TB. unfold pf0. rewrite Hp. reflexivity. }
  split; [|apply E]. unfold ReadTree. apply (loop_more _ 2).
  - unfold WriteTreeHeader. cbn. lia.
  - eapply loop_next; [rewrite <- (app_nil_r (WriteTreeHeader fmtF itoa i tg w)); apply E|]. reflexivity.
Qed.
Print Assumptions C82_unreadable_weight_refuted.
(** Such a file: the weight printed as a word. *)
Example C82_unreadable_ex :
  ReadTree (fun _ => None) (WriteTreeHeader (fun _ => B "heavy") (fun _ => B "0") 0 "y" f1) = Ok (Some (mkRT [] None "y" f0), None, EEof, []).
Proof. vm_compute. reflexivity. Qed.

(** A file cut in its last line reads without error as a smaller forest. *)
Theorem C82_cut_file_no_error_refuted :
  exists out, WriteForest enc (fun i => repeat "1"%char i) ex_ord ex_forest = Ok out /\
  forall k, k < 15 -> 1 <= k ->
    match ReadForest dec (firstn (length out - k) out) with
    | Ok (Some r, ENone, []) => map (fun t => length (rtHeap t)) (rfTrees r) = [5; 0]
    | _ => False
    end.
Proof.
  eexists. split; [vm_compute; reflexivity|]. intros k H1 H2.
  do 15 (destruct k as [|k]; [first [lia|vm_compute; reflexivity]|]). lia.
Qed.
Print Assumptions C82_cut_file_no_error_refuted.
