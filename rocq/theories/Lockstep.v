(** Two targets that report the same impurities: the searches and the growing of a tree go in
    lockstep. *)
From Verif Require Import Go GoLemmas F64 ModelFeature ModelSplit ModelSample ModelSort ModelSearch ModelTree ModelGrow SplitterProofs GrowProofs SortProofs OrderProofs.
Local Open Scope nat_scope.
Local Open Scope list_scope.

(** The same number, and states that are related. *)
Definition out {A S1 S2 : Type} (N : S1 -> S2 -> Prop) (x : A * S1) (y : A * S2) : Prop := fst x = fst y /\ N (snd x) (snd y).

(** [near]: the states two targets may be in between searches; [holds l r]: after the
    impurity of the split into l and r was asked for. *)
Record lockstep {A : arith} {St St' : Type} (T : target A St) (T' : target A St')
    (near : St -> St' -> Prop) (holds : list nat -> list nat -> St -> St' -> Prop) : Prop := {
  lk_imp : forall l s s', near s s' -> follows (out near) (tImp T l s) (tImp T' l s');
  lk_split : forall l r m s s', near s s' ->
    follows (out (fun t t' => near t t' /\ (m = None -> holds l r t t'))) (tSplit T l r m s) (tSplit T' l r m s');
  lk_update : forall l r v s s', near s s' -> holds l (v ++ r) s s' ->
    follows (out (fun t t' => near t t' /\ holds (l ++ v) r t t')) (tUpdate T (l ++ v) r None v s) (tUpdate T' (l ++ v) r None v s')
}.

Lemma slice_inv {B} (l : list B) a b w : slice l a b = Ok w -> a <= b <= length l /\ w = firstn (b - a) (skipn a l).
Proof.
  unfold slice. destruct ((a <=? b) && (b <=? length l)) eqn:E; [|discriminate]. intros [= <-].
  apply andb_true_iff in E as [E1 E2]. apply Nat.leb_le in E1, E2. auto.
Qed.
Lemma firstn_step {B} (l : list B) a b : a <= b -> firstn b l = firstn a l ++ firstn (b - a) (skipn a l).
Proof. intros H. rewrite <- (firstn_skipn a (firstn b l)). rewrite firstn_firstn, Nat.min_l by exact H. f_equal. rewrite skipn_firstn_comm. reflexivity. Qed.
Lemma skipn_step {B} (l : list B) a b : a <= b -> skipn a l = firstn (b - a) (skipn a l) ++ skipn b l.
Proof. intros H. rewrite <- (firstn_skipn (b - a) (skipn a l)) at 1. f_equal.
  revert a b H. induction l as [|x l IH]; intros [|a] [|b] H; cbn; try rewrite Nat.sub_0_r; try rewrite skipn_nil; try reflexivity; [lia|]. apply IH. lia. Qed.

Ltac follow := apply (follows_bind eq); [apply follows_refl|].

(** ** Scratch memory: lists that agree on the first [n] entries *)
Definition agree {B} (n : nat) (v v' : list B) : Prop :=
  exists p r r', v = p ++ r /\ v' = p ++ r' /\ length p = n /\ length r = length r'.
Lemma agree_zero {B} (v v' : list B) : length v = length v' -> agree 0 v v'.
Proof. intros H. exists [], v, v'. auto. Qed.
Lemma agree_length {B} n (v v' : list B) : agree n v v' -> length v = length v'.
Proof. intros (p & r & r' & -> & -> & _ & H). rewrite !app_length. lia. Qed.
Lemma agree_get {B} n (v v' : list B) i : agree n v v' -> i < n -> get v i = get v' i.
Proof. intros (p & r & r' & -> & -> & <- & _) H. unfold get. rewrite !nth_error_app1 by exact H. reflexivity. Qed.
Lemma upd_app1 {B} (p r : list B) i x : i < length p -> upd (p ++ r) i x = upd p i x ++ r.
Proof. revert i. induction p as [|a p IH]; intros [|i] H; cbn in *; try lia; [reflexivity|]. rewrite IH by lia. reflexivity. Qed.
Lemma agree_set {B} n (v v' : list B) i x : agree n v v' -> i < n -> follows (agree n) (set v i x) (set v' i x).
Proof.
  intros (p & r & r' & -> & -> & <- & L) H w E. apply set_inv in E as [_ ->]. rewrite set_ok by (rewrite app_length; lia).
  eexists. split; [reflexivity|]. exists (upd p i x), r, r'. rewrite !upd_app1 by exact H. rewrite upd_length. auto.
Qed.
Lemma agree_swapl {B} n (v v' : list B) i j : agree n v v' -> i < n -> j < n -> follows (agree n) (swapl v i j) (swapl v' i j).
Proof.
  intros H Hi Hj. unfold swapl. rewrite <- (agree_get _ _ _ i H Hi), <- (agree_get _ _ _ j H Hj). follow. intros a ? <-. follow. intros b ? <-.
  apply (follows_bind (agree n)); [apply agree_set; assumption|]. intros w w' Hw. apply agree_set; assumption.
Qed.
Lemma fill_agree {B D} (g : D -> B) (data : list D) cases : forall i v v', agree i v v' ->
  follows (fun x y => agree (i + length cases) (snd x) (snd y))
    (foreach cases (fun c '((i, w) : nat * list B) => let* x := get data c in let* w := set w i (g x) in Ok (S i, w)) (i, v))
    (foreach cases (fun c '((i, w) : nat * list B) => let* x := get data c in let* w := set w i (g x) in Ok (S i, w)) (i, v')).
Proof.
  induction cases as [|c cases IH]; intros i v v' H; cbn [foreach length].
  - apply follows_ok. cbn. rewrite Nat.add_0_r. exact H.
  - apply (follows_bind (fun x y => fst x = S i /\ fst y = S i /\ agree (S i) (snd x) (snd y))).
    + follow. intros x ? <-. apply (follows_bind (agree (S i))); [|intros w w' Hw; apply follows_ok; cbn; auto].
      destruct H as (p & r & r' & -> & -> & <- & L). intros w E. apply set_inv in E as [Hi ->]. rewrite app_length in Hi.
      destruct r as [|a r]; [cbn in Hi; lia|]. destruct r' as [|b r']; [discriminate|].
      rewrite set_ok by (rewrite app_length; cbn; lia). eexists. split; [reflexivity|].
      assert (U : forall q z, upd (p ++ z :: q) (length p) (g x) = (p ++ [g x]) ++ q).
      { intros q z. clear. induction p as [|y p IH]; cbn; [reflexivity|]. rewrite IH. reflexivity. }
      exists (p ++ [g x]), r, r'. rewrite !U, app_length. cbn in *. repeat split; lia.
    + intros [j w] [j' w'] (E1 & E2 & Hw). cbn [fst snd] in *. subst j j'. rewrite Nat.add_succ_r, <- Nat.add_succ_l. apply IH. exact Hw.
Qed.
Lemma load_agree data cases v v' : length v = length v' -> follows (agree (length cases)) (load data cases v) (load data cases v').
Proof.
  intros H. unfold load. apply (follows_bind (fun x y => agree (0 + length cases) (snd x) (snd y))); [apply (fill_agree (fun x : f64 => x)); apply agree_zero; exact H|].
  intros [i w] [j w'] Hw. apply follows_ok. exact Hw.
Qed.
Lemma load_cats_agree data cases v v' : length v = length v' -> follows (agree (length cases)) (load_cats data cases v) (load_cats data cases v').
Proof.
  intros H. unfold load_cats. apply (follows_bind (fun x y => agree (0 + length cases) (snd x) (snd y))); [apply (fill_agree shl1); apply agree_zero; exact H|].
  intros [i w] [j w'] Hw. apply follows_ok. exact Hw.
Qed.
Lemma SortBy_agree cs v v' : agree (length cs) v v' ->
  follows (fun x y => fst x = fst y /\ length (fst x) = length cs /\ agree (length cs) (snd x) (snd y)) (SortBy cs v) (SortBy cs v').
Proof.
  intros (p & r & r' & -> & -> & Hp & L) x E. destruct (SortBy_total cs p) as (cs1 & v1 & E1 & L1 & L2 & _); [lia|].
  assert (G : forall q, SortBy cs (p ++ q) = Ok (cs1, v1 ++ q)).
  { intros q. assert (H : Rv eq q p (p ++ q)). { exists p. split; [reflexivity|]. clear. induction p; constructor; auto. }
    apply (follows_SortBy eq) with (cs := cs) in H; [|congruence|congruence|congruence].
    destruct (H _ E1) as ([cs2 v2] & E2 & E3 & pre & E4 & F). cbn [fst snd] in *. rewrite E2, E4, <- E3. repeat f_equal. clear - F. induction F; congruence. }
  rewrite G in E. injection E as <-. exists (cs1, v1 ++ r'). rewrite G. cbn. repeat split; auto. exists v1, r, r'. repeat split; auto; lia.
Qed.
Lemma follows_for_up_in {B B'} (P : B -> B' -> Prop) body body' n : forall lo s s',
  P s s' -> (forall i s s', lo <= i < lo + n -> P s s' -> follows P (body i s) (body' i s')) -> follows P (for_up n lo body s) (for_up n lo body' s').
Proof.
  induction n as [|n IH]; intros lo s s' Hs H; cbn [for_up]; [apply follows_ok; exact Hs|].
  apply (follows_bind P); [apply H; [lia|exact Hs]|]. intros a a' Ha. apply IH; [exact Ha|]. intros. apply H; [lia|assumption].
Qed.

Section Search.
  Variable A : arith.
  Variables St St' : Type.
  Variable T : target A St.
  Variable T' : target A St'.
  Variable near : St -> St' -> Prop.
  Variable holds : list nat -> list nat -> St -> St' -> Prop.
  Hypothesis Hlk : lockstep T T' near holds.
  Variable rnd : nat -> nat.

  Definition alnear (al : allocs St) (al' : allocs St') : Prop :=
    length (aVals al) = length (aVals al') /\ length (aCat al) = length (aCat al') /\ near (aTgt al) (aTgt al') /\ aDraw al = aDraw al'.
  Definition fnear (r : found A St) (r' : found A St') : Prop :=
    fCode r = fCode r' /\ fDec r = fDec r' /\ fConst r = fConst r' /\ fCases r = fCases r' /\ alnear (fAl r) (fAl r').

  Ltac nears := unfold fnear, alnear; cbn; repeat (split; auto).

  Definition numr (cs : list nat) (s : nat * Z * A * f64 * St) (s' : nat * Z * A * f64 * St') : Prop :=
    let '(ls, li, dec, sf, tg) := s in let '(ls', li', dec', sf', tg') := s' in
    ls = ls' /\ li = li' /\ (li < Z.of_nat (length cs))%Z /\ dec = dec' /\ sf = sf' /\ near tg tg' /\ (ls <> 0 -> holds (firstn ls cs) (skipn ls cs) tg tg').
  Lemma num_step_near cs vs vs' p i s s' : agree (length cs) vs vs' -> i < length cs -> numr cs s s' ->
    follows (numr cs) (num_step A St T cs vs p i s) (num_step A St' T' cs vs' p i s').
  Proof.
    destruct s as [[[[ls li] dec] sf] tg], s' as [[[[ls' li'] dec'] sf'] tg']. intros Hv Hi (<- & <- & Hli & <- & <- & N & H). unfold num_step.
    rewrite <- (agree_get _ _ _ i Hv Hi). follow. intros vi ? <-.
    replace (getZ vs' li) with (getZ vs li) by (unfold getZ; destruct (Z.ltb_spec li 0); [reflexivity|apply (agree_get _ _ _ _ Hv); lia]).
    follow. intros vl ? <-. destruct (fleb vi _); [apply follows_ok; repeat (split; auto)|].
    intros r E. apply bind_ok in E as (lm & E1 & E). apply bind_ok in E as (rm & E2 & E). rewrite E1, E2. cbn [bind].
    apply slice_inv in E1 as (B1 & E1). apply slice_inv in E2 as (B2 & E2). rewrite Nat.sub_0_r in E1. cbn [skipn] in E1.
    rewrite firstn_all2 in E2 by (rewrite skipn_length; lia). subst lm rm. revert r E.
    apply (follows_bind (out (fun t t' => near t t' /\ holds (firstn i cs) (skipn i cs) t t'))).
    - destruct (Nat.eqb_spec ls 0) as [_|Hls].
      + intros x E. destruct (lk_split _ _ _ _ Hlk _ _ _ _ _ N _ E) as (y & E' & F1 & F2 & F3). exists y. repeat (split; auto).
      + intros x E. apply bind_ok in E as (mm & E1 & E). rewrite E1. cbn [bind]. apply slice_inv in E1 as (B3 & ->).
        rewrite (firstn_step cs ls i) in E |- * by lia.
        apply (lk_update _ _ _ _ Hlk _ _ _ _ _ N); [|exact E]. rewrite <- skipn_step by lia. apply H. exact Hls.
    - intros [imp t] [imp' t'] (F1 & F2 & F3). cbn [fst snd] in *. subst imp'.
      destruct (nltb A dec _); apply follows_ok; repeat (split; auto); lia.
  Qed.
  Lemma BestNumSplit_near f cases p leaf rs al al' : alnear al al' ->
    follows fnear (BestNumSplit A St T rnd f cases p leaf rs al) (BestNumSplit A St' T' rnd f cases p leaf rs al').
  Proof.
    intros (E1 & E2 & N & E3). unfold BestNumSplit. destruct (Nat.leb_spec (2 * leaf) (length cases)) as [El|_]; [|apply follows_ok; nears].
    rewrite <- E3. apply (follows_bind (agree (length cases))); [apply load_agree; exact E1|]. intros vals vals' Hv.
    apply (follows_bind (fun x y => fst x = fst y /\ length (fst x) = length cases /\ agree (length cases) (snd x) (snd y))); [apply SortBy_agree; exact Hv|].
    clear vals vals' Hv. intros [cs vs] [cs' vs'] (E4 & Lc & Hv). cbn [fst snd] in *. subst cs'. cbn [aVals aCat aTgt aDraw].
    pose proof (agree_length _ _ _ Hv) as Lv.
    intros x E. apply bind_ok in E as (v0 & G0 & E). apply bind_ok in E as (vn & Gn & E). revert x E.
    assert (H0 : 0 < length cases). { destruct cases; [|cbn; lia]. cbn in Gn. discriminate. }
    rewrite <- (agree_get _ _ _ 0 Hv H0), G0. cbn [bind].
    replace (getZ vs' (Z.of_nat (length cases) - 1)) with (getZ vs (Z.of_nat (length cases) - 1))
      by (unfold getZ; destruct (Z.ltb_spec (Z.of_nat (length cases) - 1) 0); [reflexivity|apply (agree_get _ _ _ _ Hv); lia]).
    rewrite Gn. cbn [bind]. destruct (fleb vn _); [apply follows_ok; nears|].
    intros x E. apply bind_ok in E as ([[lo stop] d] & E5 & E). rewrite E5. cbn [bind]. revert x E.
    assert (B : lo <= length cases /\ stop <= length cases).
    { destruct (rs && _) eqn:Er; [|injection E5 as <- <- <-]; [|split; lia].
      apply andb_true_iff in Er as [_ Er]. apply Nat.ltb_lt in Er. apply bind_ok in E5 as (k & E6 & E5). injection E5 as <- <- <-.
      destruct (_ =? 0) eqn:Ez; [discriminate|]. injection E6 as <-. apply Nat.eqb_neq in Ez.
      pose proof (Nat.mod_upper_bound (rnd (aDraw al)) (length cases - leaf - leaf) Ez). split; lia. }
    apply (follows_bind (numr cs)).
    - apply follows_for_up_in; [|intros i s s' Hi Hs; apply num_step_near; [rewrite Lc; exact Hv|lia|exact Hs]]. repeat (split; auto); [lia|congruence].
    - intros [[[[ls li] dec] sf] tg] [[[[ls' li'] dec'] sf'] tg'] (_ & _ & _ & <- & <- & N' & _). apply follows_ok. nears.
  Qed.
  Lemma with_missing_near has missing search search' cases p al al' : alnear al al' ->
    (forall cs q al al', alnear al al' -> follows fnear (search cs q al) (search' cs q al')) ->
    follows fnear (with_missing A St T has missing search cases p al) (with_missing A St' T' has missing search' cases p al').
  Proof.
    intros Hal Hs. unfold with_missing. destruct has; [|apply Hs; exact Hal]. follow. intros [ms nms] ? <-.
    destruct (length nms =? 0); [apply follows_ok; destruct Hal as (? & ? & ? & ?); nears|]. destruct Hal as (E3 & E4 & N & E5).
    apply (follows_bind (out near)); [apply (lk_imp _ _ _ _ Hlk); exact N|]. intros [pi t] [pi' t'] [E1 N1]. cbn [fst snd] in *. subst pi'.
    apply (follows_bind (out near)).
    { destruct (0 <? length ms); [apply (lk_imp _ _ _ _ Hlk); exact N1|apply follows_ok; split; auto]. }
    intros [mi u] [mi' u'] [E2 N2]. cbn [fst snd] in *. subst mi'.
    apply (follows_bind fnear); [apply Hs; nears|]. intros r r' (F1 & F2 & F3 & F4 & F5). apply follows_ok. rewrite F1, F2, F3. nears; apply F5.
  Qed.

  Definition zr (s : Z * A * St) (s' : Z * A * St') : Prop :=
    let '(b, dec, tg) := s in let '(b', dec', tg') := s' in b = b' /\ dec = dec' /\ near tg tg'.
  Lemma split_near l r tg tg' : near tg tg' -> follows (out near) (tSplit T l r None tg) (tSplit T' l r None tg').
  Proof. intros N x E. destruct (lk_split _ _ _ _ Hlk _ _ _ _ _ N _ E) as (y & E' & F1 & F2 & _). exists y. repeat (split; auto). Qed.
  Lemma iter_step_near bit setb data cases p leaf best i s s' : zr s s' ->
    follows zr (iter_step A St T bit setb data cases p leaf best i s) (iter_step A St' T' bit setb data cases p leaf best i s').
  Proof.
    destruct s as [[b dec] tg], s' as [[b' dec'] tg']. intros (<- & <- & N). unfold iter_step. destruct (bit best i); [apply follows_ok; repeat (split; auto)|].
    follow. intros [l r] ? <-. destruct (_ || _); [apply follows_ok; repeat (split; auto)|].
    apply (follows_bind (out near)); [apply split_near; exact N|]. intros [imp t] [imp' t'] [E1 N1]. cbn [fst snd] in *. subst imp'.
    destruct (nltb A dec _); apply follows_ok; repeat (split; auto).
  Qed.
  Lemma iter_search_near bit setb n data cases p leaf tg tg' : near tg tg' ->
    follows zr (iter_search A St T bit setb n data cases p leaf tg) (iter_search A St' T' bit setb n data cases p leaf tg').
  Proof.
    intros N. unfold iter_search.
    apply (follows_loop (fun (s : Z * A * St * nat) (s' : Z * A * St' * nat) => let '(x, j) := s in let '(x', j') := s' in zr x x' /\ j = j')).
    - repeat (split; auto).
    - intros [[[b dec] t] j] [[[b' dec'] t'] j'] [(<- & <- & N1) <-]. destruct (j <? n); [|apply follows_ok; cbn; repeat (split; auto)].
      apply (follows_bind zr); [apply follows_for_up; [repeat (split; auto)|intros; apply iter_step_near; assumption]|].
      intros [[c e] u] [[c' e'] u'] (<- & <- & N2). destruct (nltb A dec e); apply follows_ok; cbn; repeat (split; auto).
  Qed.
  Definition catr (s : list nat * list Z * Z * A * bool * St * nat) (s' : list nat * list Z * Z * A * bool * St' * nat) : Prop :=
    let '(cs, ca, b, dec, k, tg, d) := s in let '(cs', ca', b', dec', k', tg', d') := s' in
    cs = cs' /\ agree (length cs) ca ca' /\ b = b' /\ dec = dec' /\ k = k' /\ near tg tg' /\ d = d'.
  Lemma cat_part_near bits cs ca ca' : agree (length cs) ca ca' ->
    follows (fun (x y : list nat * list Z * nat * nat) => let '(cs1, ca1, l, r) := x in let '(cs1', ca1', l', r') := y in
      cs1 = cs1' /\ length cs1 = length cs /\ agree (length cs) ca1 ca1' /\ l = l' /\ r = r') (cat_part bits cs ca) (cat_part bits cs ca').
  Proof.
    intros H. unfold cat_part.
    apply (follows_loop (fun (x y : list nat * list Z * nat * nat * nat) => let '(cs1, ca1, l, j, r) := x in let '(cs1', ca1', l', j', r') := y in
      cs1 = cs1' /\ length cs1 = length cs /\ agree (length cs) ca1 ca1' /\ l = l' /\ j = j' /\ r = r' /\ r <= length cs)); [auto 10|].
    intros [[[[cs1 ca1] l] j] r] [[[[cs2 ca2] l'] j'] r'] (<- & L & Ha & <- & <- & <- & Hr).
    destruct (Nat.ltb_spec j r) as [Hj|_]; [|apply follows_ok; cbn; auto 10].
    rewrite <- (agree_get _ _ _ j Ha) by lia. follow. intros x ? <-. destruct (negb _); [apply follows_ok; cbn; auto 10|].
    intros y E. apply bind_ok in E as (cs3 & E1 & E). rewrite E1. cbn [bind]. pose proof (GoLemmas.swapl_length _ _ _ E1) as L3. revert y E.
    apply (follows_bind (agree (length cs))); [apply agree_swapl; [exact Ha|lia|lia]|]. intros c3 c3' Hc. apply follows_ok. cbn. repeat (split; auto); lia.
  Qed.
  Lemma cat_step_near exh p leaf i s s' : catr s s' -> follows catr (cat_step A St T rnd exh p leaf i s) (cat_step A St' T' rnd exh p leaf i s').
  Proof.
    destruct s as [[[[[[cs ca] b] dec] k] tg] d], s' as [[[[[[cs' ca'] b'] dec'] k'] tg'] d']. intros (<- & Ha & <- & <- & <- & N & <-). unfold cat_step.
    destruct (if exh then _ else _) as [bits d1].
    refine (follows_bind _ _ _ _ _ _ (cat_part_near bits cs ca ca' Ha) _). intros [[[cs1 ca1] l] r] [[[cs2 ca2] l'] r'] (<- & L & Ha1 & <- & <-). rewrite <- L in Ha1.
    destruct (_ || _); [apply follows_ok; repeat (split; auto)|]. follow. intros lm ? <-. follow. intros rm ? <-.
    apply (follows_bind (out near)); [apply split_near; exact N|]. intros [imp t] [imp' t'] [E1 N1]. cbn [fst snd] in *. subst imp'.
    destruct (nltb A dec _); apply follows_ok; repeat (split; auto).
  Qed.
  Lemma cBestSplit_near f cases p leaf al al' : alnear al al' ->
    follows fnear (cBestSplit A St T rnd f cases p leaf al) (cBestSplit A St' T' rnd f cases p leaf al').
  Proof.
    intros Hal. unfold cBestSplit. apply with_missing_near; [exact Hal|]. clear - Hlk. intros cs q al al' (E1 & E2 & N & E3).
    repeat match goal with |- follows _ (if ?b then _ else _) _ => destruct b end.
    - unfold BestCatSplitIterBig. apply (follows_bind zr); [apply iter_search_near; exact N|]. intros [[b dec] t] [[b' dec'] t'] (<- & <- & N1). apply follows_ok. nears.
    - unfold BestCatSplitIter. apply (follows_bind zr); [apply iter_search_near; exact N|]. intros [[b dec] t] [[b' dec'] t'] (<- & <- & N1). apply follows_ok. nears.
    - unfold BestCatSplitBig. rewrite <- E3.
      apply (follows_bind (fun (s : Z * A * St * nat) (s' : Z * A * St' * nat) => let '(x, d) := s in let '(x', d') := s' in zr x x' /\ d = d')).
      + apply follows_for_up; [repeat (split; auto)|]. intros i [[[b dec] t] d] [[[b' dec'] t'] d'] [(<- & <- & N1) <-].
        destruct (if _ <=? _ then _ else _) as [bits d1]. follow. intros [l r] ? <-. destruct (_ || _); [apply follows_ok; repeat (split; auto)|].
        apply (follows_bind (out near)); [apply split_near; exact N1|]. intros [imp u] [imp' u'] [F1 N2]. cbn [fst snd] in *. subst imp'.
        destruct (nltb A dec _); apply follows_ok; repeat (split; auto).
      + intros [[[b dec] t] d] [[[b' dec'] t'] d'] [(<- & <- & N1) <-]. apply follows_ok. nears.
    - unfold BestBinSplit. follow. intros [[cs1 l] r] ? <-. destruct (_ || _); [apply follows_ok; nears|]. follow. intros lm ? <-. follow. intros rm ? <-.
      apply (follows_bind (out near)); [apply split_near; exact N|]. intros [imp u] [imp' u'] [F1 N2]. cbn [fst snd] in *. subst imp'. apply follows_ok. nears.
    - unfold BestCatSplit. rewrite <- E3. apply (follows_bind (agree (length cs))); [apply load_cats_agree; exact E2|]. intros ca ca' Ha. apply (follows_bind catr).
      + apply follows_for_up; [repeat (split; auto)|intros; apply cat_step_near; assumption].
      + intros [[[[[[cs1 ca1] b] dec] k] tg] d] [[[[[[cs2 ca2] b'] dec'] k'] tg'] d'] (<- & Ha1 & <- & <- & <- & N1 & <-). apply follows_ok. nears. apply (agree_length _ _ _ Ha1).
  Qed.
  Lemma BestSplit_near f cases p leaf rs al al' : alnear al al' ->
    follows fnear (BestSplit A St T rnd f cases p leaf rs al) (BestSplit A St' T' rnd f cases p leaf rs al').
  Proof.
    intros Hal. destruct f as [f|f]; cbn [BestSplit]; [|apply cBestSplit_near; exact Hal].
    unfold nBestSplit. apply with_missing_near; [exact Hal|]. intros. apply BestNumSplit_near. assumption.
  Qed.
End Search.

(** Trees that differ in their predictions at most, which are related by [Q]. *)
Inductive same_but (Q : string -> string -> Prop) : node -> node -> Prop :=
| SBNil : same_but Q Nil Nil
| SBNode : forall d d' l l' r r' m m',
    dCode d = dCode d' -> dFeat d = dFeat d' -> dSpl d = dSpl d' -> (dPred d = dPred d' \/ Q (dPred d) (dPred d')) ->
    same_but Q l l' -> same_but Q r r' -> same_but Q m m' -> same_but Q (Node d l r m) (Node d' l' r' m').
Lemma same_but_refl Q n : same_but Q n n.
Proof. induction n; constructor; auto. Qed.

Section Growth.
  Variable A : arith.
  Variables St St' : Type.
  Variable T : target A St.
  Variable T' : target A St'.
  Variable near : St -> St' -> Prop.
  Variable holds : list nat -> list nat -> St -> St' -> Prop.
  Hypothesis Hlk : lockstep T T' near holds.
  Variables predict predict' : list nat -> res string.
  Variable Q : string -> string -> Prop.
  Hypothesis Hpred : forall l, follows Q (predict l) (predict' l).
  Variable rnd : nat -> nat.
  (** The contrast targets of -vet. *)
  Variables K K' : Type.
  Variable kCopyFrom : K -> K.
  Variable kCopyFrom' : K' -> K'.
  Variable kShuffleCases : (nat -> nat) -> list nat -> K -> res K.
  Variable kShuffleCases' : (nat -> nat) -> list nat -> K' -> res K'.
  Variable kTarget : K -> target A St.
  Variable kTarget' : K' -> target A St'.
  Variable knear : K -> K' -> Prop.
  (** [kold]: what is left of an earlier contrast, before the copy. *)
  Variable kold : K -> K' -> Prop.
  Hypothesis Hcopy : forall k k', kold k k' -> knear (kCopyFrom k) (kCopyFrom' k').
  Hypothesis Hold : forall k k', knear k k' -> kold k k'.
  Hypothesis Hshuf : forall d l k k', knear k k' -> follows knear (kShuffleCases d l k) (kShuffleCases' d l k').
  Hypothesis Hk : forall k k', knear k k' -> lockstep (kTarget k) (kTarget' k') near holds.
  Variable p : params.

  Local Notation alnear := (alnear St St' near).
  Local Notation fnear := (fnear A St St' near).

  Definition know (k : K) (k' : K') : Prop := if pVet p then knear k k' else kold k k'.
  Definition bnear (s : bstate A St K) (s' : bstate A St' K') : Prop :=
    bCans s = bCans s' /\ bCases s = bCases s' /\ bOob s = bOob s' /\ bConsts s = bConsts s' /\ bDrawn s = bDrawn s' /\ bLast s = bLast s' /\
    bFi s = bFi s' /\ bCode s = bCode s' /\ bDec s = bDec s' /\ alnear (bAl s) (bAl s') /\ know (bK s) (bK s').
  Definition gnear (s : gstate A St K) (s' : gstate A St' K') : Prop :=
    gCans s = gCans s' /\ gOob s = gOob s' /\ alnear (gAl s) (gAl s') /\ kold (gK s) (gK s') /\ gImp s = gImp s' /\ gDepth s = gDepth s'.

  Lemma eval_oob_near f code dec inner oob al al' : alnear al al' ->
    follows (fun x y => fst (fst x) = fst (fst y) /\ snd (fst x) = snd (fst y) /\ alnear (snd x) (snd y))
      (eval_oob A St T p f code dec inner oob al) (eval_oob A St' T' p f code dec inner oob al').
  Proof.
    intros Hal. unfold eval_oob. destruct (_ && _); [|apply follows_ok; repeat (split; auto); apply Hal].
    follow. intros sp ? <-. apply (follows_bind (out near)); [apply (lk_imp _ _ _ _ Hlk); apply Hal|]. intros [e t] [e' t'] [E1 N1]. cbn [fst snd] in *. subst e'.
    apply (follows_bind (out (fun t t' => near t t' /\ (Some (srM sp) = None -> holds (srL sp) (srR sp) t t')))); [apply (lk_split _ _ _ _ Hlk); exact N1|].
    intros [e2 t2] [e2' t2'] (E2 & N2 & _). cbn [fst snd] in *. subst e2'. apply follows_ok. cbn. repeat (split; auto); apply Hal.
  Qed.
  Lemma vet_split_near f par dec inner cases oob al al' k k' : alnear al al' -> know k k' ->
    follows (fun x y => fst (fst x) = fst (fst y) /\ alnear (snd (fst x)) (snd (fst y)) /\ know (snd x) (snd y))
      (vet_split A St rnd K kShuffleCases kTarget p f par dec inner cases oob al k)
      (vet_split A St' rnd K' kShuffleCases' kTarget' p f par dec inner cases oob al' k').
  Proof.
    intros (E1 & E2 & N & E3) Hkk. unfold vet_split. destruct (pVet p && _) eqn:Ev; [|apply follows_ok; cbn; repeat (split; auto)].
    apply andb_true_iff in Ev as [Ev _]. unfold know in *. rewrite Ev in *.
    cbn [aVals aCat aTgt aDraw]. rewrite <- E3. apply (follows_bind knear); [apply Hshuf; exact Hkk|]. intros k1 k1' Hk1.
    apply (follows_bind fnear).
    { apply (BestSplit_near A St St' _ _ near holds (Hk _ _ Hk1)). repeat (split; auto). }
    intros r r' (F1 & F2 & F3 & F4 & F5). rewrite F2, F4. destruct (pEvalOob p); apply follows_ok; cbn; repeat (split; auto); apply F5.
  Qed.
  Lemma draw_candidate_near s s' : bnear s s' ->
    follows (fun x y => bnear (fst x) (fst y) /\ snd x = snd y) (draw_candidate A St rnd K s) (draw_candidate A St' rnd K' s').
  Proof.
    intros (H1 & H2 & H3 & H4 & H5 & H6 & H7 & H8 & H9 & (A1 & A2 & A3 & A4) & H10). unfold draw_candidate. rewrite <- H1, <- H4, <- H5, <- H6, <- A4.
    destruct (_ <? _); [|apply follows_ok; unfold bnear, Lockstep.alnear; cbn; repeat (split; auto)].
    follow. intros k ? <-. destruct (_ <=? _); [apply follows_ok; unfold bnear, Lockstep.alnear; cbn; repeat (split; auto)|].
    follow. intros cans ? <-. apply follows_ok. unfold bnear, Lockstep.alnear. cbn. repeat (split; auto).
  Qed.
  Lemma try_candidate_near par s s' : bnear s s' ->
    follows bnear (try_candidate A St T rnd K kShuffleCases kTarget p par s) (try_candidate A St' T' rnd K' kShuffleCases' kTarget' p par s').
  Proof.
    intros (H1 & H2 & H3 & H4 & H5 & H6 & H7 & H8 & H9 & Hal & Hkk). unfold try_candidate. rewrite <- H1, <- H2, <- H3, <- H4, <- H5, <- H6, <- H7, <- H8, <- H9.
    follow. intros i ? <-. follow. intros f ? <-. apply (follows_bind fnear); [apply (BestSplit_near A St St' _ _ near holds Hlk); exact Hal|].
    intros r r' (F1 & F2 & F3 & F4 & F5). rewrite <- F1, <- F2, <- F3, <- F4. follow. intros [[[cans nc] dc] last] ? <-.
    apply (follows_bind (fun x y => fst (fst x) = fst (fst y) /\ snd (fst x) = snd (fst y) /\ alnear (snd x) (snd y))); [apply eval_oob_near; exact F5|].
    intros [[e oob] al1] [[e' oob'] al1'] (G1 & G2 & G3). cbn [fst snd] in *. subst e' oob'.
    apply (follows_bind (fun x y => fst (fst x) = fst (fst y) /\ alnear (snd (fst x)) (snd (fst y)) /\ know (snd x) (snd y))); [apply vet_split_near; auto|].
    intros [[[[e2 cs] oob2] al2] k2] [[[[e2' cs'] oob2'] al2'] k2'] (G4 & G5 & G6). cbn [fst snd] in *. injection G4 as <- <- <-.
    destruct (nltb A (bDec s) e2); apply follows_ok; unfold bnear; cbn; repeat (split; auto); apply G5.
  Qed.
  Lemma BestSplitter_near cases cans oob ncb al al' k k' : alnear al al' -> kold k k' ->
    follows bnear (BestSplitter A St T rnd K kCopyFrom kShuffleCases kTarget p cases cans oob ncb al k)
      (BestSplitter A St' T' rnd K' kCopyFrom' kShuffleCases' kTarget' p cases cans oob ncb al' k').
  Proof.
    intros (A1 & A2 & A3 & A4) Hkk. unfold BestSplitter. apply (follows_bind (out near)); [apply (lk_imp _ _ _ _ Hlk); exact A3|].
    intros [e t] [e' t'] [E1 N1]. cbn [fst snd] in *. subst e'.
    assert (B : bnear (mkBS A St K cans cases oob ncb 0 0 0 CNil (minImp A) (set_tgt St al t) (if pVet p then kCopyFrom k else k))
      (mkBS A St' K' cans cases oob ncb 0 0 0 CNil (minImp A) (set_tgt St' al' t') (if pVet p then kCopyFrom' k' else k'))).
    { unfold bnear, know, Lockstep.alnear. cbn. repeat (split; auto). destruct (pVet p); auto. }
    destruct (_ && _); [apply follows_ok; exact B|].
    unfold splitter_loop. cbn [bCans].
    apply (follows_loop (fun x y => fst x = fst y /\ bnear (snd x) (snd y))); [split; [reflexivity|exact B]|].
    clear - Hlk Hk Hshuf Hcopy. intros [j s] [j' s'] [E Hs]. cbn [fst snd] in *. subst j'. destruct Hs as (H1 & H2 & H3 & H4 & H5 & H6 & H7 & H8 & H9 & Hal & Hkk).
    assert (Hs : bnear s s') by (unfold bnear; auto 12). rewrite <- H1, <- H4, <- H5.
    destruct (_ || _); [|apply follows_ok; exact Hs]. destruct (_ <=? _); [apply follows_ok; exact Hs|].
    apply (follows_bind (fun x y => bnear (fst x) (fst y) /\ snd x = snd y)); [apply draw_candidate_near; exact Hs|].
    intros [s1 b] [s1' b'] [Hs1 Hb]. cbn [fst snd] in *. subst b'. destruct b; [|apply follows_ok; cbn; auto].
    apply (follows_bind bnear); [apply try_candidate_near; exact Hs1|]. intros s2 s2' Hs2. apply follows_ok. cbn. auto.
  Qed.

  Lemma know_old k k' : know k k' -> kold k k'.
  Proof. unfold know. destruct (pVet p); auto. Qed.
  Definition vnear (v v' : visited) : Prop :=
    same_but Q (Node (gvD v) (gvL v) (gvR v) (gvM v)) (Node (gvD v') (gvL v') (gvR v') (gvM v')) /\
    gvFi v = gvFi v' /\ gvSplit v = gvSplit v' /\ gvConsts v = gvConsts v' /\ gvCases v = gvCases v'.
  Lemma grow_visit_near d d' l l' r r' m m' cases depth ncb g g' : gnear g g' -> same_but Q (Node d l r m) (Node d' l' r' m') ->
    follows (fun x y => vnear (fst x) (fst y) /\ gnear (snd x) (snd y))
      (grow_visit A St T predict rnd K kCopyFrom kShuffleCases kTarget p d l r m cases depth ncb g)
      (grow_visit A St' T' predict' rnd K' kCopyFrom' kShuffleCases' kTarget' p d' l' r' m' cases depth ncb g').
  Proof.
    intros (G1 & G2 & G3 & G4 & G5 & G6) Hn. inversion Hn as [|d0 d0' ? ? ? ? ? ? N1 N2 N3 N4 NL NR NM]; subst. unfold grow_visit.
    assert (Leaf : forall fi nc cs h h', gnear h h' ->
      follows (fun x y => vnear (fst x) (fst y) /\ gnear (snd x) (snd y))
        (let* pred := predict cs in Ok (mkV (mkNd CNil (dFeat d) pred None) l r m fi CNil nc cs, h))
        (let* pred := predict' cs in Ok (mkV (mkNd CNil (dFeat d') pred None) l' r' m' fi CNil nc cs, h'))).
    { intros fi nc cs h h' Hh. apply (follows_bind Q); [apply Hpred|]. intros a a' Ha. apply follows_ok. split; [|exact Hh].
      unfold vnear. cbn. repeat (split; auto). constructor; cbn; auto. }
    destruct (_ && _); [|apply Leaf; unfold gnear; auto 10]. rewrite <- G1, <- G2.
    apply (follows_bind bnear); [apply BestSplitter_near; assumption|]. intros b b' (H1 & H2 & H3 & H4 & H5 & H6 & H7 & H8 & H9 & Hal & Hkk).
    cbn [gCans gOob gAl gK gImp gDepth]. rewrite <- H1, <- H2, <- H3, <- H4, <- H7, <- H8, <- H9, <- G5, <- G6.
    destruct (isCNil (bCode b)).
    - apply know_old in Hkk. apply Leaf. unfold gnear. cbn. repeat (split; auto); apply Hal.
    - apply know_old in Hkk. follow. intros [imp du] ? <-. follow. intros f ? <-. follow. intros spl ? <-. apply follows_ok. cbn [fst snd].
      assert (EL : isNil l = isNil l') by (inversion NL; reflexivity). assert (ER : isNil r = isNil r') by (inversion NR; reflexivity). rewrite <- EL, <- ER. split.
      + unfold vnear. cbn. repeat (split; auto). constructor; cbn; auto.
        * destruct (isNil l || isNil r); [apply same_but_refl|exact NL].
        * destruct (isNil l || isNil r); [apply same_but_refl|exact NR].
        * destruct (pSplitMissing p); [apply same_but_refl|exact NM].
      + unfold gnear. cbn. repeat (split; auto); apply Hal.
  Qed.
  Lemma grow_near fuel : forall n n' cases depth ncb g g', gnear g g' -> same_but Q n n' ->
    follows (fun x y => same_but Q (fst x) (fst y) /\ gnear (snd x) (snd y))
      (grow_node A St T predict rnd K kCopyFrom kShuffleCases kTarget fuel p n cases depth ncb g)
      (grow_node A St' T' predict' rnd K' kCopyFrom' kShuffleCases' kTarget' fuel p n' cases depth ncb g').
  Proof.
    induction fuel as [|fuel IH]; intros n n' cases depth ncb g g' Hg Hn; cbn [grow_node]; [intros x E; discriminate|].
    destruct Hn as [|d d' l l' r r' m m' N1 N2 N3 N4 NL NR NM]; [apply follows_panic|].
    apply (follows_bind (fun x y => vnear (fst x) (fst y) /\ gnear (snd x) (snd y))); [apply grow_visit_near; [exact Hg|constructor; assumption]|].
    intros [v g1] [v' g1'] [(Hv & V1 & V2 & V3 & V4) Hg1]. cbn [fst snd] in *. rewrite <- V1, <- V2, <- V3, <- V4. destruct (isCNil (gvSplit v)); [apply follows_ok; split; assumption|].
    inversion Hv as [|? ? ? ? ? ? ? ? M1 M2 M3 M4 ML MR MM]; subst.
    follow. intros f ? <-. follow. intros [[cs li] ri] ? <-. follow. intros lc ? <-.
    apply (follows_bind (fun x y => same_but Q (fst x) (fst y) /\ gnear (snd x) (snd y))); [apply IH; assumption|]. intros [l1 g2] [l1' g2'] [L1 Hg2]. cbn [fst snd] in *.
    follow. intros rc ? <-.
    apply (follows_bind (fun x y => same_but Q (fst x) (fst y) /\ gnear (snd x) (snd y))); [apply IH; assumption|]. intros [r1 g3] [r1' g3'] [R1 Hg3]. cbn [fst snd] in *.
    assert (EM : isNil (gvM v) = isNil (gvM v')) by (inversion MM; reflexivity). rewrite <- EM.
    apply (follows_bind (fun x y => same_but Q (fst x) (fst y) /\ gnear (snd x) (snd y))).
    { destruct (_ && _); [|apply follows_ok; split; assumption]. follow. intros mc ? <-. apply IH; assumption. }
    intros [m1 g4] [m1' g4'] [P1 Hg4]. cbn [fst snd] in *. apply follows_ok. split; [constructor; assumption|exact Hg4].
  Qed.
End Growth.
