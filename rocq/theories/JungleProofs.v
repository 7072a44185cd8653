(** Growing a jungle: it ends, and what becomes of every position of the cases. *)
From Verif Require Import Go GoLemmas F64 F64Order F64Round ModelFeature ModelSplit SplitSpec SplitProofs ModelTree TreeSpec
  ModelSearch SearchSpec GrowSpec TotalSearch ModelGrow SplitterProofs GrownSpec SortProofs GrowProofs ModelJungle.
From Verif Require PropFeatureSearch PropSplitter.
Local Open Scope nat_scope.
Local Open Scope list_scope.

(** ** Windows *)
Definition win {B} (l : list B) lo n : list B := firstn n (skipn lo l).

Lemma firstn_ext {B} : forall n (l l' : list B),
  (forall k, k < n -> nth_error l k = nth_error l' k) -> firstn n l = firstn n l'.
Proof.
  induction n as [|n IH]; intros l l' H; cbn; auto.
  pose proof (H 0 ltac:(lia)) as H0. destruct l as [|a l], l' as [|a' l']; cbn in H0; try congruence.
  injection H0 as <-. f_equal. apply IH. intros k Hk. apply (H (S k)). lia.
Qed.
Lemma win_ext {B} (l l' : list B) lo n :
  (forall x, lo <= x < lo + n -> nth_error l x = nth_error l' x) -> win l lo n = win l' lo n.
Proof. intros H. apply firstn_ext. intros k Hk. rewrite !nth_error_skipn. apply H. lia. Qed.
Lemma win_length {B} (l : list B) lo n : lo + n <= length l -> length (win l lo n) = n.
Proof. intros H. unfold win. rewrite firstn_length, skipn_length. lia. Qed.
Lemma win_incl {B} (l : list B) lo n : incl (win l lo n) l.
Proof.
  intros c Hc. unfold win in Hc. apply In_nth_error in Hc as (k & Hk).
  assert (Ik : In c (skipn lo l)).
  { rewrite <- (firstn_skipn n (skipn lo l)). apply in_or_app. left. eapply nth_error_In; eauto. }
  rewrite <- (firstn_skipn lo l). apply in_or_app. auto.
Qed.
Lemma nth_putwin_in {B} (l : list B) lo w x : lo <= length l -> lo <= x < lo + length w ->
  nth_error (putwin l lo w) x = nth_error w (x - lo).
Proof.
  intros H Hx. unfold putwin. assert (Lf : length (firstn lo l) = lo) by (rewrite firstn_length; lia).
  rewrite nth_error_app2 by lia. rewrite Lf. apply nth_error_app1. lia.
Qed.
Lemma nth_putwin_out {B} (l : list B) lo w x : lo + length w <= length l -> x < lo \/ lo + length w <= x ->
  nth_error (putwin l lo w) x = nth_error l x.
Proof.
  intros H Hx. unfold putwin. assert (Lf : length (firstn lo l) = lo) by (rewrite firstn_length; lia).
  destruct Hx as [Hx|Hx].
  - rewrite nth_error_app1 by lia.
    rewrite <- (firstn_skipn lo l) at 2. rewrite nth_error_app1 by lia. reflexivity.
  - rewrite !nth_error_app2 by lia. rewrite nth_error_skipn. f_equal. lia.
Qed.
Lemma win_putwin_sub {B} (l : list B) lo w a n : lo + length w <= length l -> a + n <= length w ->
  win (putwin l lo w) (lo + a) n = win w a n.
Proof.
  intros H1 H2. apply firstn_ext. intros k Hk. rewrite !nth_error_skipn.
  rewrite nth_putwin_in by lia. f_equal. lia.
Qed.
Lemma win_all {B} (l : list B) n : n = length l -> win l 0 n = l.
Proof. intros ->. unfold win. cbn. apply firstn_all. Qed.
Lemma win_putwin {B} (l : list B) lo w n : lo + length w <= length l -> n = length w ->
  win (putwin l lo w) lo n = w.
Proof.
  intros H ->. transitivity (win w 0 (length w)); [|apply win_all; auto].
  rewrite <- (win_putwin_sub l lo w 0 (length w)) by lia. rewrite Nat.add_0_r. reflexivity.
Qed.
Lemma putwin_putwin {B} (l : list B) lo w w' : length w' = length w -> lo + length w <= length l ->
  putwin (putwin l lo w) lo w' = putwin l lo w'.
Proof.
  intros E H. apply nth_error_ext'. intros x.
  assert (L1 : length (putwin l lo w) = length l) by (apply putwin_length; auto).
  destruct (le_lt_dec lo x) as [G|G], (le_lt_dec (lo + length w) x) as [G'|G'].
  1,3,4: rewrite !nth_putwin_out by lia; auto.
  rewrite !nth_putwin_in by lia. auto.
Qed.
Lemma putwin_perm {B} (l : list B) lo w : lo + length w <= length l -> Permutation w (win l lo (length w)) ->
  Permutation (putwin l lo w) l.
Proof.
  intros H P. unfold putwin.
  transitivity (firstn lo l ++ win l lo (length w) ++ skipn (lo + length w) l).
  { apply Permutation_app_head, Permutation_app_tail, P. }
  assert (Sk : forall a b (x : list B), skipn (a + b) x = skipn b (skipn a x)).
  { induction a as [|a IH]; intros b x; cbn; auto. destruct x; cbn; auto. destruct b; auto. }
  rewrite Sk. unfold win. rewrite firstn_skipn, firstn_skipn. reflexivity.
Qed.

(** ** Entries *)
Definition width (e : entry) : nat := eEnd e - eStart e.
Definition span (e : entry) : list nat := seq (eStart e) (width e).
Definition spans (es : list entry) : list nat := flat_map span es.
Definition is_terminal (h : list jnode) (e : entry) : bool :=
  match nth_error h (eN e) with
  | Some n => match dSpl (jD n) with None => true | Some _ => false end
  | None => false
  end.
(** Entries that stand for a node without a split that was not merged into another. *)
Definition leafy (h : list jnode) (e : entry) : bool := negb (eDead e) && is_terminal h e.

Lemma spans_app l l' : spans (l ++ l') = spans l ++ spans l'.
Proof. apply flat_map_app. Qed.
Lemma span_in e x : In x (span e) <-> eStart e <= x < eEnd e.
Proof. unfold span, width. rewrite in_seq. lia. Qed.
Lemma spans_in e es x : In e es -> In x (span e) -> In x (spans es).
Proof. intros H1 H2. apply in_flat_map. eauto. Qed.

Lemma filter_ext_on {B} (P Q : B -> bool) l : (forall x, In x l -> P x = Q x) -> filter P l = filter Q l.
Proof. intros H. induction l as [|a l IH]; cbn; auto. rewrite (H a) by (left; auto). rewrite IH; auto. intros; apply H; right; auto. Qed.

Lemma filter_every {B} (P : B -> bool) l : (forall x, In x l -> P x = true) -> filter P l = l.
Proof. intros H. induction l as [|a l IH]; cbn; auto. rewrite (H a) by (left; auto). rewrite IH; auto. intros; apply H; right; auto. Qed.
Lemma filter_none {B} (P : B -> bool) l : (forall x, In x l -> P x = false) -> filter P l = [].
Proof. intros H. induction l as [|a l IH]; cbn; auto. rewrite (H a) by (left; auto). apply IH. intros; apply H; right; auto. Qed.
Lemma nodup_app_l {B} (l l' : list B) : NoDup (l ++ l') -> NoDup l.
Proof. induction l as [|a l IH]; cbn; intros H; constructor; inversion H; subst; auto. rewrite in_app_iff in *. tauto. Qed.
Lemma nodup_app_disjoint {B} (l l' : list B) x : NoDup (l ++ l') -> In x l -> In x l' -> False.
Proof.
  induction l as [|a l IH]; cbn; intros H [].
  - subst. inversion H; subst. rewrite in_app_iff in *. tauto.
  - inversion H; subst. auto.
Qed.

Lemma nodup_app_r {B} (l l' : list B) : NoDup (l ++ l') -> NoDup l'.
Proof. induction l as [|a l IH]; cbn; intros H; auto. inversion H; auto. Qed.

Lemma nodup_app_intro {B} (l l' : list B) : NoDup l -> NoDup l' -> (forall a, In a l -> In a l' -> False) -> NoDup (l ++ l').
Proof.
  intros H H' D. induction l as [|a l IH]; cbn; auto. inversion H; subst. constructor.
  - rewrite in_app_iff. intros [Q|Q]; auto. apply (D a); auto. left; auto.
  - apply IH; auto. intros b Hb. apply D. right; auto.
Qed.

(** Entries that satisfy a condition and whose spans have no position twice. *)
Lemma spans_disjoint_in P es i j e e' x : NoDup (spans (filter P es)) ->
  nth_error es i = Some e -> nth_error es j = Some e' -> P e = true -> P e' = true -> i <> j ->
  In x (span e) -> In x (span e') -> False.
Proof.
  revert i j. induction es as [|a es IH]; intros i j H Hi Hj Pi Pj Hn Hx Hx'; [destruct i; discriminate|].
  assert (H2 : NoDup (spans (filter P es))).
  { cbn in H. destruct (P a); auto. change (spans (a :: filter P es)) with (span a ++ spans (filter P es)) in H.
    eapply nodup_app_r; eauto. }
  destruct i as [|i], j as [|j]; cbn in Hi, Hj; try congruence.
  - injection Hi as ->. cbn in H. rewrite Pi in H.
    apply (nodup_app_disjoint (span e) (spans (filter P es)) x H); auto. eapply spans_in; [|exact Hx'].
    apply filter_In. split; auto. eapply nth_error_In; eauto.
  - injection Hj as ->. cbn in H. rewrite Pj in H.
    apply (nodup_app_disjoint (span e') (spans (filter P es)) x H); auto. eapply spans_in; [|exact Hx].
    apply filter_In. split; auto. eapply nth_error_In; eauto.
  - apply (IH i j); auto.
Qed.

Lemma nth_error_cut {B} : forall (l : list B) i x, nth_error l i = Some x ->
  exists a b, l = a ++ x :: b /\ length a = i.
Proof.
  induction l as [|y l IH]; intros [|i] x E; cbn in E; try discriminate.
  - injection E as ->. exists [], l. auto.
  - apply IH in E as (a & b & -> & <-). exists (y :: a), b. auto.
Qed.

(** A filter that no longer takes the element at one place. *)
Lemma filter_lose {B} (P Q : B -> bool) l i x : nth_error l i = Some x -> P x = true -> Q x = false ->
  (forall j y, nth_error l j = Some y -> j <> i -> P y = Q y) ->
  Permutation (filter P l) (x :: filter Q l).
Proof.
  intros E Px Qx H. apply nth_error_cut in E as (a & b & -> & La).
  rewrite !filter_app. cbn. rewrite Px, Qx.
  assert (Ha : filter P a = filter Q a).
  { apply filter_ext_on. intros y Hy. apply In_nth_error in Hy as (k & Hk).
    pose proof (nth_error_Some a k) as Hs. rewrite Hk in Hs. assert (k < length a) by (apply Hs; discriminate).
    apply (H k y); [|lia]. rewrite nth_error_app1 by auto. auto. }
  assert (Hb : filter P b = filter Q b).
  { apply filter_ext_on. intros y Hy. apply In_nth_error in Hy as (k & Hk).
    apply (H (length a + S k) y); [|lia]. rewrite nth_error_app2 by lia.
    replace (length a + S k - length a) with (S k) by lia. auto. }
  rewrite Ha, Hb. symmetry. apply Permutation_middle.
Qed.
Lemma spans_perm l l' : Permutation l l' -> Permutation (spans l) (spans l').
Proof. apply Permutation_flat_map. Qed.

(** ** The way of a case through the nodes *)
Definition jnext (data : list feature) (n : jnode) (c : nat) : option nat :=
  match dSpl (jD n), nth_error data (dFeat (jD n)) with
  | Some _, Some f => if fmissing f c then jM n else if coded_left f (dCode (jD n)) c then jL n else jR n
  | _, _ => None
  end.
Inductive reaches (data : list feature) (h : list jnode) (c : nat) : nat -> nat -> Prop :=
| r_here a : reaches data h c a a
| r_next a n k b : nth_error h a = Some n -> jnext data n c = Some k -> reaches data h c k b -> reaches data h c a b.

Lemma reaches_snoc data h c a b n k : reaches data h c a b -> nth_error h b = Some n -> jnext data n c = Some k ->
  reaches data h c a k.
Proof.
  intros R Hn Hk. induction R as [a|a n' k' b H1 H2 R IH].
  - eapply r_next; eauto. constructor.
  - eapply r_next; eauto.
Qed.
(** Nodes that have a next node keep it, unless it is a node at the end other than [b]. *)
Lemma reaches_keep data h h' c a b :
  (forall x n k, nth_error h x = Some n -> jnext data n c = Some k ->
     (exists n', nth_error h' x = Some n' /\ jnext data n' c = Some k) \/
     (k <> b /\ forall nk, nth_error h k = Some nk -> jnext data nk c = None)) ->
  reaches data h c a b -> reaches data h' c a b.
Proof.
  intros H R. induction R as [a|a n k b H1 H2 R IH]; [constructor|].
  destruct (H a n k H1 H2) as [(n' & E1 & E2)|[N Hk]].
  - eapply r_next; eauto.
  - destruct R as [z|z nz k' b' H3 H4 R']; [congruence|].
    rewrite (Hk nz H3) in H4. discriminate.
Qed.

Lemma putwin_self {B} (l : list B) lo n : lo + n <= length l -> putwin l lo (win l lo n) = l.
Proof.
  intros H. apply nth_error_ext'. intros x.
  assert (W : length (win l lo n) = n) by (apply win_length; auto).
  destruct (le_lt_dec lo x) as [G|G], (le_lt_dec (lo + n) x) as [G'|G'].
  1,3,4: rewrite nth_putwin_out by lia; auto.
  rewrite nth_putwin_in by lia. unfold win.
  transitivity (nth_error (skipn lo l) (x - lo)).
  - rewrite <- (firstn_skipn n (skipn lo l)) at 2. rewrite nth_error_app1; auto.
    unfold win in W. lia.
  - rewrite nth_error_skipn. f_equal. lia.
Qed.
Lemma nodup_nth {B} (l : list B) i j x : NoDup l -> nth_error l i = Some x -> nth_error l j = Some x -> i = j.
Proof.
  intros H Hi Hj. apply (proj1 (NoDup_nth_error l) H).
  - apply nth_error_Some. congruence.
  - congruence.
Qed.

Lemma win_cat {B} (l : list B) a b c : a <= b -> b <= c -> c <= length l ->
  win l a (c - a) = win l a (b - a) ++ win l b (c - b).
Proof.
  intros H1 H2 H3. replace (c - a) with ((b - a) + (c - b)) by lia. unfold win.
  assert (Fn : forall x y (q : list B), firstn (x + y) q = firstn x q ++ firstn y (skipn x q)).
  { induction x as [|x IH]; intros y q; cbn; auto. destruct q; cbn; [destruct y; auto|]. f_equal. auto. }
  assert (Sk : forall x y (q : list B), skipn (x + y) q = skipn y (skipn x q)).
  { induction x as [|x IH]; intros y q; cbn; auto. destruct q; cbn; auto. destruct y; auto. }
  rewrite Fn. f_equal. rewrite <- Sk. f_equal. f_equal. lia.
Qed.

Section Jungle.
  Variable A : arith.
  Variable St : Type.
  Variable T : target A St.
  Variable predict : list nat -> res string.
  Variable rnd : nat -> nat.
  Variable K : Type.
  Variable kCopyFrom : K -> K.
  Variable kShuffleCases : (nat -> nat) -> list nat -> K -> res K.
  Variable kTarget : K -> target A St.
  Variable p : params.
  Variables (ok : nat -> Prop) (ready : St -> Prop) (kok : K -> Prop).
  Hypothesis Dep : dependable T ok ready.
  Hypothesis Hsane : sane A.
  Hypothesis Hleaf : 1 <= pLeaf p.
  Hypothesis Hvet : pVet p = true -> vettable A St K kCopyFrom kShuffleCases kTarget ok ready kok.
  Hypothesis Hpred : forall cs, Forall ok cs -> exists s, predict cs = Ok s.
  Variables (cans0 oob0 : list nat).
  Hypothesis Htry : pTry p <= length cans0.
  Hypothesis Hoob : pEvalOob p = true -> Forall ok oob0.
  Variable cases0 : list nat.
  Hypothesis Hcok : Forall ok cases0.
  Hypothesis Hdata : data_fits p cans0 oob0 cases0.

  Local Notation gst := (gstate A St K).
  Local Notation jst := (jstate A St K).
  Local Notation L := (length cans0).
  Local Notation N := (length cases0).
  Local Notation fine := (fine A St K p ready kok cans0 oob0).
  Local Notation data_fits := (data_fits p cans0 oob0).
  Local Notation moved := (moved A St K).
  Local Notation BestSplitter := (BestSplitter A St T rnd K kCopyFrom kShuffleCases kTarget p).
  Local Notation jvisit := (jvisit A St T predict rnd K kCopyFrom kShuffleCases kTarget p).

  (** One search for a split; the constants need not be constants. *)
  Lemma jsearch cases nb (g : gst) : length cases <= N -> Forall ok cases -> data_fits cases -> fine N g -> nb <= L ->
    exists b, BestSplitter cases (gCans g) (gOob g) nb (gAl g) (gK g) = Ok b /\
      fine N (moved g b) /\ Permutation cases (bCases b) /\ bConsts b <= L /\
      (bCode b <> CNil -> In (bFi b) cans0 /\
         exists f, nth_error (pData p) (bFi b) = Some f /\ searchable f cases /\ legal f (bCode b) (pLeaf p) cases).
  Proof.
    intros HN Hok Hd [C1 C2 C3' C4 C5 C6 C7 C8] Hnb.
    assert (C3 : roomy (gAl g) (length cases)) by (destruct C3'; split; lia).
    assert (Lc : length (gCans g) = L) by (symmetry; apply (Permutation_length C1)).
    assert (G1 : pVet p = true -> vettable A St K kCopyFrom kShuffleCases kTarget ok ready kok /\ kok (gK g)) by auto.
    assert (G2 : pEvalOob p = true -> Forall ok (gOob g) /\ roomy (gAl g) (length (gOob g))).
    { intros O. split; [eapply Permutation_Forall; [exact C2|auto]|]. rewrite <- (Permutation_length C2). auto. }
    assert (G3 : forall i, In i (gCans g) -> exists f, nth_error (pData p) i = Some f /\ searchable f cases /\
       (pEvalOob p = true -> searchable f (gOob g))).
    { intros i Hi. destruct (Hd i) as (f & E1 & E2 & E3 & E4).
      { eapply Permutation_in; [symmetry; exact C1|auto]. }
      exists f. split; auto. split; auto. intros O. eapply searchable_perm; [exact C2|auto]. }
    assert (G4 : pTry p <= length (gCans g)) by lia.
    assert (G5 : nb <= length (gCans g)) by lia.
    destruct (BestSplitter_total A St T rnd K kCopyFrom kShuffleCases kTarget p ok ready kok Dep Hsane
      (gCans g) nb cases (gOob g) (gAl g) (gK g) G4 G5 Hleaf G1 Hok C3 C5 G2 G3)
      as (parent & tg & b & Et & E & (j & [Hp Hta Hm Hr Hdr Hc Hf]) & [F1 F2 F3 F4 F5 F6] & Fin).
    exists b. split; auto. rewrite Lc in *. destruct F3 as (K1 & K2 & K3).
    split; [|split; [|split]]; auto.
    - constructor; cbn; auto.
      + etransitivity; eauto.
      + etransitivity; eauto.
      + unfold roomy in *. rewrite K1, K2. auto.
      + unfold roomy in *. rewrite K1, K2. auto.
    - lia.
    - intros Hcode. assert (Hin : In (bFi b) cans0).
      { eapply Permutation_in; [symmetry; exact C1|]. apply Hf. auto. }
      destruct (Hd _ Hin) as (f & Ef & Sf & Ff & _).
      destruct F5 as [[_ H]|[Hdec H]]; [congruence|]. split; auto.
      destruct H as (f' & Ef' & Cf & Lg). assert (f' = f) by congruence. subst f'.
      exists f. split; auto.
  Qed.

  Definition wine (cases : list nat) (e : entry) : list nat := win cases (eStart e) (width e).

  (** A target for which taking two sets of cases together never pays. *)
  Definition calm : Prop := forall l r tg v tg1 w tg2, l <> [] -> r <> [] -> Forall ok l -> Forall ok r -> ready tg ->
    tSplit T l r None tg = Ok (v, tg1) -> tImp T (l ++ r) tg1 = Ok (w, tg2) ->
    nltb A (nofZ A 0) (nsub A v w) = false.

  Record jinv (cur last depth : nat) (s : jst) : Prop := {
    j_perm : Permutation cases0 (sCases s);
    j_fine : fine N (sG s);
    j_bounds : cur <= last /\ last <= length (sNodes s);
    j_entry : forall i e, nth_error (sNodes s) i = Some e ->
      eStart e <= eEnd e /\ eEnd e <= N /\ eConsts e <= L /\ eN e < length (sHeap s) /\
      (i <> 0 -> 0 < width e /\ exists q, eParent e = Some q /\ q < length (sHeap s));
    j_nodup : NoDup (map eN (sNodes s));
    j_part : exists dropped,
      Permutation (spans (filter (leafy (sHeap s)) (sNodes s)) ++ spans (filter eDead (sNodes s)) ++ dropped) (seq 0 N) /\
      (pSplitMissing p = true -> dropped = []);
    j_done : forall i e, i < cur -> nth_error (sNodes s) i = Some e -> leafy (sHeap s) e = true ->
      exists n, nth_error (sHeap s) (eN e) = Some n /\ predict (wine (sCases s) e) = Ok (dPred (jD n));
    j_todo : forall i e, cur <= i \/ eDead e = true -> nth_error (sNodes s) i = Some e ->
      exists n, nth_error (sHeap s) (eN e) = Some n /\ jD n = jD jnew;
    j_depth : forall i e, cur <= i -> nth_error (sNodes s) i = Some e ->
      width e + (if i <? last then depth else S depth) <= N;
    j_reach : forall i e c, nth_error (sNodes s) i = Some e -> leafy (sHeap s) e = true ->
      In c (wine (sCases s) e) -> reaches (pData p) (sHeap s) c 0 (eN e);
    j_alive : calm -> forall e, In e (sNodes s) -> eDead e = false;
    j_first : forall e, nth_error (sNodes s) 0 = Some e -> eDead e = false
  }.

  Lemma leafs_nodup cur last depth s : jinv cur last depth s -> NoDup (spans (filter (leafy (sHeap s)) (sNodes s))).
  Proof.
    intros H. destruct (j_part _ _ _ _ H) as (dr & P & _).
    apply (nodup_app_l _ (spans (filter eDead (sNodes s)) ++ dr)).
    apply (Permutation_NoDup (l := seq 0 N)); [symmetry; exact P|apply seq_NoDup].
  Qed.

  (** The windows of the other leaves do not meet the window of entry [i]. *)
  Lemma other_window cur last depth s i e w j e' : jinv cur last depth s ->
    nth_error (sNodes s) i = Some e -> leafy (sHeap s) e = true ->
    nth_error (sNodes s) j = Some e' -> leafy (sHeap s) e' = true -> i <> j ->
    length w = width e -> wine (putwin (sCases s) (eStart e) w) e' = wine (sCases s) e'.
  Proof.
    intros H Ei Li Ej Lj Nij Lw.
    destruct (j_entry _ _ _ _ H _ _ Ei) as (B1 & B2 & _).
    destruct (j_entry _ _ _ _ H _ _ Ej) as (B3 & B4 & _).
    pose proof (Permutation_length (j_perm _ _ _ _ H)) as LN.
    apply win_ext. intros x Hx. unfold width in *. apply nth_putwin_out; [lia|].
    destruct (le_lt_dec (eStart e) x) as [G|G]; [|auto]. destruct (le_lt_dec (eStart e + length w) x) as [G'|G']; [auto|].
    exfalso. apply (spans_disjoint_in (leafy (sHeap s)) (sNodes s) i j e e' x); auto.
    - eapply leafs_nodup; eauto.
    - apply span_in. lia.
    - apply span_in. lia.
  Qed.

  Lemma terminal_of h e n : nth_error h (eN e) = Some n -> jD n = jD jnew -> is_terminal h e = true.
  Proof. intros E D. unfold is_terminal. rewrite E, D. reflexivity. Qed.

  Lemma jinv_skip i last depth s e : jinv i last depth s -> i < last -> nth_error (sNodes s) i = Some e -> eDead e = true ->
    jinv (S i) last depth s.
  Proof.
    intros [H1 H2 H3 H4 H5 H6 H7 H8 H9 H10 H11 H12] Hi E D. constructor; auto.
    - lia.
    - intros k e' Hk Ek Lk. assert (k = i \/ k < i) as [->|Hk'] by lia; eauto.
      assert (e' = e) by congruence. subst. unfold leafy in Lk. rewrite D in Lk. discriminate.
    - intros k e' Hk. apply (H8 k e'). destruct Hk; [left; lia|auto].
    - intros k e' Hk. apply (H9 k e'). lia.
  Qed.

  (** Setting a node without split keeps which entries are leaves and where cases go. *)
  Lemma leaf_same h a n n' : nth_error h a = Some n -> dSpl (jD n) = None -> dSpl (jD n') = None ->
    forall e, is_terminal (upd h a n') e = is_terminal h e.
  Proof.
    intros E D D' e. unfold is_terminal. destruct (Nat.eq_dec a (eN e)) as [<-|Na].
    - rewrite nth_error_upd_eq by (apply nth_error_Some; congruence). rewrite E, D, D'. reflexivity.
    - rewrite nth_error_upd_neq by auto. reflexivity.
  Qed.
  Lemma leaf_reaches h a n n' c x y : nth_error h a = Some n -> dSpl (jD n) = None ->
    reaches (pData p) h c x y -> reaches (pData p) (upd h a n') c x y.
  Proof.
    intros E D. apply reaches_keep. intros z m k Ez Ek. left. exists m. split; auto.
    rewrite nth_error_upd_neq; auto. intros <-. assert (m = n) by congruence. subst.
    unfold jnext in Ek. rewrite D in Ek. discriminate.
  Qed.

  Lemma jinv_leaf i last depth s e w g' pred n : jinv i last depth s -> i < last ->
    nth_error (sNodes s) i = Some e -> eDead e = false -> nth_error (sHeap s) (eN e) = Some n ->
    Permutation (wine (sCases s) e) w -> fine N g' -> predict w = Ok pred ->
    jinv (S i) last depth (mkS A St K
      (upd (sHeap s) (eN e) (mkJ (mkNd CNil (dFeat (jD n)) pred None) (jL n) (jR n) (jM n)))
      (sNodes s) (putwin (sCases s) (eStart e) w) g').
  Proof.
    intros H Hi E D En Pw Hg Hp.
    pose proof H as [H1 H2 H3 H4 H5 H6 H7 H8 H9 H10 H11 H12].
    destruct (H8 i e (or_introl (Nat.le_refl i)) E) as (n0 & En0 & Dn). assert (n0 = n) by congruence. subst n0.
    assert (Dn' : dSpl (jD n) = None) by (rewrite Dn; reflexivity).
    set (n' := mkJ (mkNd CNil (dFeat (jD n)) pred None) (jL n) (jR n) (jM n)).
    assert (Same : forall e', leafy (upd (sHeap s) (eN e) n') e' = leafy (sHeap s) e').
    { intros e'. unfold leafy. rewrite (leaf_same (sHeap s) (eN e) n n'); auto. }
    assert (Le : leafy (sHeap s) e = true).
    { unfold leafy. rewrite D. cbn. eapply terminal_of; eauto. }
    destruct (H4 i e E) as (B1 & B2 & B3 & B4 & B5).
    pose proof (Permutation_length H1) as LN.
    assert (Lw : length w = width e).
    { rewrite <- (Permutation_length Pw). unfold wine. apply win_length. unfold width. lia. }
    assert (Addr : forall k e', nth_error (sNodes s) k = Some e' -> k <> i -> eN e' <> eN e).
    { intros k e' Ek Nk Ea. apply Nk. apply (nodup_nth (map eN (sNodes s)) k i (eN e)); auto.
      - rewrite nth_error_map, Ek. cbn. congruence.
      - rewrite nth_error_map, E. reflexivity. }
    assert (Own : wine (putwin (sCases s) (eStart e) w) e = w).
    { apply win_putwin; [unfold width in *; lia|auto]. }
    constructor; cbn [sHeap sNodes sCases sG]; auto.
    - etransitivity; [exact H1|]. symmetry. apply putwin_perm; [unfold width in *; lia|].
      rewrite Lw. symmetry. exact Pw.
    - lia.
    - intros k e' Ek. rewrite upd_length. eauto.
    - destruct H6 as (dr & P & Q). exists dr. split; auto.
      rewrite (filter_ext_on _ (leafy (sHeap s))) by (intros; apply Same). auto.
    - intros k e' Hk Ek Lk. rewrite Same in Lk. destruct (Nat.eq_dec k i) as [->|Nk].
      + assert (e' = e) by congruence. subst e'. exists n'. split; [apply nth_error_upd_eq; auto|].
        rewrite Own. exact Hp.
      + destruct (H7 k e') as (m & Em & Pm); auto; [lia|]. exists m. split.
        * rewrite nth_error_upd_neq; auto. intros Q. apply (Addr k e'); auto.
        * erewrite other_window; eauto.
    - intros k e' Hk Ek. assert (Nk : k <> i).
      { intros ->. assert (e' = e) by congruence. subst. destruct Hk; [lia|congruence]. }
      destruct (H8 k e') as (m & Em & Dm); auto; [destruct Hk; [left; lia|auto]|].
      exists m. split; auto. rewrite nth_error_upd_neq; auto. intros Q. apply (Addr k e'); auto.
    - intros k e' Hk. apply (H9 k e'). lia.
    - intros k e' c Ek Lk Hc. rewrite Same in Lk. eapply leaf_reaches; eauto.
      destruct (Nat.eq_dec k i) as [->|Nk].
      + assert (e' = e) by congruence. subst e'. rewrite Own in Hc. apply (H10 i e c); auto.
        eapply Permutation_in; [symmetry; exact Pw|auto].
      + apply (H10 k e' c); auto. erewrite other_window in Hc; eauto.
  Qed.

  Lemma seq_three a x y z : seq a x ++ seq (a + x) y ++ seq (a + x + y) z = seq a (x + y + z).
  Proof. rewrite !seq_app, app_assoc, Nat.add_assoc. reflexivity. Qed.

  Lemma jinv_split i last depth s e lc mc rc g' n f fi code spl nb' : jinv i last depth s -> i < last ->
    nth_error (sNodes s) i = Some e -> eDead e = false -> nth_error (sHeap s) (eN e) = Some n ->
    Permutation (wine (sCases s) e) (lc ++ mc ++ rc) -> 0 < length lc -> 0 < length rc ->
    nth_error (pData p) fi = Some f ->
    Forall (fun c => fmissing f c = false /\ coded_left f code c = true) lc ->
    Forall (fun c => fmissing f c = true) mc ->
    Forall (fun c => fmissing f c = false /\ coded_left f code c = false) rc ->
    nb' <= L -> fine N g' ->
    let l := length (sHeap s) in let r := S l in let m := S r in
    let li := length lc in let ri := length lc + length mc in
    jinv (S i) last depth (mkS A St K
      (upd (sHeap s) (eN e) (mkJ (mkNd code fi EmptyString (Some spl)) (Some l) (Some r)
          (if pSplitMissing p then Some m else jM n)) ++ [jnew; jnew] ++ (if pSplitMissing p then [jnew] else []))
      (sNodes s ++ [mkE l (eStart e) (eStart e + li) nb' (Some (eN e)) false;
                    mkE r (eStart e + ri) (eEnd e) nb' (Some (eN e)) false] ++
                   (if pSplitMissing p && negb (li =? ri)
                    then [mkE m (eStart e + li) (eStart e + ri) nb' (Some (eN e)) false] else []))
      (putwin (sCases s) (eStart e) (lc ++ mc ++ rc)) g').
  Proof.
    intros H Hi E D En Pw Nl Nr Ef Fl Fm Fr Hnb Hg l r m li ri.
    pose proof H as [H1 H2 H3 H4 H5 H6 H7 H8 H9 H10 H11 H12].
    destruct (H8 i e (or_introl (Nat.le_refl i)) E) as (n0 & En0 & Dn). assert (n0 = n) by congruence. subst n0.
    assert (Dn' : dSpl (jD n) = None) by (rewrite Dn; reflexivity).
    set (n' := mkJ (mkNd code fi EmptyString (Some spl)) (Some l) (Some r) (if pSplitMissing p then Some m else jM n)).
    set (kids := [mkE l (eStart e) (eStart e + li) nb' (Some (eN e)) false;
                  mkE r (eStart e + ri) (eEnd e) nb' (Some (eN e)) false] ++
                 (if pSplitMissing p && negb (li =? ri)
                  then [mkE m (eStart e + li) (eStart e + ri) nb' (Some (eN e)) false] else [])).
    set (h0 := upd (sHeap s) (eN e) n').
    set (fresh := [jnew; jnew] ++ (if pSplitMissing p then [jnew] else [])).
    set (w := lc ++ mc ++ rc) in *.
    assert (Le : leafy (sHeap s) e = true).
    { unfold leafy. rewrite D. cbn. eapply terminal_of; eauto. }
    destruct (H4 i e E) as (B1 & B2 & B3 & B4 & B5).
    pose proof (Permutation_length H1) as LN.
    assert (Lw : length w = width e).
    { rewrite <- (Permutation_length Pw). unfold wine. apply win_length. unfold width. lia. }
    assert (Lw' : length lc + length mc + length rc = width e).
    { rewrite <- Lw. unfold w. rewrite !app_length. lia. }
    assert (Lh0 : length h0 = l) by apply upd_length.
    assert (Addr : forall k e', nth_error (sNodes s) k = Some e' -> k <> i -> eN e' <> eN e).
    { intros k e' Ek Nk Ea. apply Nk. apply (nodup_nth (map eN (sNodes s)) k i (eN e)); auto.
      - rewrite nth_error_map, Ek. cbn. congruence.
      - rewrite nth_error_map, E. reflexivity. }
    assert (Wlen : eStart e + length w <= length (sCases s)) by (unfold width in *; lia).
    (* nodes of the old heap *)
    assert (Old : forall a x, nth_error (sHeap s) a = Some x -> a <> eN e -> nth_error (h0 ++ fresh) a = Some x).
    { intros a x Ea Na. rewrite nth_error_app1.
      - unfold h0. rewrite nth_error_upd_neq; auto.
      - rewrite Lh0. apply nth_error_Some. congruence. }
    assert (New : nth_error (h0 ++ fresh) (eN e) = Some n').
    { rewrite nth_error_app1 by lia. apply nth_error_upd_eq; auto. }
    (* old entries *)
    assert (Same : forall k e', nth_error (sNodes s) k = Some e' -> k <> i -> leafy (h0 ++ fresh) e' = leafy (sHeap s) e').
    { intros k e' Ek Nk. unfold leafy, is_terminal. destruct (H4 _ _ Ek) as (_ & _ & _ & B & _).
      destruct (nth_error (sHeap s) (eN e')) as [x|] eqn:Ex.
      - rewrite (Old _ _ Ex); [reflexivity|]. apply (Addr k e'); auto.
      - apply nth_error_None in Ex. lia. }
    assert (Gone : leafy (h0 ++ fresh) e = false).
    { unfold leafy, is_terminal. rewrite New. cbn. apply andb_false_r. }
    (* ways of cases *)
    assert (Way : forall c x y, reaches (pData p) (sHeap s) c x y -> reaches (pData p) (h0 ++ fresh) c x y).
    { intros c x y. apply reaches_keep. intros z q k Ez Ek. left. exists q. split; auto. apply Old; auto.
      intros ->. assert (q = n) by congruence. subst. unfold jnext in Ek. rewrite Dn' in Ek. discriminate. }
    (* kids *)
    assert (Kid : Forall (fun kd => eStart kd <= eEnd kd /\ eStart e <= eStart kd /\ eEnd kd <= eEnd e /\ 0 < width kd < width e /\
        eConsts kd = nb' /\ eParent kd = Some (eN e) /\ eDead kd = false /\ l <= eN kd < l + length fresh /\
        nth_error (h0 ++ fresh) (eN kd) = Some jnew /\
        forall c, In c (wine (putwin (sCases s) (eStart e) w) kd) -> jnext (pData p) n' c = Some (eN kd)) kids).
    { assert (Sub : forall a cnt es x1 x2 x3, eStart es = eStart e + a -> width es = cnt ->
        w = x1 ++ x2 ++ x3 -> length x1 = a -> length x2 = cnt ->
        wine (putwin (sCases s) (eStart e) w) es = x2).
      { intros a cnt es x1 x2 x3 Q1 Q2 Q3 Q4 Q5. unfold wine. rewrite Q1, Q2.
        rewrite win_putwin_sub; auto.
        - rewrite Q3. unfold win. rewrite skipn_app_exact by auto. apply firstn_app_exact. auto.
        - rewrite Q3, !app_length. lia. }
      assert (Tail : eEnd e = eStart e + (length lc + length mc + length rc)) by (unfold width in *; lia).
      assert (NF : forall q, q < length fresh -> nth_error (h0 ++ fresh) (l + q) = Some jnew).
      { intros q Hq. rewrite nth_error_app2 by lia. rewrite Lh0. replace (l + q - l) with q by lia.
        unfold fresh in *. destruct (pSplitMissing p); cbn in *; destruct q as [|[|[|q]]]; auto; lia. }
      assert (LF : 2 <= length fresh) by (unfold fresh; rewrite app_length; cbn; lia).
      unfold kids. constructor; [|constructor].
      - cbn [eStart eEnd eConsts eParent eDead eN]. unfold width at 1 2. cbn [eStart eEnd].
        do 7 (split; [auto; unfold li; lia|]). split; [lia|]. split; [rewrite <- (Nat.add_0_r l); apply NF; lia|].
        intros c Hc. erewrite (Sub 0 li _ [] lc (mc ++ rc)) in Hc; auto; cbn [eStart eEnd width]; unfold width; cbn [eStart eEnd]; try lia.
        rewrite Forall_forall in Fl. destruct (Fl c Hc) as [F1 F2].
        unfold jnext, n'. cbn. rewrite Ef, F1, F2. reflexivity.
      - cbn [eStart eEnd eConsts eParent eDead eN]. unfold width at 1 2. cbn [eStart eEnd].
        do 7 (split; [auto; unfold ri; lia|]). split; [lia|]. split; [unfold r; replace (S l) with (l + 1) by lia; apply NF; lia|].
        intros c Hc. erewrite (Sub ri (length rc) _ (lc ++ mc) rc []) in Hc; auto; cbn [eStart eEnd width]; unfold width; cbn [eStart eEnd]; try lia.
        2:{ unfold w. rewrite app_nil_r, app_assoc. reflexivity. }
        2:{ rewrite app_length. reflexivity. }
        rewrite Forall_forall in Fr. destruct (Fr c Hc) as [F1 F2].
        unfold jnext, n'. cbn. rewrite Ef, F1, F2. reflexivity.
      - destruct (pSplitMissing p) eqn:Sm; cbn [andb]; [|constructor].
        destruct (Nat.eqb_spec li ri) as [Elr|Nlr]; cbn [negb]; constructor; [|constructor].
        cbn [eStart eEnd eConsts eParent eDead eN]. unfold width at 1 2. cbn [eStart eEnd].
        do 7 (split; [auto; unfold li, ri in *; lia|]). assert (LF' : length fresh = 3) by (unfold fresh; reflexivity).
        split; [lia|]. split; [unfold m, r; replace (S (S l)) with (l + 2) by lia; apply NF; lia|].
        intros c Hc. erewrite (Sub li (length mc) _ lc mc rc) in Hc; auto; cbn [eStart eEnd width]; unfold width; cbn [eStart eEnd]; unfold ri, li; try lia.
        rewrite Forall_forall in Fm. pose proof (Fm c Hc) as F1.
        unfold jnext, n'. cbn. rewrite Ef, F1, ?Sm. reflexivity. }
    rewrite Forall_forall in Kid.
    assert (KidLeaf : forall kd, In kd kids -> leafy (h0 ++ fresh) kd = true).
    { intros kd Hk. destruct (Kid kd Hk) as (_ & _ & _ & _ & _ & _ & K1 & _ & K2 & _). unfold leafy, is_terminal. rewrite K1, K2. reflexivity. }
    assert (Split : forall k e', nth_error (sNodes s ++ kids) k = Some e' ->
      (k < length (sNodes s) /\ nth_error (sNodes s) k = Some e') \/ (length (sNodes s) <= k /\ In e' kids)).
    { intros k e' Ek. destruct (le_lt_dec (length (sNodes s)) k) as [G|G].
      - right. split; auto. rewrite nth_error_app2 in Ek by auto. eapply nth_error_In; eauto.
      - left. split; auto. rewrite nth_error_app1 in Ek; auto. }
    assert (Own : forall k e', nth_error (sNodes s) k = Some e' -> leafy (h0 ++ fresh) e' = true -> k <> i /\ leafy (sHeap s) e' = true).
    { intros k e' Ek Lk. destruct (Nat.eq_dec k i) as [->|Nk].
      - assert (e' = e) by congruence. subst. congruence.
      - split; auto. rewrite <- (Same k e'); auto. }
    constructor; cbn [sHeap sNodes sCases sG]; fold li ri l r m; fold n' h0 fresh kids; auto.
    - etransitivity; [exact H1|]. symmetry. apply putwin_perm; auto.
      rewrite Lw. symmetry. exact Pw.
    - rewrite app_length. lia.
    - intros k e' Ek. rewrite app_length, Lh0. destruct (Split k e' Ek) as [[G Ek']|[G Hk]].
      + destruct (H4 k e' Ek') as (Q1 & Q2 & Q3 & Q4 & Q5). do 3 (split; auto). split; [unfold l; lia|].
        intros N0. destruct (Q5 N0) as (Qw & q & Eq & Hq). split; [exact Qw|]. exists q. split; auto. unfold l. lia.
      + destruct (Kid e' Hk) as (K1 & K2 & K3 & K4 & K5 & K6 & K7 & K8 & _).
        split; auto. split; [lia|]. split; [lia|]. split; [lia|]. intros _. split; [lia|]. exists (eN e). split; auto. unfold l. lia.
    - rewrite map_app. apply nodup_app_intro; auto.
      + unfold kids. destruct (pSplitMissing p && negb (li =? ri)); cbn; repeat constructor; cbn; unfold r, m; lia.
      + intros a Ha Hb. apply in_map_iff in Ha as (e1 & <- & Ha). apply in_map_iff in Hb as (e2 & Eq & Hb).
        destruct (Kid e2 Hb) as (_ & _ & _ & _ & _ & _ & _ & K8 & _).
        apply In_nth_error in Ha as (k & Ek). destruct (H4 k e1 Ek) as (_ & _ & _ & Q4 & _). unfold l in K8. lia.
    - destruct H6 as (dr & P & Q).
      assert (P1 : Permutation (filter (leafy (sHeap s)) (sNodes s)) (e :: filter (leafy (h0 ++ fresh)) (sNodes s))).
      { apply (filter_lose _ _ _ i); auto. intros k y Ek Nk. symmetry. apply (Same k y); auto. }
      assert (P2 : filter (leafy (h0 ++ fresh)) (sNodes s ++ kids) = filter (leafy (h0 ++ fresh)) (sNodes s) ++ kids).
      { rewrite filter_app. f_equal. apply filter_every. exact KidLeaf. }
      assert (P3 : filter eDead (sNodes s ++ kids) = filter eDead (sNodes s)).
      { rewrite filter_app, (filter_none eDead kids), app_nil_r; auto. intros kd Hk. apply (Kid kd Hk). }
      rewrite P2, P3.
      assert (P4 : exists dr', Permutation (spans kids ++ dr') (span e) /\ (pSplitMissing p = true -> dr' = [])).
      { assert (S3 : span e = seq (eStart e) li ++ seq (eStart e + li) (length mc) ++ seq (eStart e + ri) (length rc)).
        { unfold span. rewrite <- Lw'. unfold ri. rewrite Nat.add_assoc. symmetry. apply seq_three. }
        assert (Skl : span (mkE l (eStart e) (eStart e + li) nb' (Some (eN e)) false) = seq (eStart e) li).
        { unfold span, width. cbn. f_equal. lia. }
        assert (Skr : span (mkE r (eStart e + ri) (eEnd e) nb' (Some (eN e)) false) = seq (eStart e + ri) (length rc)).
        { unfold span, width. cbn. f_equal. unfold width in Lw'. unfold ri. lia. }
        assert (Skm : span (mkE m (eStart e + li) (eStart e + ri) nb' (Some (eN e)) false) = seq (eStart e + li) (length mc)).
        { unfold span, width. cbn. f_equal. unfold ri, li. lia. }
        unfold kids, spans. rewrite flat_map_app. cbn [flat_map]. rewrite Skl, Skr, app_nil_r.
        destruct (pSplitMissing p && negb (li =? ri)) eqn:B.
        - exists []. split; auto. cbn [flat_map]. rewrite Skm, S3, !app_nil_r, <- app_assoc.
          apply Permutation_app_head, Permutation_app_comm.
        - exists (seq (eStart e + li) (length mc)). split.
          + cbn [flat_map]. rewrite S3, app_nil_r, <- app_assoc. apply Permutation_app_head, Permutation_app_comm.
          + intros Sm. rewrite Sm in B. cbn in B. apply negb_false_iff, Nat.eqb_eq in B.
            replace (length mc) with 0 by (unfold ri, li in B; lia). reflexivity. }
      destruct P4 as (dr' & P4 & Q4). exists (dr' ++ dr). split; [|intros Sm; rewrite Q, Q4; auto].
      rewrite <- P. rewrite (spans_perm _ _ P1). change (spans (e :: filter (leafy (h0 ++ fresh)) (sNodes s)))
        with (span e ++ spans (filter (leafy (h0 ++ fresh)) (sNodes s))).
      rewrite <- P4, spans_app. clear.
      generalize (spans (filter (leafy (h0 ++ fresh)) (sNodes s))) (spans kids) (spans (filter eDead (sNodes s))).
      intros x y z. rewrite <- !app_assoc. rewrite (Permutation_app_comm y (dr' ++ x ++ z ++ dr)).
      rewrite <- !app_assoc. rewrite (app_assoc dr' x), (Permutation_app_comm dr' x), <- app_assoc.
      apply Permutation_app_head. rewrite (Permutation_app_comm y (z ++ dr' ++ dr)). rewrite <- !app_assoc.
      rewrite (app_assoc z dr'), (Permutation_app_comm z dr'), <- app_assoc. reflexivity.
    - intros k e' Hk Ek Lk. destruct (Split k e' Ek) as [[G Ek']|[G Hk']]; [|lia].
      destruct (Own k e' Ek' Lk) as [Nk Lk']. destruct (H7 k e') as (q & Eq & Pq); auto; [lia|].
      exists q. split; [apply Old; auto; apply (Addr k e'); auto|]. erewrite other_window; eauto.
    - intros k e' Hk Ek. destruct (Split k e' Ek) as [[G Ek']|[G Hk']].
      + assert (Nk : k <> i).
        { intros ->. assert (e' = e) by congruence. subst. destruct Hk; [lia|congruence]. }
        destruct (H8 k e') as (q & Eq & Dq); auto; [destruct Hk; [left; lia|auto]|].
        exists q. split; auto. apply Old; auto. apply (Addr k e'); auto.
      + exists jnew. split; auto. apply (Kid e' Hk').
    - intros k e' Hk Ek. destruct (Split k e' Ek) as [[G Ek']|[G Hk']].
      + apply (H9 k e'); auto. lia.
      + destruct (Kid e' Hk') as (K1 & K2 & K3 & K4 & _).
        destruct (Nat.ltb_spec k last); [lia|].
        pose proof (H9 i e (Nat.le_refl i) E) as Hd. destruct (Nat.ltb_spec i last); lia.
    - intros k e' c Ek Lk Hc. destruct (Split k e' Ek) as [[G Ek']|[G Hk']].
      + destruct (Own k e' Ek' Lk) as [Nk Lk']. apply Way. apply (H10 k e' c); auto. erewrite other_window in Hc; eauto.
      + destruct (Kid e' Hk') as (K1 & K2 & K3 & K4 & _ & _ & _ & _ & _ & Kn).
        eapply reaches_snoc; [apply Way, (H10 i e c E Le)|exact New|apply Kn; auto].
        assert (Hw : In c w).
        { unfold wine in Hc. replace (eStart e') with (eStart e + (eStart e' - eStart e)) in Hc by lia.
          rewrite win_putwin_sub in Hc; auto; [eapply win_incl; eauto|]. unfold width in *. lia. }
        eapply Permutation_in; [symmetry; exact Pw|exact Hw].
    - intros Cm e' Hin. apply in_app_or in Hin as [Hin|Hin]; [apply (H11 Cm); auto|]. apply (Kid e' Hin).
    - intros e' E'. apply H12. rewrite nth_error_app1 in E' by lia. exact E'.
  Qed.

  Lemma set_upd {B} (l : list B) i x : i < length l -> set l i x = Ok (upd l i x).
  Proof. intros H. unfold set. destruct (Nat.ltb_spec i (length l)); [auto|lia]. Qed.

  Lemma visit_ok i last depth s : jinv i last depth s -> i < last -> yields (jvisit depth i s) (jinv (S i) last depth).
  Proof.
    intros H Hi. pose proof H as [H1 H2 H3 H4 H5 H6 H7 H8 H9 H10 H11 H12].
    unfold ModelJungle.jvisit.
    destruct (@get_ok _ (sNodes s) i) as (e & Ge & E); [lia|]. rewrite Ge. cbn [bind].
    destruct (eDead e) eqn:D.
    { eexists. split; [reflexivity|]. eapply jinv_skip; eauto. }
    destruct (H4 i e E) as (B1 & B2 & B3 & B4 & B5).
    pose proof (Permutation_length H1) as LN.
    rewrite slice_ok by lia. cbn [bind]. fold (win (sCases s) (eStart e) (eEnd e - eStart e)).
    fold (width e). fold (wine (sCases s) e).
    assert (Lw : length (wine (sCases s) e) = width e) by (apply win_length; unfold width; lia).
    assert (Inc : incl (wine (sCases s) e) cases0).
    { intros c Hc. eapply Permutation_in; [symmetry; exact H1|]. eapply win_incl; eauto. }
    assert (Okw : Forall ok (wine (sCases s) e)).
    { rewrite Forall_forall in *. auto. }
    destruct (H8 i e (or_introl (Nat.le_refl i)) E) as (n & En & Dn).
    destruct (((depth <? pMaxDepth p) || (pMaxDepth p <=? 0)) && (2 * pLeaf p <=? length (wine (sCases s) e))) eqn:Can.
    2:{ unfold jleaf. rewrite (get_nth _ _ En). cbn [bind].
        destruct (Hpred _ Okw) as (pr & Ep). rewrite Ep. cbn [bind]. rewrite set_upd by auto. cbn [bind].
        eexists. split; [reflexivity|].
        replace (sCases s) with (putwin (sCases s) (eStart e) (wine (sCases s) e)) at 1
          by (apply putwin_self; unfold width; lia).
        eapply jinv_leaf; eauto. }
    destruct (jsearch (wine (sCases s) e) (eConsts e) (sG s)) as (b & Eb & Fb & Pb & Cb & Lb); auto.
    { unfold width in *. lia. }
    { eapply data_fits_sub; eauto. }
    rewrite Eb. cbn [bind]. fold (moved (sG s) b).
    destruct (isCNil (bCode b)) eqn:Nil.
    { unfold jleaf. cbn [sHeap sNodes sCases sG]. rewrite (get_nth _ _ En). cbn [bind].
      assert (Okb : Forall ok (bCases b)) by (eapply Permutation_Forall; eauto).
      destruct (Hpred _ Okb) as (pr & Ep). rewrite Ep. cbn [bind]. rewrite set_upd by auto. cbn [bind].
      eexists. split; [reflexivity|]. eapply jinv_leaf; eauto. }
    assert (Nc : bCode b <> CNil) by (intros Q; apply isCNil_spec in Q; congruence).
    destruct (Lb Nc) as (Hin & f & Ef & Sf & Cf & Ad1 & Ad2).
    unfold jsplit. cbn [sHeap sNodes sCases sG].
    destruct (book_ok A (bFi b) depth (bDec b) (gImp (moved (sG s) b)) (gDepth (moved (sG s) b))) as (imp & du & Ebk & Hc1 & Hc2).
    { intros l El. pose proof (fi_imp _ _ _ _ _ _ _ _ _ _ Fb l El) as F. rewrite Forall_forall in F. auto. }
    { intros l El. pose proof (fi_depth _ _ _ _ _ _ _ _ _ _ Fb l El) as F. rewrite Forall_forall in F. auto. }
    rewrite Ebk. cbn [bind]. rewrite (get_nth _ _ Ef). cbn [bind].
    assert (Hs : exists s, fDecodeSplit f (bCode b) = Ok s).
    { destruct f, (bCode b); cbn in Cf; try contradiction; cbn; eauto. }
    destruct Hs as (spl & Es). rewrite Es. cbn [bind].
    assert (Sf2 : searchable f (bCases b)) by (eapply searchable_perm; eauto).
    destruct Sf2 as (Sf2 & Sc2 & _).
    destruct (fSplit_ok f (bCode b) (bCases b) Cf Sf2 Sc2) as (cs & ll & lr & r & Esp & _ & [T1 T2 T3 T4 T5] & Ecs & El & Er).
    rewrite Esp. cbn [bind]. rewrite (get_nth _ _ En). cbn [bind]. rewrite set_upd by auto. cbn [bind].
    subst cs ll lr. rewrite T1.
    set (lc := srL r) in *. set (mc := srM r) in *. set (rc := srR r) in *.
    assert (Pw : Permutation (wine (sCases s) e) (lc ++ mc ++ rc)).
    { etransitivity; [exact Pb|]. rewrite <- T1. auto. }
    rewrite putwin_putwin.
    2:{ rewrite <- (Permutation_length Pw), <- (Permutation_length Pb). auto. }
    2:{ rewrite <- (Permutation_length Pb), Lw. unfold width. lia. }
    eexists. split; [reflexivity|].
    apply (jinv_split i last depth s e lc mc rc _ n f); auto.
    - rewrite T3, <- (Permutation_length (perm_filter _ _ _ Pb)).
      unfold side, present in Ad1. rewrite filter_filter in Ad1. lia.
    - rewrite T5, <- (Permutation_length (perm_filter _ _ _ Pb)).
      unfold other, present in Ad2. rewrite filter_filter in Ad2. lia.
    - rewrite T3. apply Forall_forall. intros c Hc. apply filter_In in Hc as [_ Hc].
      apply andb_true_iff in Hc as [Q1 Q2]. apply negb_true_iff in Q1. auto.
    - rewrite T4. apply Forall_forall. intros c Hc. apply filter_In in Hc as [_ Hc]. auto.
    - rewrite T5. apply Forall_forall. intros c Hc. apply filter_In in Hc as [_ Hc].
      apply andb_true_iff in Hc as [Q1 Q2]. apply negb_true_iff in Q1, Q2. auto.
    - destruct Fb as [A1 A2 A3 A4 A5 A6 A7 A8]. constructor; cbn; auto.
      + intros l ->. cbn in Hc1. destruct (gImp (sG s)) as [l0|] eqn:E0; [|destruct Hc1].
        destruct Hc1 as [Lx _]. rewrite Lx. apply (A7 l0). cbn. auto.
      + intros l ->. cbn in Hc2. destruct (gDepth (sG s)) as [l0|] eqn:E0; [|destruct Hc2].
        destruct Hc2 as [Lx _]. rewrite Lx. apply (A8 l0). cbn. auto.
  Qed.

  (** ** Merging *)
  Local Notation partner := (partner A St T K).
  Local Notation merge := (merge A St K).
  Local Notation merge_pass := (merge_pass A St T K).
  Local Notation merging := (merging A St T K).

  Lemma fine_tgt g tg : fine N g -> ready tg ->
    fine N (mkG A St K (gCans g) (gOob g) (set_tgt St (gAl g) tg) (gK g) (gImp g) (gDepth g)).
  Proof. intros [A1 A2 A3 A4 A5 A6 A7 A8] R. constructor; cbn; auto. Qed.

  Lemma partner_ok last depth s i : jinv last last depth s -> 0 < last -> last <= i < length (sNodes s) ->
    yields (partner i last s) (fun '(combine, tg) => ready tg /\ (calm -> combine = None) /\
      forall j, combine = Some j -> last <= j < length (sNodes s) /\
        exists ei ej pi pj, nth_error (sNodes s) i = Some ei /\ nth_error (sNodes s) j = Some ej /\
          eDead ej = false /\ eEnd ei = eStart ej /\ eParent ei = pi /\ eParent ej = pj /\ pi <> pj).
  Proof.
    intros H Hl Hi. pose proof H as [H1 H2 H3 H4 H5 H6 H7 H8 H9 H10 H11 H12].
    pose proof (Permutation_length H1) as LN.
    unfold ModelJungle.partner.
    destruct (@get_ok _ (sNodes s) i (proj2 Hi)) as (ei & Gi & Ei). rewrite Gi. cbn [bind].
    set (Inv := fun (j : nat) '((mx, combine, tg) : A * option nat * St) => ready tg /\ (calm -> mx = nofZ A 0 /\ combine = None) /\
      forall j, combine = Some j -> last <= j < length (sNodes s) /\
        exists ei ej pi pj, nth_error (sNodes s) i = Some ei /\ nth_error (sNodes s) j = Some ej /\
          eDead ej = false /\ eEnd ei = eStart ej /\ eParent ei = pi /\ eParent ej = pj /\ pi <> pj).
    eapply yields_bind.
    - apply (@for_up_total _ Inv _ (length (sNodes s) - last) last).
      + intros j [[mx combine] tg] Hj (R & Cm & C).
        destruct (@get_ok _ (sNodes s) j) as (ej & Gj & Ej); [lia|]. rewrite Gj. cbn [bind].
        destruct (eDead ej) eqn:Dj; [eexists; split; [reflexivity|]; split; auto|].
        destruct ((eEnd ei =? eStart ej) && _) eqn:Adj; [|eexists; split; [reflexivity|]; split; auto].
        apply andb_true_iff in Adj as [Adj Par]. apply Nat.eqb_eq in Adj. apply negb_true_iff in Par.
        destruct (H4 i ei Ei) as (B1 & B2 & _ & _ & Wi). destruct (H4 j ej Ej) as (B3 & B4 & _ & _ & Wj).
        destruct Wi as [Wi _]; [lia|]. destruct Wj as [Wj _]; [lia|].
        rewrite !slice_ok by lia. cbn [bind].
        assert (Okw : forall a q, Forall ok (win (sCases s) a q)).
        { intros a q. rewrite Forall_forall in *. intros c Hc. apply Hcok.
          eapply Permutation_in; [symmetry; exact H1|]. eapply win_incl; eauto. }
        destruct (d_split _ _ _ Dep (win (sCases s) (eStart ei) (eEnd ei - eStart ei))
          (win (sCases s) (eStart ej) (eEnd ej - eStart ej)) None tg) as (v & tg1 & Es & R1); auto; [discriminate|].
        unfold win in Es. rewrite Es. cbn [bind].
        destruct (d_imp _ _ _ Dep (win (sCases s) (eStart ei) (eEnd ej - eStart ei)) tg1) as (v2 & tg2 & Ei2 & R2); auto.
        unfold win in Ei2. rewrite Ei2. cbn [bind].
        assert (Cat : win (sCases s) (eStart ei) (eEnd ej - eStart ei) =
          win (sCases s) (eStart ei) (eEnd ei - eStart ei) ++ win (sCases s) (eStart ej) (eEnd ej - eStart ej)).
        { rewrite <- Adj. apply win_cat; lia. }
        destruct (nltb A mx (nsub A v v2)) eqn:Lt; (eexists; split; [reflexivity|]); split; auto.
        split.
        { intros Q. exfalso. destruct (Cm Q) as [-> _].
          erewrite (Q _ _ tg v tg1 v2 tg2) in Lt; [discriminate| | | | |exact R|exact Es|]; [| |apply Okw|apply Okw|].
          { intros Q0. apply (f_equal (@length nat)) in Q0. change (length (win (sCases s) (eStart ei) (eEnd ei - eStart ei)) = 0) in Q0. rewrite win_length in Q0 by lia.
            unfold width in Wi. lia. }
          { intros Q0. apply (f_equal (@length nat)) in Q0. change (length (win (sCases s) (eStart ej) (eEnd ej - eStart ej)) = 0) in Q0. rewrite win_length in Q0 by lia.
            unfold width in Wj. lia. }
          unfold win in Cat. rewrite <- Cat. exact Ei2. }
        intros j' Q. injection Q as <-. split; [lia|]. exists ei, ej, (eParent ei), (eParent ej).
        do 6 (split; auto). intros Q. rewrite Q in Par. destruct (eParent ej); [rewrite Nat.eqb_refl in Par|]; discriminate.
      + split; [apply H2|split; [auto|discriminate]].
    - intros [[mx combine] tg] (R & Cm & C). eexists. split; [reflexivity|]. split; [exact R|]. split; [intros Q; apply (Cm Q)|exact C].
  Qed.

  Lemma filter_length_le {B} (P : B -> bool) l : length (filter P l) <= length l.
  Proof. induction l as [|a l IH]; cbn; auto. destruct (P a); cbn; lia. Qed.

  Definition living (s : jst) : nat := length (filter (fun e => negb (eDead e)) (sNodes s)).

  Lemma redirect_D a b n : jD (redirect a b n) = jD n.
  Proof. unfold redirect. destruct (same (jL n) a), (same (jR n) a), (same (jM n) a); reflexivity. Qed.
  Lemma redirect_next data a b n c k : jnext data n c = Some k -> k <> a -> jnext data (redirect a b n) c = Some k.
  Proof.
    unfold jnext. rewrite redirect_D. destruct (dSpl (jD n)); [|discriminate].
    destruct (nth_error data (dFeat (jD n))) as [f|]; [|discriminate].
    assert (Sm : forall x, x = Some k -> k <> a -> same x a = false).
    { intros x -> Hk. cbn. apply Nat.eqb_neq. auto. }
    unfold redirect. destruct (fmissing f c); [|destruct (coded_left f (dCode (jD n)) c)]; intros Hx Hk.
    - destruct (same (jL n) a), (same (jR n) a); cbn; auto. rewrite (Sm _ Hx Hk). auto.
    - rewrite (Sm _ Hx Hk). destruct (same (jR n) a), (same (jM n) a); cbn; auto.
    - destruct (same (jL n) a); cbn; auto. rewrite (Sm _ Hx Hk). destruct (same (jM n) a); cbn; auto.
  Qed.

  Lemma merge_ok last depth s i j ei ej : jinv last last depth s -> 0 < last -> last <= j ->
    nth_error (sNodes s) i = Some ei -> nth_error (sNodes s) j = Some ej -> eDead ej = false -> ~ calm ->
    yields (merge i j s) (fun s' => jinv last last depth s' /\ living s' < living s /\ length (sNodes s') = length (sNodes s)).
  Proof.
    intros H Hl Hj Ei Ej Dj Wild. pose proof H as [H1 H2 H3 H4 H5 H6 H7 H8 H9 H10 H11 H12].
    unfold ModelJungle.merge. rewrite (get_nth _ _ Ei). cbn [bind]. rewrite (get_nth _ _ Ej). cbn [bind].
    assert (Lj : j < length (sNodes s)) by (apply nth_error_Some; congruence).
    rewrite set_upd by auto. cbn [bind].
    destruct (H4 j ej Ej) as (B1 & B2 & B3 & B4 & B5). destruct B5 as (Bw & q & Eq & Hq); [lia|]. rewrite Eq.
    destruct (@get_ok _ (sHeap s) q Hq) as (par & Gp & Ep). rewrite Gp. cbn [bind]. rewrite set_upd by auto. cbn [bind].
    set (dj := mkE (eN ej) (eStart ej) (eEnd ej) (eConsts ej) (Some q) true).
    set (h' := upd (sHeap s) q (redirect (eN ej) (eN ei) par)).
    set (nodes' := upd (sNodes s) j dj).
    destruct (H8 j ej (or_introl Hj) Ej) as (nj & Enj & Dnj).
    assert (Term : forall e, is_terminal h' e = is_terminal (sHeap s) e).
    { intros e. unfold is_terminal, h'. destruct (Nat.eq_dec q (eN e)) as [<-|Nq].
      - rewrite nth_error_upd_eq by auto. rewrite Ep, redirect_D. reflexivity.
      - rewrite nth_error_upd_neq by auto. reflexivity. }
    assert (Nodes : forall k e, nth_error nodes' k = Some e ->
      (k = j /\ e = dj) \/ (k <> j /\ nth_error (sNodes s) k = Some e)).
    { intros k e Ek. destruct (Nat.eq_dec k j) as [->|Nk].
      - unfold nodes' in Ek. rewrite nth_error_upd_eq in Ek by auto. left. split; congruence.
      - right. split; auto. unfold nodes' in Ek. rewrite nth_error_upd_neq in Ek by auto. auto. }
    assert (Lej : leafy (sHeap s) ej = true).
    { unfold leafy. rewrite Dj. cbn. eapply terminal_of; eauto. }
    assert (Live : forall k e, nth_error nodes' k = Some e -> leafy h' e = true ->
      k <> j /\ nth_error (sNodes s) k = Some e /\ leafy (sHeap s) e = true /\ eN e <> eN ej).
    { intros k e Ek Lk. unfold leafy in *. rewrite Term in Lk. destruct (Nodes k e Ek) as [[-> ->]|[Nk Ek']]; [discriminate|].
      split; auto. split; auto. split; auto. intros Ea. apply Nk.
      apply (nodup_nth (map eN (sNodes s)) k j (eN ej)); auto; rewrite nth_error_map, ?Ek', ?Ej; cbn; congruence. }
    assert (HeapD : forall a n, nth_error (sHeap s) a = Some n -> exists n', nth_error h' a = Some n' /\ jD n' = jD n).
    { intros a n Ea. unfold h'. destruct (Nat.eq_dec q a) as [<-|Nq].
      - rewrite nth_error_upd_eq by auto. eexists. split; [reflexivity|]. rewrite redirect_D. congruence.
      - rewrite nth_error_upd_neq by auto. eauto. }
    assert (Cut : exists a b, sNodes s = a ++ ej :: b /\ nodes' = a ++ dj :: b).
    { destruct (nth_error_cut _ _ _ Ej) as (a & b & Ea & La). exists a, b. split; auto.
      unfold nodes'. rewrite Ea, <- La. clear. induction a; cbn; auto. f_equal; auto. }
    destruct Cut as (na & nb & Ca & Cb).
    eexists. split; [reflexivity|]. split; [|split].
    - constructor; cbn [sHeap sNodes sCases sG]; auto.
      + unfold nodes'. rewrite upd_length. auto.
      + intros k e Ek. unfold h'. rewrite upd_length. destruct (Nodes k e Ek) as [[-> ->]|[Nk Ek']]; eauto.
        cbn. do 4 (split; auto). intros _. split; eauto.
      + replace (map eN nodes') with (map eN (sNodes s)); auto. rewrite Ca, Cb, !map_app. reflexivity.
      + destruct H6 as (dr & P & Q). exists dr. split; auto. rewrite <- P.
        rewrite Ca, Cb, !filter_app. cbn [filter]. rewrite Lej, Dj. cbn [eDead].
        replace (leafy h' dj) with false by reflexivity. cbn [dj].
        rewrite !(filter_ext_on (leafy h') (leafy (sHeap s))) by (intros; unfold leafy; rewrite Term; auto).
        unfold spans. rewrite !flat_map_app. cbn [flat_map]. change (span dj) with (span ej).
        rewrite <- !app_assoc. apply Permutation_app_head.
        set (x := flat_map span (filter (leafy (sHeap s)) nb)). set (y := flat_map span (filter eDead na)).
        set (z := flat_map span (filter eDead nb) ++ dr). set (t := span ej).
        change (Permutation (x ++ y ++ (t ++ flat_map span (filter eDead nb)) ++ dr) (t ++ x ++ y ++ z)).
        rewrite <- (app_assoc t). fold z.
        rewrite (app_assoc x y), (Permutation_app_swap_app (x ++ y) t z), <- !app_assoc. reflexivity.
      + intros k e Hk Ek Lk. destruct (Live k e Ek Lk) as (Nk & Ek' & Lk' & _).
        destruct (H7 k e Hk Ek' Lk') as (n & En & Pn). destruct (HeapD _ _ En) as (n' & En' & Dn').
        exists n'. split; auto. congruence.
      + intros k e Hk Ek. assert (exists e', nth_error (sNodes s) k = Some e' /\ eN e' = eN e /\ (last <= k \/ eDead e' = true)) as (e' & Ek' & Ea & Hk').
        { destruct (Nodes k e Ek) as [[-> ->]|[Nk Ek']]; eauto. }
        destruct (H8 k e' Hk' Ek') as (n & En & Dn). rewrite Ea in En. destruct (HeapD _ _ En) as (n' & En' & Dn').
        exists n'. split; auto. congruence.
      + intros k e Hk Ek. destruct (Nodes k e Ek) as [[-> ->]|[Nk Ek']]; [|eauto].
        pose proof (H9 j ej Hj Ej) as Q. exact Q.
      + intros k e c Ek Lk Hc. destruct (Live k e Ek Lk) as (Nk & Ek' & Lk' & Na).
        apply (reaches_keep (pData p) (sHeap s)); [|eapply H10; eauto].
        intros z n x Ez Ex. destruct (Nat.eq_dec x (eN ej)) as [->|Nx].
        * right. split; auto. intros nk Enk. assert (nk = nj) by congruence. subst nk. unfold jnext. rewrite Dnj. reflexivity.
        * left. unfold h'. destruct (Nat.eq_dec q z) as [<-|Nq].
          -- rewrite nth_error_upd_eq by auto. eexists. split; [reflexivity|]. assert (n = par) by congruence. subst n.
             apply redirect_next; auto.
          -- rewrite nth_error_upd_neq by auto. eauto.
      + tauto.
      + intros e Ee. destruct (Nodes 0 e Ee) as [[Q _]|[_ Q]]; [lia|auto].
    - unfold living. cbn [sNodes]. rewrite Ca, Cb, !filter_app. cbn [filter]. rewrite Dj. cbn [dj eDead negb].
      rewrite !app_length. cbn. lia.
    - cbn [sNodes]. apply upd_length.
  Qed.

  Lemma jinv_tgt last depth s tg : jinv last last depth s -> ready tg -> jinv last last depth (with_tgt A St K s tg).
  Proof.
    intros [H1 H2 H3 H4 H5 H6 H7 H8 H9 H10 H11 H12] R. unfold with_tgt. constructor; cbn [sHeap sNodes sCases sG]; auto.
    apply (fine_tgt _ _ H2 R).
  Qed.

  Lemma pass_ok last depth s : jinv last last depth s -> 0 < last ->
    yields (merge_pass last s) (fun '(changed, s') => jinv last last depth s' /\ length (sNodes s') = length (sNodes s) /\
      living s' <= living s /\ (changed = true -> living s' < living s)).
  Proof.
    intros H Hl. unfold ModelJungle.merge_pass.
    set (Inv := fun (_ : nat) '((changed, s') : bool * jst) => jinv last last depth s' /\
      length (sNodes s') = length (sNodes s) /\ living s' <= living s /\ (changed = true -> living s' < living s)).
    eapply yields_weaken; [apply (@for_up_total _ Inv _ (length (sNodes s) - last) last)|].
    - intros i [ch s1] Hi (I1 & I2 & I3 & I4).
      destruct (@get_ok _ (sNodes s1) i) as (e & Ge & E); [lia|]. rewrite Ge. cbn [bind].
      destruct (eDead e); [eexists; split; [reflexivity|]; split; auto|].
      eapply yields_bind; [apply (partner_ok last depth s1 i I1 Hl); lia|].
      intros [combine tg] (R & Cm & C).
      pose proof (jinv_tgt _ _ _ _ I1 R) as I1'.
      destruct combine as [j|]; [|eexists; split; [reflexivity|]; split; auto].
      destruct (C j eq_refl) as (Hj & ei & ej & pi & pj & Q1 & Q2 & Q3 & _).
      eapply yields_bind; [apply (merge_ok last depth (with_tgt A St K s1 tg) i j ei ej I1' Hl); auto; [lia|]; intros Q; discriminate (Cm Q)|].
      intros s2 (M1 & M2 & M3). eexists. split; [reflexivity|].
      change (living (with_tgt A St K s1 tg)) with (living s1) in M2.
      change (length (sNodes (with_tgt A St K s1 tg))) with (length (sNodes s1)) in M3.
      split; auto. split; [lia|]. split; [lia|]. lia.
    - split; auto. split; auto. split; auto. discriminate.
    - intros [ch s'] Q. exact Q.
  Qed.

  Lemma merging_ok last depth s : jinv last last depth s -> 0 < last ->
    yields (merging last s) (fun s' => jinv last last depth s' /\ length (sNodes s') = length (sNodes s)).
  Proof.
    intros H Hl. unfold ModelJungle.merging.
    apply (loop_total (fun s' => jinv last last depth s' /\ length (sNodes s') = length (sNodes s)) living
      (fun s' => jinv last last depth s' /\ length (sNodes s') = length (sNodes s))).
    - intros s1 [I1 I2]. eapply yields_bind; [apply (pass_ok last depth s1 I1 Hl)|].
      intros [ch s2] (P1 & P2 & P3 & P4). destruct ch; (eexists; split; [reflexivity|]).
      + split; [split; [auto|lia]|auto].
      + split; [auto|lia].
    - auto.
    - unfold living. pose proof (filter_length_le (fun e => negb (eDead e)) (sNodes s)) as Q. lia.
  Qed.

  (** ** The levels *)
  Lemma levels_ok fuel s : jinv 0 (length (sNodes s)) 0 s -> 0 < length (sNodes s) -> N < fuel ->
    yields (levels A St T predict rnd K kCopyFrom kShuffleCases kTarget p fuel s)
      (fun s' => exists depth, jinv (length (sNodes s')) (length (sNodes s')) depth s').
  Proof.
    intros H Hl Hf. unfold levels.
    apply (loop_total
      (fun '((first, depth, s) : nat * nat * jst) => jinv first (length (sNodes s)) depth s /\ 0 < length (sNodes s))
      (fun '((first, depth, s) : nat * nat * jst) => N - depth)
      (fun s' => exists depth, jinv (length (sNodes s')) (length (sNodes s')) depth s')).
    2:{ split; auto. }
    2:{ lia. }
    intros [[first depth] s1] [I1 Hl1].
    set (last := length (sNodes s1)) in *.
    eapply yields_bind.
    { apply (@for_up_total _ (fun i s' => jinv i last depth s') _ (last - first) first).
      - intros i s' Hi Hs'. apply visit_ok; auto. lia.
      - exact I1. }
    intros s2 I2. replace (first + (last - first)) with last in I2.
    2:{ destruct (j_bounds _ _ _ _ I1). lia. }
    destruct (Nat.eqb_spec (length (sNodes s2)) last) as [Eq|Ne].
    - eexists. split; [reflexivity|]. exists depth. rewrite Eq. exact I2.
    - destruct (j_bounds _ _ _ _ I2) as [_ B].
      eapply yields_bind; [apply (merging_ok last depth s2 I2 Hl1)|].
      intros s3 [I3 L3]. eexists. split; [reflexivity|].
      assert (Dp : S depth <= N).
      { destruct (@get_ok _ (sNodes s3) last) as (e & _ & E); [lia|].
        pose proof (j_depth _ _ _ _ I3 last e (Nat.le_refl _) E) as Q.
        destruct (Nat.ltb_spec last last); lia. }
      split; [|lia]. split; [|lia].
      destruct I3 as [H1 H2 H3 H4 H5 H6 H7 H8 H9 H10 H11 H12]. constructor; auto.
      + lia.
      + intros i e Hi E. pose proof (H9 i e Hi E) as Q. destruct (Nat.ltb_spec i last); [lia|].
        destruct (Nat.ltb_spec i (length (sNodes s3))) as [G|G]; [lia|]. apply nth_error_None in G. congruence.
  Qed.

  Lemma jinv_start g : fine N g -> jinv 0 1 0 (mkS A St K [jnew] [mkE 0 0 N 0 None false] cases0 g).
  Proof.
    intros Hg.
    assert (One : forall i e, nth_error [mkE 0 0 N 0 None false] i = Some e -> i = 0 /\ e = mkE 0 0 N 0 None false).
    { intros [|[|i]] e E; cbn in E; try discriminate. injection E as <-. auto. }
    constructor; cbn [sHeap sNodes sCases sG]; auto.
    - intros i e E. destruct (One i e E) as [-> ->]. cbn. split; [lia|]. split; auto. split; [lia|]. split; [lia|]. congruence.
    - cbn. repeat constructor. auto.
    - exists []. split; auto. cbn. unfold span, width. cbn. rewrite Nat.sub_0_r, !app_nil_r. reflexivity.
    - intros i e Hi. lia.
    - intros i e _ E. destruct (One i e E) as [-> ->]. exists jnew. auto.
    - intros i e _ E. destruct (One i e E) as [-> ->]. unfold width. cbn. lia.
    - intros i e c E _ _. destruct (One i e E) as [-> ->]. constructor.
    - intros _ e [<-|[]]. reflexivity.
    - intros e E. injection E as <-. reflexivity.
  Qed.

  Theorem GrowJungle_ok fuel g : fine N g -> N < fuel ->
    yields (GrowJungle A St T predict rnd K kCopyFrom kShuffleCases kTarget p fuel cases0 g)
      (fun s' => exists depth, jinv (length (sNodes s')) (length (sNodes s')) depth s').
  Proof. intros Hg Hf. apply levels_ok; auto. apply jinv_start; auto. Qed.
End Jungle.
