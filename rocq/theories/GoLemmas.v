(** Lemmas about the vocabulary of [Go.v]. *)
From Verif Require Import Go.
Set Implicit Arguments.

Lemma yields_ok {A} (a : A) (Q : A -> Prop) : Q a -> yields (Ok a) Q.
Proof. intros; exists a; auto. Qed.

Lemma yields_ret_inv {A} (a : A) (Q : A -> Prop) : yields (Ok a) Q -> Q a.
Proof. intros (x & E & HQ); congruence. Qed.

Lemma yields_bind {A B} (m : res A) (k : A -> res B) (P : A -> Prop) (Q : B -> Prop) :
  yields m P -> (forall a, P a -> yields (k a) Q) -> yields (bind m k) Q.
Proof. intros (a & -> & HP) Hk; cbn; auto. Qed.

Lemma yields_weaken {A} (m : res A) (P Q : A -> Prop) :
  yields m P -> (forall a, P a -> Q a) -> yields m Q.
Proof. intros (a & E & HP) H; exists a; auto. Qed.

Lemma yields_and {A} (m : res A) (P Q : A -> Prop) :
  yields m P -> yields m Q -> yields m (fun a => P a /\ Q a).
Proof. intros (a & E & HP) (b & E' & HQ). exists a; split; auto. split; congruence. Qed.

Lemma bind_ok {A B} (m : res A) (k : A -> res B) b :
  bind m k = Ok b -> exists a, m = Ok a /\ k a = Ok b.
Proof. destruct m; cbn; intros; try discriminate; eauto. Qed.

Lemma loop_total {St R} (Inv : St -> Prop) (mu : St -> nat) (Q : R -> Prop)
  (body : St -> res (flow St R)) :
  (forall s, Inv s ->
     yields (body s) (fun x => match x with
                               | Next s' => Inv s' /\ mu s' < mu s
                               | Done r => Q r
                               end)) ->
  forall fuel s, Inv s -> mu s < fuel -> yields (loop fuel body s) Q.
Proof.
  intros Hb; induction fuel as [|f IH]; intros s Hs Hmu; [lia|].
  cbn. eapply yields_bind; [apply Hb; exact Hs|].
  intros [s'|r]; cbn.
  - intros [Hs' Hlt]. apply IH; auto. lia.
  - intros HQ. exists r; auto.
Qed.

Lemma loop_partial {St R} (Inv : St -> Prop) (Q : R -> Prop)
  (body : St -> res (flow St R)) :
  (forall s, Inv s ->
     ifok (body s) (fun x => match x with
                             | Next s' => Inv s'
                             | Done r => Q r
                             end)) ->
  forall fuel s, Inv s -> ifok (loop fuel body s) Q.
Proof.
  intros Hb; induction fuel as [|f IH]; intros s Hs r E; [discriminate|].
  cbn in E. apply bind_ok in E as (x & E1 & E2).
  specialize (Hb s Hs x E1). destruct x; cbn in *.
  - exact (IH _ Hb _ E2).
  - inversion E2; subst; auto.
Qed.

Lemma for_up_total {St} (Inv : nat -> St -> Prop) (body : nat -> St -> res St) :
  forall n lo s,
  (forall i s, lo <= i < lo + n -> Inv i s -> yields (body i s) (Inv (S i))) ->
  Inv lo s -> yields (for_up n lo body s) (Inv (lo + n)).
Proof.
  induction n as [|n IH]; intros lo s Hb Hs; cbn.
  - replace (lo + 0) with lo by lia. exists s; auto.
  - eapply yields_bind; [apply Hb; [lia|exact Hs]|].
    intros s' Hs'. replace (lo + S n) with (S lo + n) by lia.
    apply IH; auto. intros; apply Hb; auto; lia.
Qed.

Lemma for_down_total {St} (Inv : nat -> St -> Prop) (body : nat -> St -> res St) :
  forall n s,
  (forall i s, i < n -> Inv (S i) s -> yields (body i s) (Inv i)) ->
  Inv n s -> yields (for_down n body s) (Inv 0).
Proof.
  induction n as [|n IH]; intros s Hb Hs; cbn.
  - exists s; auto.
  - eapply yields_bind; [apply Hb; [lia|exact Hs]|].
    intros s' Hs'. apply IH; auto.
Qed.

Lemma foreach_total {A St} (body : A -> St -> res St) (Inv : list A -> list A -> St -> Prop) :
  forall l pre s,
  (forall pre a post s, Inv pre (a :: post) s ->
      yields (body a s) (Inv (pre ++ [a]) post)) ->
  Inv pre l s -> yields (foreach l body s) (Inv (pre ++ l) []).
Proof.
  induction l as [|a l IH]; intros pre s Hb Hs; cbn.
  - rewrite app_nil_r. exists s; auto.
  - eapply yields_bind; [apply Hb; exact Hs|].
    intros s' Hs'. replace (pre ++ a :: l) with ((pre ++ [a]) ++ l)
      by (rewrite <- app_assoc; reflexivity).
    apply IH; auto.
Qed.

(** ** Slices *)

Lemma upd_length {A} (l : list A) i x : length (upd l i x) = length l.
Proof. revert i; induction l; destruct i; cbn; auto. Qed.

Lemma nth_error_upd {A} (l : list A) i x k :
  nth_error (upd l i x) k =
  if (k =? i) && (i <? length l) then Some x else nth_error l k.
Proof.
  revert i k; induction l as [|a l IH]; intros [|i] [|k]; cbn; auto.
  - rewrite andb_false_r. reflexivity.
  - rewrite IH. reflexivity.
Qed.

Lemma nth_error_upd_eq {A} (l : list A) i x :
  i < length l -> nth_error (upd l i x) i = Some x.
Proof.
  intros H. rewrite nth_error_upd, Nat.eqb_refl.
  apply Nat.ltb_lt in H. rewrite H. reflexivity.
Qed.

Lemma nth_error_upd_neq {A} (l : list A) i x k :
  k <> i -> nth_error (upd l i x) k = nth_error l k.
Proof.
  intros H. rewrite nth_error_upd. apply Nat.eqb_neq in H. rewrite H. reflexivity.
Qed.

Lemma get_ok {A} (l : list A) i : i < length l -> exists a, get l i = Ok a /\ nth_error l i = Some a.
Proof.
  intros H. unfold get. destruct (nth_error l i) eqn:E; eauto.
  apply nth_error_None in E. lia.
Qed.

Lemma get_inv {A} (l : list A) i a : get l i = Ok a -> nth_error l i = Some a.
Proof. unfold get. destruct (nth_error l i); congruence. Qed.

Lemma get_nth {A} (l : list A) i a : nth_error l i = Some a -> get l i = Ok a.
Proof. unfold get. intros ->. reflexivity. Qed.

Lemma get_panic {A} (l : list A) i : length l <= i -> get l i = Panic.
Proof. unfold get. intros H. apply nth_error_None in H. rewrite H. reflexivity. Qed.

Lemma set_ok {A} (l : list A) i x : i < length l -> set l i x = Ok (upd l i x).
Proof. unfold set. intros H. apply Nat.ltb_lt in H. rewrite H. reflexivity. Qed.

Lemma set_inv {A} (l : list A) i x l' : set l i x = Ok l' -> i < length l /\ l' = upd l i x.
Proof.
  unfold set. destruct (i <? length l) eqn:E; [|discriminate].
  intros H; inversion H; split; auto. apply Nat.ltb_lt; auto.
Qed.

Lemma nth_error_some_lt {A} (l : list A) i a : nth_error l i = Some a -> i < length l.
Proof. intros H. apply nth_error_Some. congruence. Qed.

Lemma nth_error_mid {A} (l1 l2 : list A) x : nth_error (l1 ++ x :: l2) (length l1) = Some x.
Proof. rewrite nth_error_app2, Nat.sub_diag; auto. Qed.

Lemma upd_mid {A} (l1 l2 : list A) x y : upd (l1 ++ x :: l2) (length l1) y = l1 ++ y :: l2.
Proof. induction l1; cbn; congruence. Qed.

Lemma get_mid {A} (l1 l2 : list A) x n : n = length l1 -> get (l1 ++ x :: l2) n = Ok x.
Proof. intros ->. unfold get. rewrite nth_error_mid. reflexivity. Qed.

Lemma set_mid {A} (l1 l2 : list A) x y n :
  n = length l1 -> set (l1 ++ x :: l2) n y = Ok (l1 ++ y :: l2).
Proof.
  intros ->. rewrite set_ok; [rewrite upd_mid; auto|].
  rewrite app_length; cbn; lia.
Qed.

(** ** swapl *)

Lemma swapl_yields {A} (l : list A) i j x y :
  nth_error l i = Some x -> nth_error l j = Some y ->
  swapl l i j = Ok (upd (upd l i y) j x).
Proof.
  intros Hi Hj. unfold swapl.
  rewrite (get_nth _ _ Hi), (get_nth _ _ Hj). cbn.
  rewrite set_ok by (eapply nth_error_some_lt; eauto). cbn.
  rewrite set_ok; auto. rewrite upd_length. eapply nth_error_some_lt; eauto.
Qed.

Lemma swapl_ok {A} (l : list A) i j :
  i < length l -> j < length l -> exists l', swapl l i j = Ok l'.
Proof.
  intros Hi Hj.
  destruct (get_ok l Hi) as (x & _ & Ex). destruct (get_ok l Hj) as (y & _ & Ey).
  rewrite (swapl_yields _ _ _ Ex Ey). eauto.
Qed.

Lemma swapl_spec {A} (l : list A) i j l' :
  swapl l i j = Ok l' ->
  exists x y, nth_error l i = Some x /\ nth_error l j = Some y /\ l' = upd (upd l i y) j x.
Proof.
  intros E. unfold swapl in E.
  apply bind_ok in E as (x & E1 & E). apply bind_ok in E as (y & E2 & E).
  apply bind_ok in E as (l1 & E3 & E).
  apply get_inv in E1. apply get_inv in E2.
  apply set_inv in E3 as (H3 & ->). apply set_inv in E as (H4 & ->).
  exists x, y; auto.
Qed.

Lemma swapl_length {A} (l : list A) i j l' : swapl l i j = Ok l' -> length l' = length l.
Proof.
  intros E. apply swapl_spec in E as (x & y & _ & _ & ->).
  rewrite !upd_length; auto.
Qed.

Lemma swapl_lt {A} (l : list A) i j l' : swapl l i j = Ok l' -> i < length l /\ j < length l.
Proof.
  intros E. apply swapl_spec in E as (x & y & Hx & Hy & _).
  split; eapply nth_error_some_lt; eauto.
Qed.

Lemma swapl_nth {A} (l : list A) i j l' k :
  swapl l i j = Ok l' ->
  nth_error l' k = if k =? i then nth_error l j
                   else if k =? j then nth_error l i else nth_error l k.
Proof.
  intros E. apply swapl_spec in E as (x & y & Hx & Hy & ->).
  assert (i < length l) by (eapply nth_error_some_lt; eauto).
  assert (j < length l) by (eapply nth_error_some_lt; eauto).
  rewrite !nth_error_upd, upd_length.
  destruct (k =? j) eqn:Ekj; cbn [andb].
  - apply Nat.eqb_eq in Ekj; subst k.
    replace (j <? length l) with true by (symmetry; apply Nat.ltb_lt; auto).
    destruct (j =? i) eqn:Eji; auto.
    apply Nat.eqb_eq in Eji; subst i. congruence.
  - destruct (k =? i) eqn:Eki; cbn [andb]; auto.
    replace (i <? length l) with true by (symmetry; apply Nat.ltb_lt; auto).
    congruence.
Qed.

Lemma upd_app_l {A} (l1 l2 : list A) i x :
  i < length l1 -> upd (l1 ++ l2) i x = upd l1 i x ++ l2.
Proof.
  revert i; induction l1; intros i Hi; cbn in *; [lia|].
  destruct i; cbn; auto. rewrite IHl1; auto. lia.
Qed.

Lemma upd_app_r {A} (l1 l2 : list A) i x :
  length l1 <= i -> upd (l1 ++ l2) i x = l1 ++ upd l2 (i - length l1) x.
Proof.
  revert i; induction l1; intros i Hi; cbn in *.
  - rewrite Nat.sub_0_r; auto.
  - destruct i; [lia|]. cbn. rewrite IHl1; auto. lia.
Qed.

Lemma upd_same {A} (l : list A) i x : nth_error l i = Some x -> upd l i x = l.
Proof.
  revert i; induction l; destruct i; cbn; intros; auto; try congruence.
  rewrite IHl; auto.
Qed.

Lemma nth_error_split' {A} (l : list A) i x :
  nth_error l i = Some x -> exists l1 l2, l = l1 ++ x :: l2 /\ length l1 = i.
Proof. intros H. apply nth_error_split in H as (l1 & l2 & -> & <-). eauto. Qed.

Lemma perm_swap_mid {A} (l1 l2 l3 : list A) x y :
  Permutation (l1 ++ x :: l2 ++ y :: l3) (l1 ++ y :: l2 ++ x :: l3).
Proof.
  apply Permutation_app_head.
  transitivity (y :: x :: l2 ++ l3).
  - transitivity (x :: y :: l2 ++ l3); [|constructor].
    constructor. symmetry. apply Permutation_middle.
  - constructor. apply Permutation_middle.
Qed.

Lemma swapl_lt_perm {A} (l : list A) i j l' : i < j -> swapl l i j = Ok l' -> Permutation l l'.
Proof.
  intros Hij E. apply swapl_spec in E as (x & y & Hx & Hy & ->).
  apply nth_error_split' in Hx as (l1 & l2 & -> & <-).
  rewrite nth_error_app2 in Hy by lia.
  replace (j - length l1) with (S (j - length l1 - 1)) in Hy by lia.
  cbn in Hy. apply nth_error_split' in Hy as (m1 & m2 & -> & Hm).
  rewrite upd_mid.
  replace (l1 ++ y :: m1 ++ y :: m2) with ((l1 ++ y :: m1) ++ y :: m2)
    by (rewrite <- app_assoc; reflexivity).
  replace j with (length (l1 ++ y :: m1)) by (rewrite app_length; cbn; lia).
  rewrite upd_mid. rewrite <- app_assoc. cbn.
  apply perm_swap_mid.
Qed.


Lemma swapl_perm {A} (l : list A) i j l' : swapl l i j = Ok l' -> Permutation l l'.
Proof.
  intros E. destruct (lt_eq_lt_dec i j) as [[H|H]|H].
  - eapply swapl_lt_perm; eauto.
  - subst. apply swapl_spec in E as (x & y & Hx & Hy & ->).
    rewrite Hx in Hy; inversion Hy; subst.
    rewrite (upd_same _ _ Hx), (upd_same _ _ Hx). auto.
  - apply swapl_spec in E as (x & y & Hx & Hy & E).
    assert (E' : swapl l j i = Ok l').
    { rewrite (swapl_yields _ _ _ Hy Hx). f_equal. subst.
      clear -H. revert j i H. induction l; intros; destruct i, j; cbn; auto; try lia.
      f_equal. apply IHl. lia. }
    eapply swapl_lt_perm; eauto.
Qed.

Lemma nth_error_ext' {A} (l l' : list A) :
  (forall k, nth_error l k = nth_error l' k) -> l = l'.
Proof.
  revert l'; induction l; destruct l'; intros H; auto.
  - specialize (H 0); discriminate.
  - specialize (H 0); discriminate.
  - f_equal.
    + specialize (H 0); cbn in H; congruence.
    + apply IHl. intros k. apply (H (S k)).
Qed.

(** ** Windows *)

Lemma putwin_length {A} (l : list A) lo w :
  lo + length w <= length l -> length (putwin l lo w) = length l.
Proof.
  intros H. unfold putwin. rewrite !app_length, firstn_length, skipn_length. lia.
Qed.

Lemma swapl_split {A} (a b c : list A) x y i j :
  i = length a -> j = length a + 1 + length b ->
  swapl (a ++ x :: b ++ y :: c) i j = Ok (a ++ y :: b ++ x :: c) /\
  swapl (a ++ x :: b ++ y :: c) j i = Ok (a ++ y :: b ++ x :: c).
Proof.
  intros -> ->.
  assert (Hx : nth_error (a ++ x :: b ++ y :: c) (length a) = Some x) by apply nth_error_mid.
  assert (Hy : nth_error (a ++ x :: b ++ y :: c) (length a + 1 + length b) = Some y).
  { rewrite nth_error_app2 by lia.
    replace (length a + 1 + length b - length a) with (S (length b)) by lia.
    cbn. apply nth_error_mid. }
  assert (U : forall u v w, upd (a ++ u :: b ++ v :: c) (length a + 1 + length b) w
                           = a ++ u :: b ++ w :: c).
  { intros. rewrite upd_app_r by lia.
    replace (length a + 1 + length b - length a) with (S (length b)) by lia.
    cbn. rewrite upd_mid. reflexivity. }
  split.
  - rewrite (swapl_yields _ _ _ Hx Hy). rewrite upd_mid, U. reflexivity.
  - rewrite (swapl_yields _ _ _ Hy Hx). rewrite U, upd_mid. reflexivity.
Qed.

Lemma swapl_self {A} (a c : list A) x i :
  i = length a -> swapl (a ++ x :: c) i i = Ok (a ++ x :: c).
Proof.
  intros ->. assert (Hx : nth_error (a ++ x :: c) (length a) = Some x) by apply nth_error_mid.
  rewrite (swapl_yields _ _ _ Hx Hx). rewrite !upd_mid. reflexivity.
Qed.

Lemma filter_true {A} (p : A -> bool) l : Forall (fun x => p x = true) l -> filter p l = l.
Proof. induction 1; cbn; auto. rewrite H. congruence. Qed.
Lemma filter_false {A} (p : A -> bool) l : Forall (fun x => p x = false) l -> filter p l = [].
Proof. induction 1; cbn; auto. rewrite H. auto. Qed.

Lemma Permutation_filter {A} (p : A -> bool) l l' :
  Permutation l l' -> Permutation (filter p l) (filter p l').
Proof.
  induction 1; cbn; auto.
  - destruct (p x); auto.
  - destruct (p x), (p y); auto. constructor.
  - etransitivity; eauto.
Qed.

Lemma slice_ok {A} (l : list A) lo hi :
  lo <= hi -> hi <= length l -> slice l lo hi = Ok (firstn (hi - lo) (skipn lo l)).
Proof.
  intros H1 H2. unfold slice.
  apply Nat.leb_le in H1. apply Nat.leb_le in H2. rewrite H1, H2. reflexivity.
Qed.

Lemma firstn_app_exact {A} (l1 l2 : list A) n : n = length l1 -> firstn n (l1 ++ l2) = l1.
Proof. intros ->. rewrite firstn_app, Nat.sub_diag, firstn_all, app_nil_r. reflexivity. Qed.
Lemma skipn_app_exact {A} (l1 l2 : list A) n : n = length l1 -> skipn n (l1 ++ l2) = l2.
Proof. intros ->. rewrite skipn_app, Nat.sub_diag, skipn_all. reflexivity. Qed.

Lemma slice_app {A} (a b c : list A) lo hi :
  lo = length a -> hi = length a + length b -> slice (a ++ b ++ c) lo hi = Ok b.
Proof.
  intros -> ->. rewrite slice_ok; [|lia|rewrite !app_length; lia].
  rewrite skipn_app_exact by auto. rewrite firstn_app_exact by lia. reflexivity.
Qed.

Lemma loop_ext {St R} (Inv : St -> Prop) (body body' : St -> res (flow St R)) :
  (forall s, Inv s -> body s = body' s) ->
  (forall s s', Inv s -> body s = Ok (Next s') -> Inv s') ->
  forall fuel s, Inv s -> loop fuel body s = loop fuel body' s.
Proof.
  intros He Hi. induction fuel as [|f IH]; intros s Hs; cbn; auto.
  rewrite <- (He s Hs). destruct (body s) as [[s'|r]| |] eqn:E; cbn; auto.
  apply IH. eapply Hi; eauto.
Qed.

(** Destructs the binds and conditionals of an equation [_ = Ok _]. *)
Ltac inv_ok E := repeat match type of E with
  | bind _ _ = Ok _ => let x := fresh "x" in let E1 := fresh "E" in
      apply bind_ok in E as (x & E1 & E)
  | (if ?b then _ else _) = Ok _ => destruct b eqn:?
  | Ok _ = Ok _ => inversion E; clear E; subst
  end.
