(** Sorting and searching go by the order of the values: two columns that order the cases
    alike are sorted alike and searched alike. *)
From Verif Require Import Go GoLemmas F64 ModelSort.
Local Open Scope nat_scope.
Local Open Scope list_scope.

(** ** Runs that follow another run: when the first returns, so does the second, and the
    outcomes are related. *)
Definition follows {A A'} (Q : A -> A' -> Prop) (m : res A) (m' : res A') : Prop :=
  forall a, m = Ok a -> exists a', m' = Ok a' /\ Q a a'.
Lemma follows_ok {A A'} (Q : A -> A' -> Prop) a a' : Q a a' -> follows Q (Ok a) (Ok a').
Proof. intros H b E. injection E as <-. eauto. Qed.
Lemma follows_panic {A A'} (Q : A -> A' -> Prop) m' : follows Q Panic m'.
Proof. intros b E. discriminate. Qed.
Lemma follows_bind {A A' C C'} (P : A -> A' -> Prop) (Q : C -> C' -> Prop) m m' k k' :
  follows P m m' -> (forall a a', P a a' -> follows Q (k a) (k' a')) -> follows Q (bind m k) (bind m' k').
Proof. intros H Hk c E. apply bind_ok in E as (a & Ea & E). destruct (H a Ea) as (a' & -> & Ha). cbn [bind]. apply (Hk a a' Ha c E). Qed.
Lemma follows_refl {A} (m : res A) : follows eq m m.
Proof. intros a E. eauto. Qed.
Definition fflow {A A' C C'} (P : A -> A' -> Prop) (Q : C -> C' -> Prop) (x : flow A C) (x' : flow A' C') : Prop :=
  match x, x' with Next a, Next a' => P a a' | Done c, Done c' => Q c c' | _, _ => False end.
Lemma follows_loop {A A' C C'} (P : A -> A' -> Prop) (Q : C -> C' -> Prop) body body' fuel : forall s s',
  P s s' -> (forall s s', P s s' -> follows (fflow P Q) (body s) (body' s')) -> follows Q (loop fuel body s) (loop fuel body' s').
Proof.
  induction fuel as [|fuel IH]; intros s s' Hs H; cbn [loop]; [intros a E; discriminate|].
  apply (follows_bind (fflow P Q)); [apply H; exact Hs|]. intros [a|c] [a'|c'] Ha; try contradiction; [apply IH; auto|apply follows_ok; exact Ha].
Qed.
Lemma follows_for_up {A A'} (P : A -> A' -> Prop) body body' n : forall lo s s',
  P s s' -> (forall i s s', P s s' -> follows P (body i s) (body' i s')) -> follows P (for_up n lo body s) (for_up n lo body' s').
Proof. induction n as [|n IH]; intros lo s s' Hs H; cbn [for_up]; [apply follows_ok; exact Hs|]. apply (follows_bind P); auto. Qed.
Lemma follows_for_down {A A'} (P : A -> A' -> Prop) body body' n : forall s s',
  P s s' -> (forall i s s', P s s' -> follows P (body i s) (body' i s')) -> follows P (for_down n body s) (for_down n body' s').
Proof. induction n as [|n IH]; intros s s' Hs H; cbn [for_down]; [apply follows_ok; exact Hs|]. apply (follows_bind P); auto. Qed.

(** ** sortby.go *)
Section Sort.
  Variable R : f64 -> f64 -> Prop.
  Hypothesis Rlt : forall x x' y y', R x x' -> R y y' -> fltb x y = fltb x' y'.
  Hypothesis Req : forall x x' y y', R x x' -> R y y' -> feqb x y = feqb x' y'.
  Hypothesis Rle : forall x x' y y', R x x' -> R y y' -> fleb x y = fleb x' y'.
  (** What lies behind the values that are sorted. *)
  Variable tail : list f64.

  Definition Rv (vs vs' : list f64) : Prop := exists pre, vs' = pre ++ tail /\ Forall2 R vs pre.
  Definition Rs (s s' : st) : Prop := fst s = fst s' /\ Rv (snd s) (snd s').

  Lemma F2_get vs pre i x : Forall2 R vs pre -> nth_error vs i = Some x -> exists x', nth_error pre i = Some x' /\ R x x'.
  Proof. intros H. revert i. induction H as [|a b l l' Hab H IH]; intros [|i] E; cbn in *; try discriminate; [injection E as ->; eauto|auto]. Qed.
  Lemma F2_upd vs pre i x x' : Forall2 R vs pre -> R x x' -> Forall2 R (upd vs i x) (upd pre i x').
  Proof. intros H Hx. revert i. induction H as [|a b l l' Hab H IH]; intros [|i]; cbn; constructor; auto. Qed.
  Lemma upd_app (pre : list f64) i x : i < length pre -> upd (pre ++ tail) i x = upd pre i x ++ tail.
  Proof. revert i. induction pre as [|a pre IH]; intros [|i] H; cbn in *; try lia; [reflexivity|]. rewrite IH by lia. reflexivity. Qed.

  Lemma follows_get vs vs' i : Rv vs vs' -> follows R (get vs i) (get vs' i).
  Proof.
    intros (pre & -> & H) x E. apply get_inv in E. destruct (F2_get _ _ _ _ H E) as (x' & E' & Hx). exists x'. split; [|exact Hx].
    unfold get. rewrite nth_error_app1 by (apply nth_error_Some; congruence). rewrite E'. reflexivity.
  Qed.
  Lemma follows_set vs vs' i x x' : Rv vs vs' -> R x x' -> follows Rv (set vs i x) (set vs' i x').
  Proof.
    intros (pre & -> & H) Hx l E. apply set_inv in E as [Hi ->]. assert (L : length vs = length pre) by (clear - H; induction H; cbn; auto).
    rewrite set_ok by (rewrite app_length; lia). eexists. split; [reflexivity|]. exists (upd pre i x'). rewrite upd_app by lia. split; [reflexivity|].
    apply F2_upd; auto.
  Qed.
  Lemma follows_swapl vs vs' i j : Rv vs vs' -> follows Rv (swapl vs i j) (swapl vs' i j).
  Proof.
    intros H. unfold swapl. apply (follows_bind R); [apply follows_get; exact H|]. intros x x' Hx.
    apply (follows_bind R); [apply follows_get; exact H|]. intros y y' Hy.
    apply (follows_bind Rv); [apply follows_set; auto|]. intros v v' Hv. apply follows_set; auto.
  Qed.
  Lemma follows_swap s s' i j : Rs s s' -> follows Rs (swap s i j) (swap s' i j).
  Proof.
    destruct s as [cs vs], s' as [cs' vs']. intros [E H]. cbn [fst snd] in *. subst cs'. cbn [swap].
    apply (follows_bind eq); [apply follows_refl|]. intros c c' <-. apply (follows_bind Rv); [apply follows_swapl; exact H|]. intros v v' Hv.
    apply follows_ok. split; auto.
  Qed.
  Ltac gets := match goal with H : Rs ?s ?s' |- follows _ (bind (get (snd ?s) _) _) _ => apply (follows_bind R); [apply follows_get; apply H|] end.
  Lemma follows_if_swap (b b' : bool) s s' i j : b = b' -> Rs s s' ->
    follows Rs (if b then swap s i j else Ok s) (if b' then swap s' i j else Ok s').
  Proof. intros <- H. destruct b; [apply follows_swap; exact H|apply follows_ok; exact H]. Qed.
  Lemma follows_median s s' a b c : Rs s s' -> follows Rs (medianOfThree s a b c) (medianOfThree s' a b c).
  Proof.
    intros H. unfold medianOfThree. gets. intros x1 x1' Hx1. gets. intros x0 x0' Hx0.
    apply (follows_bind Rs); [apply follows_if_swap; auto|]. intros s1 s1' H1. gets. intros y2 y2' Hy2. gets. intros y1 y1' Hy1.
    apply (follows_bind Rs); [apply follows_if_swap; auto|]. intros s2 s2' H2. gets. intros z1 z1' Hz1. gets. intros z0 z0' Hz0.
    apply follows_if_swap; auto.
  Qed.
  Definition Rs3 (x x' : st * nat * nat) : Prop := let '(s, a, b) := x in let '(s', a', b') := x' in Rs s s' /\ a = a' /\ b = b'.
  Definition Rs5 (x x' : st * nat * nat * nat * nat) : Prop :=
    let '(s, a, b, c, d) := x in let '(s', a', b', c', d') := x' in Rs s s' /\ a = a' /\ b = b' /\ c = c' /\ d = d'.
  Lemma follows_pivot_up fuel p p' c x x' : R p p' -> Rs3 x x' -> follows Rs3 (pivot_up fuel p c x) (pivot_up fuel p' c x').
  Proof.
    intros Hp Hx. unfold pivot_up. apply (follows_loop Rs3 Rs3); [exact Hx|]. intros [[s a] b] [[s' a'] b'] (H & <- & <-).
    destruct (b <? c); [|apply follows_ok; repeat split; auto; apply H]. gets. intros v v' Hv. rewrite (Rlt v v' p p'), (Req p p' v v') by assumption.
    destruct (fltb v' p'); [apply follows_ok; repeat split; auto; apply H|]. destruct (feqb p' v').
    - apply (follows_bind Rs); [apply follows_swap; exact H|]. intros s1 s1' H1. apply follows_ok. repeat split; auto; apply H1.
    - apply follows_ok; repeat split; auto; apply H.
  Qed.
  Lemma follows_pivot_down fuel p p' b x x' : R p p' -> Rs3 x x' -> follows Rs3 (pivot_down fuel p b x) (pivot_down fuel p' b x').
  Proof.
    intros Hp Hx. unfold pivot_down. apply (follows_loop Rs3 Rs3); [exact Hx|]. intros [[s c] d] [[s' c'] d'] (H & <- & <-).
    destruct (b <? c); [|apply follows_ok; repeat split; auto; apply H]. cbn zeta. gets. intros v v' Hv. rewrite (Rlt p p' v v'), (Req v v' p p') by assumption.
    destruct (fltb p' v'); [apply follows_ok; repeat split; auto; apply H|]. destruct (feqb v' p').
    - apply (follows_bind Rs); [apply follows_swap; exact H|]. intros s1 s1' H1. apply follows_ok. repeat split; auto; apply H1.
    - apply follows_ok; repeat split; auto; apply H.
  Qed.
  Lemma follows_pivot_loop fuel p p' x x' : R p p' -> Rs5 x x' -> follows Rs5 (pivot_loop fuel p x) (pivot_loop fuel p' x').
  Proof.
    intros Hp Hx. unfold pivot_loop. apply (follows_loop Rs5 Rs5); [exact Hx|]. intros [[[[s a] b] c] d] [[[[s' a'] b'] c'] d'] (H & <- & <- & <- & <-).
    apply (follows_bind Rs3); [apply follows_pivot_up; [exact Hp|repeat split; auto; apply H]|]. intros [[s1 a1] b1] [[s1' a1'] b1'] (H1 & <- & <-).
    apply (follows_bind Rs3); [apply follows_pivot_down; [exact Hp|repeat split; auto; apply H1]|]. intros [[s2 c1] d1] [[s2' c1'] d1'] (H2 & <- & <-).
    destruct (c1 <=? b1); [apply follows_ok; repeat split; auto; apply H2|]. cbn zeta.
    apply (follows_bind Rs); [apply follows_swap; exact H2|]. intros s3 s3' H3. apply follows_ok. repeat split; auto; apply H3.
  Qed.
  Lemma follows_swapRange s s' a b n : Rs s s' -> follows Rs (swapRange s a b n) (swapRange s' a b n).
  Proof. intros H. unfold swapRange. apply follows_for_up; [exact H|]. intros i s1 s1' H1. apply follows_swap. exact H1. Qed.
  Lemma follows_doPivot s s' lo hi : Rs s s' -> follows Rs3 (doPivot s lo hi) (doPivot s' lo hi).
  Proof.
    intros H. unfold doPivot. cbn zeta. apply (follows_bind Rs).
    { destruct (40 <? hi - lo); [|apply follows_ok; exact H].
      apply (follows_bind Rs); [apply follows_median; exact H|]. intros s1 s1' H1.
      apply (follows_bind Rs); [apply follows_median; exact H1|]. intros s2 s2' H2. apply follows_median. exact H2. }
    intros s1 s1' H1. apply (follows_bind Rs); [apply follows_median; exact H1|]. intros s2 s2' H2. gets. intros p p' Hp.
    apply (follows_bind Rs5); [apply follows_pivot_loop; [exact Hp|repeat split; auto; apply H2]|].
    intros [[[[s3 a] b] c] d] [[[[s3' a'] b'] c'] d'] (H3 & <- & <- & <- & <-).
    apply (follows_bind Rs); [apply follows_swapRange; exact H3|]. intros s4 s4' H4.
    apply (follows_bind Rs); [apply follows_swapRange; exact H4|]. intros s5 s5' H5. apply follows_ok. repeat split; auto; apply H5.
  Qed.
  Definition Rs2 (x x' : st * nat) : Prop := let '(s, a) := x in let '(s', a') := x' in Rs s s' /\ a = a'.
  Lemma follows_sink s s' a i : Rs s s' -> follows Rs (sink s a i) (sink s' a i).
  Proof.
    intros H0. unfold sink. apply (follows_loop Rs2 Rs); [split; auto|]. intros [s1 j] [s1' j'] (H & <-).
    destruct (a <? j); [|apply follows_ok; exact H]. gets. intros x x' Hx. gets. intros y y' Hy. rewrite (Rlt x x' y y') by assumption.
    destruct (fltb x' y'); [|apply follows_ok; exact H]. apply (follows_bind Rs); [apply follows_swap; exact H|]. intros s2 s2' H2.
    apply follows_ok. split; auto.
  Qed.
  Lemma follows_insertion s s' a b : Rs s s' -> follows Rs (insertionSort s a b) (insertionSort s' a b).
  Proof. intros H. unfold insertionSort. apply follows_for_up; [exact H|]. intros i s1 s1' H1. apply follows_sink. exact H1. Qed.
  Lemma follows_sift s s' lo hi first : Rs s s' -> follows Rs (siftDown s lo hi first) (siftDown s' lo hi first).
  Proof.
    intros H0. unfold siftDown. apply (follows_loop Rs2 Rs); [split; auto|]. intros [s1 root] [s1' root'] (H & <-). cbn zeta.
    destruct (hi <=? 2 * root + 1); [apply follows_ok; exact H|].
    apply (follows_bind eq).
    { destruct (2 * root + 1 + 1 <? hi); [|apply follows_refl]. gets. intros x x' Hx. gets. intros y y' Hy. rewrite (Rlt x x' y y') by assumption.
      destruct (fltb x' y'); apply follows_refl. }
    intros child child' <-. gets. intros x x' Hx. gets. intros y y' Hy. rewrite (Rle y y' x x') by assumption.
    destruct (fleb y' x'); [apply follows_ok; exact H|]. apply (follows_bind Rs); [apply follows_swap; exact H|]. intros s2 s2' H2.
    apply follows_ok. split; auto.
  Qed.
  Lemma follows_heap s s' a b : Rs s s' -> follows Rs (heapSort s a b) (heapSort s' a b).
  Proof.
    intros H. unfold heapSort. apply (follows_bind Rs). { apply follows_for_down; [exact H|]. intros i s1 s1' H1. apply follows_sift. exact H1. }
    intros s1 s1' H1. apply follows_for_down; [exact H1|]. intros i s2 s2' H2.
    apply (follows_bind Rs); [apply follows_swap; exact H2|]. intros s3 s3' H3. apply follows_sift. exact H3.
  Qed.
  Lemma follows_quick md : forall s s' a b, Rs s s' -> follows Rs (quickSort md s a b) (quickSort md s' a b).
  Proof.
    induction md as [|md IH]; intros s s' a b H; cbn [quickSort].
    - destruct (7 <? b - a); [apply follows_heap; exact H|]. destruct (1 <? b - a); [apply follows_insertion; exact H|apply follows_ok; exact H].
    - destruct (7 <? b - a).
      + apply (follows_bind Rs3); [apply follows_doPivot; exact H|]. intros [[s1 mlo] mhi] [[s1' mlo'] mhi'] (H1 & <- & <-).
        destruct (mlo - a <? b - mhi); (apply (follows_bind Rs); [apply IH; exact H1|]; intros s2 s2' H2; apply IH; exact H2).
      + destruct (1 <? b - a); [apply follows_insertion; exact H|apply follows_ok; exact H].
  Qed.
  Lemma follows_SortBy cs vs vs' : Rv vs vs' -> follows Rs (SortBy cs vs) (SortBy cs vs').
  Proof. intros H. unfold SortBy. apply (follows_bind eq); [apply follows_refl|]. intros md md' <-. apply follows_quick. split; auto. Qed.
End Sort.
