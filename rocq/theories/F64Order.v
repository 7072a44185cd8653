(** Order of float64: comparisons decoded into linear integer arithmetic. *)
From Verif Require Import Go F64.
Local Open Scope Z_scope.

Definition nn (x : f64) : Prop := is_nan x = false.

(** Lexicographic key of a float. *)
Definition k1 (x : f64) : Z :=
  match x with
  | S754_zero _ => 0 | S754_nan => 0
  | S754_infinity s => if s then -2 else 2
  | S754_finite s _ _ => if s then -1 else 1
  end.
Definition k2 (x : f64) : Z :=
  match x with S754_finite s _ e => if s then - e else e | _ => 0 end.
Definition k3 (x : f64) : Z :=
  match x with S754_finite s m _ => if s then Zneg m else Zpos m | _ => 0 end.

Definition lexlt (x y : f64) : Prop :=
  k1 x < k1 y \/ (k1 x = k1 y /\ (k2 x < k2 y \/ (k2 x = k2 y /\ k3 x < k3 y))).
Definition lexeq (x y : f64) : Prop :=
  k1 x = k1 y /\ k2 x = k2 y /\ k3 x = k3 y.

Lemma pcc m1 m2 : Pos.compare_cont Eq m1 m2 = Pos.compare m1 m2.
Proof. reflexivity. Qed.

Lemma SFcompare_spec x y :
  match SFcompare x y with
  | None => ~ (nn x /\ nn y)
  | Some Lt => nn x /\ nn y /\ lexlt x y
  | Some Eq => nn x /\ nn y /\ lexeq x y
  | Some Gt => nn x /\ nn y /\ lexlt y x
  end.
Proof.
  unfold nn, lexlt, lexeq.
  destruct x as [sx|sx| |sx mx ex], y as [sy|sy| |sy my ey]; cbn;
    try (intros [? ?]; discriminate);
    try (destruct sx); try (destruct sy); cbn; repeat split; auto; try lia.
  - destruct (Z.compare_spec ex ey); cbn; try rewrite pcc.
    + destruct (Pos.compare_spec mx my); cbn; repeat split; auto; lia.
    + repeat split; auto; lia.
    + repeat split; auto; lia.
  - destruct (Z.compare_spec ex ey); cbn; try rewrite pcc.
    + destruct (Pos.compare_spec mx my); cbn; repeat split; auto; lia.
    + repeat split; auto; lia.
    + repeat split; auto; lia.
Qed.

Lemma fltb_iff x y : fltb x y = true <-> (nn x /\ nn y /\ lexlt x y).
Proof.
  unfold fltb, SFltb. pose proof (SFcompare_spec x y) as H.
  destruct (SFcompare x y) as [[]|]; split; intros; auto; try discriminate;
    try tauto; unfold lexlt, lexeq in *; destruct H as (? & ? & ?); exfalso; lia.
Qed.

Lemma feqb_iff x y : feqb x y = true <-> (nn x /\ nn y /\ lexeq x y).
Proof.
  unfold feqb, SFeqb. pose proof (SFcompare_spec x y) as H.
  destruct (SFcompare x y) as [[]|]; split; intros; auto; try discriminate;
    try tauto; unfold lexlt, lexeq in *; destruct H as (? & ? & ?); exfalso; lia.
Qed.

Lemma fleb_iff x y : fleb x y = true <-> (nn x /\ nn y /\ (lexlt x y \/ lexeq x y)).
Proof.
  unfold fleb, SFleb. pose proof (SFcompare_spec x y) as H.
  destruct (SFcompare x y) as [[]|]; split; intros; auto; try discriminate;
    try tauto; unfold lexlt, lexeq in *; destruct H as (? & ? & ?); exfalso; lia.
Qed.

Lemma fltb_false x y : fltb x y = false <-> ~ (nn x /\ nn y /\ lexlt x y).
Proof. rewrite <- fltb_iff. destruct (fltb x y); split; congruence. Qed.
Lemma feqb_false x y : feqb x y = false <-> ~ (nn x /\ nn y /\ lexeq x y).
Proof. rewrite <- feqb_iff. destruct (feqb x y); split; congruence. Qed.
Lemma fleb_false x y : fleb x y = false <-> ~ (nn x /\ nn y /\ (lexlt x y \/ lexeq x y)).
Proof. rewrite <- fleb_iff. destruct (fleb x y); split; congruence. Qed.

(** Decide order goals between non-NaN floats.  NaN-ness is kept symbolic. *)
Ltac ford :=
  repeat match goal with
  | H : fltb _ _ = true |- _ => apply fltb_iff in H
  | H : feqb _ _ = true |- _ => apply feqb_iff in H
  | H : fleb _ _ = true |- _ => apply fleb_iff in H
  | H : fltb _ _ = false |- _ => apply fltb_false in H
  | H : feqb _ _ = false |- _ => apply feqb_false in H
  | H : fleb _ _ = false |- _ => apply fleb_false in H
  | |- fltb _ _ = true => apply fltb_iff
  | |- feqb _ _ = true => apply feqb_iff
  | |- fleb _ _ = true => apply fleb_iff
  | |- fltb _ _ = false => apply fltb_false
  | |- feqb _ _ = false => apply feqb_false
  | |- fleb _ _ = false => apply fleb_false
  end;
  unfold nn, lexlt, lexeq in *; intuition (try congruence; lia).

Lemma fle_trans x y z : fleb x y = true -> fleb y z = true -> fleb x z = true.
Proof. intros; ford. Qed.
Lemma flt_trans x y z : fltb x y = true -> fltb y z = true -> fltb x z = true.
Proof. intros; ford. Qed.
Lemma flt_le_trans x y z : fltb x y = true -> fleb y z = true -> fltb x z = true.
Proof. intros; ford. Qed.
Lemma fle_lt_trans x y z : fleb x y = true -> fltb y z = true -> fltb x z = true.
Proof. intros; ford. Qed.
Lemma fle_refl x : nn x -> fleb x x = true.
Proof. intros; ford. Qed.
Lemma fle_total x y : nn x -> nn y -> fleb x y = true \/ fleb y x = true.
Proof.
  intros. destruct (fleb x y) eqn:E; auto. right. ford.
Qed.
Lemma flt_irrefl x : fltb x x = false.
Proof. ford. Qed.
Lemma flt_not_le x y : nn x -> nn y -> fltb x y = false -> fleb y x = true.
Proof. intros; ford. Qed.
Lemma flt_le x y : fltb x y = true -> fleb x y = true.
Proof. intros; ford. Qed.
Lemma flt_nn x y : fltb x y = true -> nn x /\ nn y.
Proof. intros; ford. Qed.
(** Once below the running best, always below a better one; NaN included. *)
Lemma flt_false_trans x y z : fltb y x = false -> fltb y z = true -> fltb z x = false.
Proof. intros; ford. Qed.
