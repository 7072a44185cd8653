(** Splitting, trimming and reading lines. *)
From Verif Require Import Go GoLemmas ModelText.
Local Open Scope nat_scope.
Local Open Scope list_scope.

Lemma eqb_neq_ascii a b : a <> b -> Ascii.eqb a b = false.
Proof. apply Ascii.eqb_neq. Qed.

Lemma TB s : T (B s) = s.
Proof. apply string_of_list_ascii_of_string. Qed.
Lemma BT l : B (T l) = l.
Proof. apply list_ascii_of_string_of_list_ascii. Qed.

(** ** split and join *)
Lemma split_none sep s : ~ In sep s -> split sep s = [s].
Proof.
  induction s as [|c s IH]; intros H; cbn; auto.
  rewrite eqb_neq_ascii by (intros ->; apply H; left; auto). rewrite IH; auto. intros Hs. apply H. right. auto.
Qed.
Lemma split_cons sep a b : ~ In sep a -> split sep (a ++ sep :: b) = a :: split sep b.
Proof.
  induction a as [|c a IH]; intros H; cbn.
  - rewrite Ascii.eqb_refl. auto.
  - rewrite eqb_neq_ascii by (intros ->; apply H; left; auto). rewrite IH; auto. intros Hs. apply H. right. auto.
Qed.
Lemma split_join sep ws : ws <> [] -> Forall (fun w => ~ In sep w) ws -> split sep (join [sep] ws) = ws.
Proof.
  induction ws as [|w ws IH]; intros Hn H; [congruence|]. inversion H; subst. destruct ws as [|w' ws].
  - cbn. apply split_none. auto.
  - change (join [sep] (w :: w' :: ws)) with (w ++ sep :: join [sep] (w' :: ws)). rewrite split_cons by auto.
    rewrite IH; auto. discriminate.
Qed.

(** ** trim *)
(** Neither the first nor the last byte is in the set. *)
Definition tight (p : ascii -> bool) (s : bytes) : Prop :=
  (forall c s', s = c :: s' -> p c = false) /\ (forall c s', s = s' ++ [c] -> p c = false).

Lemma trim_left_tight p s : (forall c s', s = c :: s' -> p c = false) -> trim_left p s = s.
Proof. destruct s as [|c s]; intros H; auto. cbn. rewrite (H c s eq_refl). auto. Qed.
Lemma trim_tight p s : tight p s -> trim p s = s.
Proof.
  intros [H1 H2]. unfold trim. rewrite (trim_left_tight p s) by auto. rewrite trim_left_tight.
  - apply rev_involutive.
  - intros c s' E. apply (H2 c (rev s')). rewrite <- (rev_involutive s), E. reflexivity.
Qed.
Lemma trim_left_all p a s : Forall (fun c => p c = true) a -> trim_left p (a ++ s) = trim_left p s.
Proof. induction 1; cbn; auto. rewrite H. auto. Qed.
Lemma trim_around p a s b : Forall (fun c => p c = true) a -> Forall (fun c => p c = true) b ->
  tight p s -> s <> [] -> trim p (a ++ s ++ b) = s.
Proof.
  intros Ha Hb Ht Hn. unfold trim. rewrite trim_left_all by auto.
  rewrite (trim_left_tight p (s ++ b)).
  - rewrite rev_app_distr. rewrite trim_left_all by (apply Forall_rev; auto).
    rewrite trim_left_tight; [apply rev_involutive|]. destruct Ht as [_ H2]. intros c s' E.
    apply (H2 c (rev s')). rewrite <- (rev_involutive s), E. reflexivity.
  - destruct s as [|c s]; [congruence|]. intros c' s' E. inversion E; subst. apply (proj1 Ht c' s). reflexivity.
Qed.
Lemma trim_all p s : Forall (fun c => p c = true) s -> trim p s = [].
Proof. intros H. unfold trim. rewrite <- (app_nil_r s), trim_left_all by auto. reflexivity. Qed.

Lemma tight_app p a s b : a <> [] -> b <> [] -> (forall c s', a = c :: s' -> p c = false) -> (forall c s', b = s' ++ [c] -> p c = false) ->
  tight p (a ++ s ++ b).
Proof.
  intros Ha Hb H1 H2. split.
  - intros c s' E. destruct a as [|c0 a]; [congruence|]. inversion E; subst. eapply H1; eauto.
  - intros c s' E. destruct (exists_last Hb) as (b' & c0 & ->). rewrite !app_assoc in E. apply app_inj_tail in E as [_ ->].
    eapply H2; eauto.
Qed.

(** Without quotes inside. *)
Definition no (c : ascii) (s : bytes) : Prop := ~ In c s.
Lemma trim_quotes_wrap v : no quote v -> trim_quotes (quote :: v ++ [quote]) = v.
Proof.
  intros H. unfold trim_quotes. destruct v as [|c v]; [reflexivity|].
  change (quote :: (c :: v) ++ [quote]) with ([quote] ++ (c :: v) ++ [quote]). apply trim_around.
  - constructor; [reflexivity|constructor].
  - constructor; [reflexivity|constructor].
  - split.
    + intros c' s' E. inversion E; subst. apply eqb_neq_ascii. intros ->. apply H. left. auto.
    + intros c' s' E. apply eqb_neq_ascii. intros ->. apply H. rewrite E. apply in_app_iff. right. left. auto.
  - discriminate.
Qed.
Lemma trim_quotes_none v : no quote v -> trim_quotes v = v.
Proof.
  intros H. apply trim_tight. split.
  - intros c s' ->. apply eqb_neq_ascii. intros ->. apply H. left. auto.
  - intros c s' ->. apply eqb_neq_ascii. intros ->. apply H. apply in_app_iff. right. left. auto.
Qed.

Lemma tight_nil p : tight p [].
Proof. split; intros c s' E; [discriminate|]. destruct s'; discriminate. Qed.

(** ** lines *)
Lemma read_line_ok l r : no nl l -> read_line (l ++ nl :: r) = Some (l ++ [nl], r).
Proof.
  induction l as [|c l IH]; intros H; cbn [app read_line].
  - rewrite Ascii.eqb_refl. reflexivity.
  - rewrite eqb_neq_ascii by (intros ->; apply H; left; auto). rewrite IH; auto. intros Hl. apply H. right. auto.
Qed.

Lemma count_byte_app c a b : count_byte c (a ++ b) = count_byte c a + count_byte c b.
Proof. unfold count_byte. rewrite filter_app, app_length. reflexivity. Qed.
Lemma count_byte_no c s : no c s -> count_byte c s = 0.
Proof.
  unfold count_byte. induction s as [|a s IH]; intros H; auto. cbn.
  rewrite eqb_neq_ascii by (intros ->; apply H; left; auto). apply IH. intros Hs. apply H. right. auto.
Qed.

Lemma bytes_eqb_eq a b : bytes_eqb a b = true <-> a = b.
Proof. unfold bytes_eqb. destruct (list_eq_dec ascii_dec a b); split; intros; auto; congruence. Qed.
Lemma bytes_eqb_refl a : bytes_eqb a a = true.
Proof. apply bytes_eqb_eq. reflexivity. Qed.

Lemma no_app c a b : no c (a ++ b) <-> no c a /\ no c b.
Proof. unfold no. rewrite in_app_iff. tauto. Qed.
Lemma no_cons c a s : no c (a :: s) <-> a <> c /\ no c s.
Proof. unfold no. cbn. intuition. Qed.

(** ** loops that end *)
Lemma loop_next {St R} (body : St -> res (flow St R)) s s' r f :
  body s = Ok (Next s') -> loop f body s' = Ok r -> loop (S f) body s = Ok r.
Proof. intros E H. cbn [loop]. rewrite E. exact H. Qed.
Lemma loop_done {St R} (body : St -> res (flow St R)) s r f : body s = Ok (Done r) -> loop (S f) body s = Ok r.
Proof. intros E. cbn [loop]. rewrite E. reflexivity. Qed.
Lemma loop_more {St R} (body : St -> res (flow St R)) : forall f f' s r, f <= f' -> loop f body s = Ok r -> loop f' body s = Ok r.
Proof.
  induction f as [|f IH]; intros f' s r H E; [discriminate|]. destruct f' as [|f']; [lia|]. cbn [loop] in *.
  destruct (body s) as [[s'|r']| |]; cbn [bind] in *; auto; try discriminate. apply IH; auto. lia.
Qed.
