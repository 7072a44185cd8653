(** Lines of forest files: what is written is parsed. *)
From Verif Require Import Go GoLemmas F64 ModelFeature ModelTree ModelText TextProofs TreeSpec PropTree2 ModelFile FileSpec.
Local Open Scope string_scope.
Local Open Scope nat_scope.
Local Open Scope list_scope.

(** ** Fields of a line *)
Record field := mkF { fKey : bytes; fVal : bytes; fQuoted : bool }.
Definition render (f : field) : bytes :=
  fKey f ++ "="%char :: (if fQuoted f then quote :: fVal f ++ [quote] else fVal f).
Definition render_line (fs : list field) : bytes := join (B ",") (map render fs) ++ [nl].

Lemma inert_no s : inert s <-> no ","%char s /\ no "="%char s /\ no quote s /\ no nl s.
Proof.
  unfold inert, no. rewrite Forall_forall. split.
  - intros H. repeat split; intros X; apply H in X; tauto.
  - intros (A & B0 & C & D) c Hc. repeat split; intros ->; contradiction.
Qed.
Lemma visible_not_space c : visible c -> is_space c = false.
Proof.
  unfold visible, is_space. intros H. cbv zeta.
  rewrite (proj2 (Nat.leb_gt (nat_of_ascii c) 13)) by lia. rewrite (proj2 (Nat.eqb_neq (nat_of_ascii c) 32)) by lia.
  rewrite andb_false_r. reflexivity.
Qed.
Lemma visible_tight s : visible_ends s -> tight is_space s.
Proof. intros [A B0]. split; intros c s' E; apply visible_not_space; eauto. Qed.
Definition field_ok (f : field) : Prop :=
  inert (fKey f) /\ fKey f <> [] /\ tight is_space (fKey f) /\ inert (fVal f) /\
  (fQuoted f = false -> tight is_space (fVal f)).

Lemma inert_app a b : inert (a ++ b) <-> inert a /\ inert b.
Proof. unfold inert. apply Forall_app. Qed.

Lemma render_no c f : field_ok f -> (c = ","%char \/ c = nl) -> no c (render f).
Proof.
  intros (K & _ & _ & V & _) Hc. apply inert_no in K as (K1 & K2 & K3 & K4). apply inert_no in V as (V1 & V2 & V3 & V4). unfold render.
  apply no_app. split; [destruct Hc; subst; auto|].
  apply no_cons. split; [destruct Hc; subst; discriminate|].
  destruct (fQuoted f).
  - apply no_cons. split; [destruct Hc; subst; discriminate|]. apply no_app. split; [destruct Hc; subst; auto|].
    intros [H|[]]. destruct Hc; subst; discriminate.
  - destruct Hc; subst; auto.
Qed.

Lemma render_tight f : field_ok f -> tight is_space (render f) /\ render f <> [].
Proof.
  intros (K & Kn & Kt & V & Vt). unfold render. split; [|destruct (fKey f); discriminate].
  split.
  - intros c s' E. destruct (fKey f) as [|k ks]; [congruence|]. inversion E; subst. apply (proj1 Kt c ks). reflexivity.
  - intros c s' E. destruct (fQuoted f).
    + rewrite app_comm_cons, app_comm_cons, app_assoc in E. apply app_inj_tail in E as [_ <-]. reflexivity.
    + destruct (fVal f) as [|v vs] eqn:Ev.
      * apply app_inj_tail in E as [_ <-]. reflexivity.
      * destruct (@exists_last _ (v :: vs)) as (l & x & El); [discriminate|]. rewrite El in E.
        rewrite app_comm_cons, app_assoc in E. apply app_inj_tail in E as [_ <-].
        apply (proj2 (Vt eq_refl) x l). exact El.
Qed.

Lemma join_tight fs : fs <> [] -> Forall field_ok fs ->
  tight is_space (join (B ",") (map render fs)) /\ join (B ",") (map render fs) <> [].
Proof.
  induction fs as [|f fs IH]; intros Hn H; [congruence|]. inversion H; subst.
  destruct (render_tight f) as [T1 N1]; auto. destruct fs as [|f' fs]; [exact (conj T1 N1)|].
  change (map render (f :: f' :: fs)) with (render f :: render f' :: map render fs).
  change (join (B ",") (render f :: render f' :: map render fs)) with (render f ++ [","%char] ++ join (B ",") (map render (f' :: fs))).
  destruct IH as [T2 N2]; auto; [discriminate|]. split.
  - apply tight_app; auto; [apply T1|apply T2].
  - destruct (render f); [congruence|discriminate].
Qed.

Lemma count_quotes f : field_ok f -> count_byte quote (render f) = if fQuoted f then 2 else 0.
Proof.
  intros (K & _ & _ & V & _). apply inert_no in K as (K1 & K2 & K3 & K4). apply inert_no in V as (V1 & V2 & V3 & V4).
  unfold render. rewrite count_byte_app.
  rewrite count_byte_no by auto. cbn [plus]. destruct (fQuoted f).
  - change ("="%char :: quote :: fVal f ++ [quote]) with (["="%char; quote] ++ fVal f ++ [quote]).
    rewrite !count_byte_app, (count_byte_no quote (fVal f)) by auto. reflexivity.
  - change ("="%char :: fVal f) with (["="%char] ++ fVal f). rewrite count_byte_app, (count_byte_no quote (fVal f)) by auto. reflexivity.
Qed.

Lemma parse_fields fs : fs <> [] -> Forall field_ok fs ->
  ParseLine (render_line fs) = Ok (rev (map (fun f => (fKey f, fVal f)) fs)).
Proof.
  intros Hn H. destruct (join_tight fs Hn H) as [Tj Nj].
  assert (Hc : foreach (split "," (trim_space (render_line fs))) clause_step ([], []) = Ok (map render fs, [])).
  { unfold render_line.
    assert (Et : trim_space (join (B ",") (map render fs) ++ [nl]) = join (B ",") (map render fs)).
    { apply (trim_around is_space [] _ [nl]); auto. }
    rewrite Et. change (B ",") with [","%char]. rewrite split_join.
    2:{ destruct fs; [congruence|discriminate]. }
    2:{ apply Forall_forall. intros w Hw. apply in_map_iff in Hw as (f & <- & Hf). rewrite Forall_forall in H.
        apply render_no; auto. }
    enough (G : forall l cs, Forall field_ok l -> foreach (map render l) clause_step (cs, []) = Ok (cs ++ map render l, [])).
    { rewrite G by auto. reflexivity. }
    induction l as [|f l IH]; intros cs Hl; [cbn; rewrite app_nil_r; auto|]. inversion Hl; subst.
    cbn [map foreach].
    assert (E : clause_step (render f) (cs, []) = Ok (cs ++ [render f], [])).
    { unfold clause_step, trim_space. rewrite (trim_tight _ _ (proj1 (render_tight f H2))). rewrite count_quotes by auto.
      assert (Ee : (count_byte "=" (render f) =? 0) = false).
      { apply Nat.eqb_neq. unfold render. rewrite count_byte_app. unfold count_byte at 2. cbn [filter].
        change (Ascii.eqb "=" "=") with true. cbn [length]. lia. }
      cbn [length]. rewrite Ee. destruct (fQuoted f); reflexivity. }
    rewrite E. cbn [bind]. rewrite IH by auto. rewrite <- app_assoc. reflexivity. }
  unfold ParseLine. rewrite Hc. cbn [bind].
  enough (G : forall l m, Forall field_ok l ->
    foreach (map render l) assign_step m = Ok (rev (map (fun f => (fKey f, fVal f)) l) ++ m)).
  { rewrite G by auto. rewrite app_nil_r. reflexivity. }
  clear. induction l as [|f l IH]; intros m H; [reflexivity|]. inversion H as [|? ? Hf Hl]; subst. cbn [map foreach].
  assert (E : assign_step (render f) m = Ok ((fKey f, fVal f) :: m)).
  { destruct Hf as (K & Kn & Kt & V & Vt). apply inert_no in K as (K1 & K2 & K3 & K4). apply inert_no in V as (V1 & V2 & V3 & V4).
    unfold assign_step, render. rewrite split_cons by auto.
    match goal with |- context [split "=" ?x] => assert (E : split "=" x = [x]) end.
    { apply split_none. destruct (fQuoted f); auto. intros [X|X]; [discriminate|]. apply in_app_iff in X as [X|[X|[]]]; [contradiction|discriminate]. }
    rewrite E. cbn [map get nth_error bind].
    assert (Ek : trim_quotes (trim_space (fKey f)) = fKey f).
    { unfold trim_space. rewrite trim_tight by auto. apply trim_quotes_none. auto. }
    rewrite Ek. match goal with |- context [trim_quotes ?z] => assert (Ev : trim_quotes z = fVal f) end.
    { unfold trim_space. destruct (fQuoted f).
      - rewrite trim_tight; [apply trim_quotes_wrap; auto|].
        change (quote :: fVal f ++ [quote]) with ([quote] ++ fVal f ++ [quote]). apply tight_app; try discriminate.
        + intros c s' X. inversion X; subst. reflexivity.
        + intros c s' X. destruct s' as [|? [|]]; inversion X; subst; reflexivity.
      - rewrite trim_tight by auto. apply trim_quotes_none. auto. }
    rewrite Ev. reflexivity. }
  rewrite E. cbn [bind]. rewrite IH by auto. cbn [rev]. rewrite <- app_assoc. reflexivity.
Qed.
