(** C146: lines of forest files as other programs write them. *)
From Verif Require Import Go GoLemmas F64 ModelFeature ModelTree TreeSpec PropTree2 ModelText TextProofs ModelFile FileSpec FileProofs.
Local Open Scope string_scope.
Local Open Scope nat_scope.
Local Open Scope list_scope.

(** ** Spec: a line is a list of entries KEY=VALUE, with white space around keys, values and commas.
    A value may be several texts with commas between them, and may stand in double quotes. *)
Definition blank (s : bytes) : Prop := Forall (fun c => is_space c = true) s.
(** A text without comma, equals sign, quote or newline that has no white space at its ends. *)
Definition word (s : bytes) : Prop := inert s /\ tight is_space s.
Record aentry := mkA { aKey : bytes; aGap1 : bytes; aGap2 : bytes; aQuoted : bool; aFirst : bytes; aMore : list bytes }.
Definition entry_ok (e : aentry) : Prop :=
  word (aKey e) /\ aKey e <> [] /\ blank (aGap1 e) /\ blank (aGap2 e) /\ word (aFirst e) /\ Forall word (aMore e) /\
  (aQuoted e = false -> aFirst e = [] -> aGap2 e = []).
Definition aValue (e : aentry) : bytes := join [","%char] (aFirst e :: aMore e).
(** The texts between the commas of an entry. *)
Fixpoint closed (ws : list bytes) : list bytes :=
  match ws with [] => [] | [w] => [w ++ [quote]] | w :: ws => w :: closed ws end.
Definition texts (e : aentry) : list bytes :=
  let start := aKey e ++ aGap1 e ++ "="%char :: aGap2 e in
  if aQuoted e then
    match aMore e with
    | [] => [start ++ quote :: aFirst e ++ [quote]]
    | ws => (start ++ quote :: aFirst e) :: closed ws
    end
  else (start ++ aFirst e) :: aMore e.
(** A line: the texts of its entries, each with white space around it, joined by commas. *)
Inductive padded : bytes -> bytes -> Prop := pad l t r : blank l -> blank r -> padded t (l ++ t ++ r).
Definition line_of (es : list aentry) (line : bytes) : Prop :=
  exists ts, Forall2 padded (concat (map texts es)) ts /\ line = join [","%char] ts.

(** ** Proofs *)
Lemma space_plain c : is_space c = true -> c <> ","%char /\ c <> "="%char /\ c <> quote.
Proof. intros H. repeat split; intros ->; discriminate. Qed.
Lemma blank_no c s : blank s -> is_space c = false -> no c s.
Proof. intros H Hc X. unfold blank in H. rewrite Forall_forall in H. apply H in X. congruence. Qed.
Lemma trim_pad l t r : blank l -> blank r -> tight is_space t -> trim_space (l ++ t ++ r) = t.
Proof.
  intros Hl Hr Ht. destruct t as [|c t].
  - apply trim_all. cbn [app]. apply Forall_app. split; assumption.
  - apply trim_around; auto. discriminate.
Qed.
Lemma trimmed s : tight is_space s -> trim_space s = s.
Proof. apply trim_tight. Qed.
Lemma split_some sep s : exists w ws, split sep s = w :: ws.
Proof. induction s as [|c s (w & ws & E)]; cbn; [eauto|]. destruct (Ascii.eqb c sep); [eauto|]. rewrite E. eauto. Qed.
Lemma split_front s : map trim_space (split "," (trim_left is_space s)) = map trim_space (split "," s).
Proof.
  induction s as [|c s IH]; [reflexivity|]. cbn [trim_left]. destruct (is_space c) eqn:E; [|reflexivity]. rewrite IH. cbn [split].
  rewrite eqb_neq_ascii by apply (space_plain c E). destruct (split_some "," s) as (w & ws & ->). cbn [map]. f_equal.
  unfold trim_space, trim. cbn [trim_left]. rewrite E. reflexivity.
Qed.
Lemma split_snoc sep s c : c <> sep -> exists i l, split sep s = i ++ [l] /\ split sep (s ++ [c]) = i ++ [l ++ [c]].
Proof.
  intros Hc. induction s as [|x s (i & l & E1 & E2)].
  - exists [], []. cbn. rewrite eqb_neq_ascii by exact Hc. auto.
  - cbn [app split]. rewrite E1, E2. destruct (Ascii.eqb x sep).
    + exists ([] :: i), l. auto.
    + destruct i as [|w i]; cbn; [exists [], (x :: l)|exists ((x :: w) :: i), l]; auto.
Qed.
Lemma trim_left_snoc p l c : p c = true -> trim_left p (l ++ [c]) = [] \/ trim_left p (l ++ [c]) = trim_left p l ++ [c].
Proof.
  intros Hc. induction l as [|x l IH]; cbn; [rewrite Hc; auto|]. destruct (p x); auto.
Qed.
Lemma trim_left_nil p l : trim_left p l = [] -> Forall (fun c => p c = true) l.
Proof. induction l as [|x l IH]; cbn; intros H; constructor; destruct (p x); try discriminate; auto. Qed.
Lemma trim_snoc l c : is_space c = true -> trim_space (l ++ [c]) = trim_space l.
Proof.
  intros Hc. unfold trim_space, trim. destruct (trim_left_snoc is_space l c Hc) as [E|E]; rewrite E.
  - apply trim_left_nil, Forall_app in E as [E _]. rewrite <- (app_nil_r l), trim_left_all by exact E. reflexivity.
  - rewrite rev_app_distr. cbn [rev app trim_left]. rewrite Hc. reflexivity.
Qed.
Lemma split_back b : blank b -> forall s, map trim_space (split "," (s ++ b)) = map trim_space (split "," s).
Proof.
  induction 1 as [|c b Hc Hb IH]; intros s; [rewrite app_nil_r; reflexivity|].
  change (s ++ c :: b) with (s ++ [c] ++ b). rewrite app_assoc, IH. destruct (split_snoc "," s c) as (i & l & -> & ->); [apply space_plain, Hc|].
  rewrite !map_app. cbn [map]. rewrite trim_snoc by exact Hc. reflexivity.
Qed.
Lemma trim_left_front p s : exists a, Forall (fun c => p c = true) a /\ s = a ++ trim_left p s.
Proof.
  induction s as [|c s (a & Ha & E)]; cbn; [exists []; auto|]. destruct (p c) eqn:Ec; [exists (c :: a); split; [auto|cbn; congruence]|exists []; auto].
Qed.
Lemma split_trimmed s : map trim_space (split "," (trim_space s)) = map trim_space (split "," s).
Proof.
  rewrite <- (split_front s). unfold trim_space at 2, trim. set (u := trim_left is_space s).
  destruct (trim_left_front is_space (rev u)) as (a & Ha & E). apply (f_equal (@rev _)) in E. rewrite rev_involutive, rev_app_distr in E.
  rewrite E at 2. symmetry. apply split_back. unfold blank. apply Forall_rev. exact Ha.
Qed.

Lemma clause_trim t t' st : trim_space t = trim_space t' -> clause_step t st = clause_step t' st.
Proof. intros H. unfold clause_step. rewrite H. reflexivity. Qed.
Lemma clauses_trim : forall ts ts' st, map trim_space ts = map trim_space ts' -> foreach ts clause_step st = foreach ts' clause_step st.
Proof.
  induction ts as [|t ts IH]; intros [|t' ts'] st H; try discriminate; [reflexivity|]. cbn [map] in H. injection H as H1 H2. cbn [foreach].
  rewrite (clause_trim t t' st H1). destruct (clause_step t' st) as [st'| |]; cbn [bind]; auto.
Qed.
Lemma foreach_app {X S0} (body : X -> S0 -> res S0) l1 l2 s : foreach (l1 ++ l2) body s = let* s := foreach l1 body s in foreach l2 body s.
Proof. revert s. induction l1 as [|x l1 IH]; intros s; cbn; [reflexivity|]. destruct (body x s); cbn; auto. Qed.

Lemma one_last {X} (x : X) s' c : [x] = s' ++ [c] -> x = c.
Proof. intros E. destruct s' as [|y [|z s']]; cbn in E; congruence. Qed.
Lemma tight_end (p : ascii -> bool) (a b : bytes) : b <> [] -> (forall c s', b = s' ++ [c] -> p c = false) -> forall c s', a ++ b = s' ++ [c] -> p c = false.
Proof.
  intros Hb H c s' E. destruct (@exists_last _ b Hb) as (b' & x & ->). rewrite app_assoc in E. apply app_inj_tail in E as [_ <-]. eapply H. reflexivity.
Qed.
Lemma tight_start (p : ascii -> bool) (a b : bytes) : a <> [] -> (forall c s', a = c :: s' -> p c = false) -> forall c s', a ++ b = c :: s' -> p c = false.
Proof. intros Ha H c s' E. destruct a as [|x a]; [congruence|]. injection E as -> _. eapply H. reflexivity. Qed.
Lemma tight_join ws : Forall (tight is_space) ws -> tight is_space (join [","%char] ws).
Proof.
  induction ws as [|w ws IH]; intros H; [apply tight_nil|]. inversion H as [|? ? H1 H2]; subst. destruct ws as [|w' ws]; [exact H1|].
  specialize (IH H2). change (join [","%char] (w :: w' :: ws)) with (w ++ [","%char] ++ join [","%char] (w' :: ws)). set (j := join [","%char] (w' :: ws)) in *. split.
  - destruct w as [|x w]; [intros c s' E; injection E as <- _; reflexivity|]. apply tight_start; [discriminate|apply H1].
  - apply tight_end; [discriminate|]. destruct j as [|x j]; [intros c s' E; apply one_last in E as <-; reflexivity|].
    change ([","%char] ++ x :: j) with ([","%char] ++ (x :: j)). apply tight_end; [discriminate|apply IH].
Qed.
Lemma join_no c ws : c <> ","%char -> Forall (no c) ws -> no c (join [","%char] ws).
Proof.
  intros Hc. induction ws as [|w ws IH]; intros H; [intros []|]. inversion H; subst. destruct ws as [|w' ws]; [assumption|].
  change (join [","%char] (w :: w' :: ws)) with (w ++ [","%char] ++ join [","%char] (w' :: ws)). rewrite !no_app. split; [assumption|]. split; [|auto].
  intros [X|[]]. congruence.
Qed.

Section Entry.
  Variable e : aentry.
  Hypothesis He : entry_ok e.
  Let start := aKey e ++ aGap1 e ++ "="%char :: aGap2 e.
  Lemma start_front tl : forall c s', start ++ tl = c :: s' -> is_space c = false.
  Proof.
    destruct He as ((_ & Kt) & Kn & _). unfold start. rewrite <- app_assoc. apply tight_start; [exact Kn|apply Kt].
  Qed.
  Lemma start_no c : c <> "="%char -> is_space c = false -> no c (aKey e) -> no c start.
  Proof.
    destruct He as (_ & _ & G1 & G2 & _). intros H1 H2 H3. unfold start. rewrite !no_app, no_cons. split; [exact H3|]. split; [apply blank_no; assumption|].
    split; [congruence|apply blank_no; assumption].
  Qed.
  Lemma texts_tight : Forall (tight is_space) (texts e) /\ Forall (no ","%char) (texts e).
  Proof.
    pose proof He as ((Ki & Kt) & Kn & G1 & G2 & (Fi & Ft) & Hm & Hz). apply inert_no in Ki as (K1 & K2 & K3 & K4). apply inert_no in Fi as (F1 & F2 & F3 & F4).
    assert (S0 : no ","%char start) by (apply start_no; [discriminate|reflexivity|exact K1]).
    unfold texts. fold start. destruct (aQuoted e) eqn:Q.
    - destruct (aMore e) as [|w ws] eqn:M.
      + split; constructor; try constructor.
        * apply start_front.
        * change (quote :: aFirst e ++ [quote]) with ((quote :: aFirst e) ++ [quote]). rewrite app_assoc. apply tight_end; [discriminate|].
          intros c s' E. apply one_last in E as <-. reflexivity.
        * rewrite no_app, no_cons, no_app. split; [exact S0|]. split; [discriminate|]. split; [exact F1|]. intros [X|[]]. discriminate.
      + assert (C : Forall (tight is_space) (closed (w :: ws)) /\ Forall (no ","%char) (closed (w :: ws))).
        { clear M. revert Hm. generalize (w :: ws). clear. induction l as [|w ws IH]; intros H; [split; constructor|]. inversion H as [|? ? [Wi Wt] H2]; subst.
          apply inert_no in Wi as (W1 & _). destruct ws as [|w' ws].
          - cbn [closed]. split; constructor; try constructor.
            + destruct w as [|x w]; [intros c s' E; injection E as <- _; reflexivity|]. apply tight_start; [discriminate|apply Wt].
            + apply tight_end; [discriminate|]. intros c s' E. apply one_last in E as <-. reflexivity.
            + rewrite no_app. split; [exact W1|]. intros [X|[]]. discriminate.
          - change (closed (w :: w' :: ws)) with (w :: closed (w' :: ws)). destruct (IH H2). split; constructor; auto. }
        destruct C as [C1 C2]. split; constructor; auto.
        * split; [apply start_front|]. destruct (aFirst e) as [|x f] eqn:E.
          { apply tight_end; [discriminate|]. intros c s' X. apply one_last in X as <-. reflexivity. }
          change (quote :: x :: f) with ([quote] ++ (x :: f)). rewrite app_assoc. apply tight_end; [discriminate|apply Ft].
        * rewrite no_app, no_cons. split; [exact S0|]. split; [discriminate|exact F1].
    - split; constructor.
      + split; [apply start_front|]. destruct (aFirst e) as [|x f] eqn:E; [|apply tight_end; [discriminate|apply Ft]].
        rewrite app_nil_r. unfold start. rewrite (Hz eq_refl eq_refl). rewrite app_assoc. apply tight_end; [discriminate|].
        intros c s' X. apply one_last in X as <-. reflexivity.
      + eapply Forall_impl; [|exact Hm]. intros a [_ X]. exact X.
      + rewrite no_app. split; assumption.
      + eapply Forall_impl; [|exact Hm]. intros a [X _]. apply inert_no in X. tauto.
  Qed.
  Definition clause : bytes := start ++ (if aQuoted e then quote :: aValue e ++ [quote] else aValue e).
  Lemma start_equals : count_byte "=" start = 1.
  Proof.
    destruct He as ((Ki & Kt) & _ & G1 & G2 & _). apply inert_no in Ki as (_ & K2 & _). unfold start.
    change ("="%char :: aGap2 e) with (["="%char] ++ aGap2 e). rewrite !count_byte_app, (count_byte_no _ (aKey e)), (count_byte_no _ (aGap1 e)), (count_byte_no _ (aGap2 e)); [reflexivity|apply blank_no; auto..|exact K2].
  Qed.
  Lemma start_quotes : count_byte quote start = 0.
  Proof. apply count_byte_no, start_no; [discriminate|reflexivity|]. destruct He as ((Ki & _) & _). apply inert_no in Ki. tauto. Qed.
  Lemma entry_clauses cs : foreach (texts e) clause_step (cs, []) = Ok (cs ++ [clause], []).
  Proof.
    destruct texts_tight as [Tt _]. pose proof He as (_ & _ & _ & _ & (Fi & Ft) & Hm & _). apply inert_no in Fi as (F1 & F2 & F3 & F4).
    pose proof start_equals as SE. pose proof start_quotes as SQ.
    unfold texts, clause, aValue in *. fold start in Tt |- *. destruct (aQuoted e) eqn:Q.
    - destruct (aMore e) as [|w ws] eqn:M.
      + inversion Tt as [|? ? T1 _]; subst. cbn [foreach]. unfold clause_step, trim_space. rewrite (trim_tight _ _ T1).
        assert (C1 : count_byte quote (start ++ quote :: aFirst e ++ [quote]) = 2).
        { change (quote :: aFirst e ++ [quote]) with ([quote] ++ aFirst e ++ [quote]). rewrite !count_byte_app, SQ, (count_byte_no quote (aFirst e)) by exact F3. reflexivity. }
        assert (C2 : (count_byte "=" (start ++ quote :: aFirst e ++ [quote]) =? 0) = false) by (apply Nat.eqb_neq; rewrite count_byte_app, SE; lia).
        rewrite C1, C2. reflexivity.
      + inversion Tt as [|? ? T1 T2]; subst. cbn [foreach]. unfold clause_step at 1. rewrite (trimmed _ T1).
        change (quote :: aFirst e) with ([quote] ++ aFirst e). rewrite !count_byte_app, SQ, (count_byte_no quote (aFirst e)) by exact F3.
        change (count_byte quote [quote]) with 1. cbn [plus Nat.eqb orb bind app length Nat.ltb Nat.leb andb].
        assert (G : forall ws ins, ws <> [] -> ins <> [] -> Forall word ws -> Forall (tight is_space) (closed ws) ->
          foreach (closed ws) clause_step (cs, ins) = Ok (cs ++ [join (B ",") (ins ++ closed ws)], [])).
        { clear. induction ws as [|w ws IH]; intros ins Hn Hi Hw Ht; [congruence|]. inversion Hw as [|? ? [W1 W2] Hw']; subst. apply inert_no in W1 as (_ & W1 & W3 & _).
          assert (L : (0 <? length ins) = true) by (destruct ins; [congruence|reflexivity]).
          destruct ws as [|w' ws].
          - cbn [closed] in *. inversion Ht as [|? ? T1 _]; subst. cbn [foreach]. unfold clause_step, trim_space. rewrite (trim_tight _ _ T1).
            rewrite count_byte_app, (count_byte_no quote w) by exact W3. change (count_byte quote [quote]) with 1. cbn [plus Nat.eqb orb bind].
            match goal with |- context [1 <? ?n] => assert (L2 : (1 <? n) = true) end. { apply Nat.ltb_lt; rewrite app_length; destruct ins; [congruence|cbn; lia]. } rewrite L2. cbn [andb]. reflexivity.
          - change (closed (w :: w' :: ws)) with (w :: closed (w' :: ws)) in *. inversion Ht as [|? ? T1 T2]; subst. cbn [foreach].
            unfold clause_step at 1. rewrite (trimmed _ T1). rewrite (count_byte_no quote w) by exact W3. rewrite L. cbn [Nat.eqb orb bind andb].
            etransitivity; [apply IH; [discriminate|destruct ins; discriminate|exact Hw'|exact T2]|]. rewrite <- app_assoc. reflexivity. }
        etransitivity; [apply G; [discriminate|discriminate|exact Hm|exact T2]|]. cbn [app]. do 3 f_equal.
        assert (J : forall ws (a : bytes), ws <> [] -> join (B ",") (a :: closed ws) = a ++ [","%char] ++ join [","%char] ws ++ [quote]).
        { clear. induction ws as [|w ws IH]; intros a H; [congruence|]. destruct ws as [|w' ws]; [reflexivity|].
          change (closed (w :: w' :: ws)) with (w :: closed (w' :: ws)).
          change (join (B ",") (a :: w :: closed (w' :: ws))) with (a ++ [","%char] ++ join (B ",") (w :: closed (w' :: ws))).
          rewrite IH by discriminate. change (join [","%char] (w :: w' :: ws)) with (w ++ [","%char] ++ join [","%char] (w' :: ws)).
          rewrite !app_assoc. reflexivity. }
        rewrite J by discriminate. change (join [","%char] (aFirst e :: w :: ws)) with (aFirst e ++ [","%char] ++ join [","%char] (w :: ws)).
        rewrite <- !app_assoc. reflexivity.
    - inversion Tt as [|? ? T1 T2]; subst. cbn [foreach]. unfold clause_step at 1. rewrite (trimmed _ T1).
      rewrite !count_byte_app, SQ, SE, (count_byte_no quote (aFirst e)) by exact F3. cbn [plus Nat.eqb orb length Nat.ltb Nat.leb bind andb].
      assert (G : forall ws a, Forall word ws -> foreach ws clause_step (cs ++ [a], []) = Ok (cs ++ [a ++ concat (map (fun w => ","%char :: w) ws)], [])).
      { clear. induction ws as [|w ws IH]; intros a Hw; [cbn; rewrite app_nil_r; reflexivity|]. inversion Hw as [|? ? [W1 W2] Hw']; subst. apply inert_no in W1 as (_ & W1 & W3 & _).
        cbn [foreach]. unfold clause_step at 1. rewrite (trimmed _ W2), !count_byte_no by assumption. cbn [Nat.eqb orb length Nat.ltb Nat.leb bind andb].
        rewrite rev_app_distr. cbn [rev app bind]. rewrite rev_involutive, IH by assumption. cbn [map concat]. change (B ",") with [","%char]. rewrite <- !app_assoc. reflexivity. }
      rewrite G by exact Hm. do 3 f_equal. rewrite <- app_assoc. apply (f_equal (fun x => [start ++ x])). clear.
      generalize (aFirst e). induction (aMore e) as [|w ws IH]; intros a; [cbn; apply app_nil_r|].
      change (join [","%char] (a :: w :: ws)) with (a ++ [","%char] ++ join [","%char] (w :: ws)). rewrite <- IH. reflexivity.
  Qed.
  Lemma value_plain : no "="%char (aValue e) /\ no quote (aValue e) /\ tight is_space (aValue e).
  Proof.
    destruct He as (_ & _ & _ & _ & Hf & Hm & _). assert (H : Forall word (aFirst e :: aMore e)) by (constructor; assumption). unfold aValue.
    split; [|split]; [apply join_no; [discriminate|]| apply join_no; [discriminate|] |apply tight_join]; eapply Forall_impl; try exact H; intros a [X Y]; [apply inert_no in X; tauto..|exact Y].
  Qed.
  Lemma entry_assigned m : assign_step clause m = Ok ((aKey e, aValue e) :: m).
  Proof.
    destruct He as ((Ki & Kt) & Kn & G1 & G2 & _). apply inert_no in Ki as (K1 & K2 & K3 & K4). destruct value_plain as (V1 & V2 & V3).
    unfold assign_step, clause, start. rewrite <- !app_assoc. cbn [app]. rewrite app_assoc.
    rewrite split_cons. 2:{ rewrite in_app_iff. intros [X|X]; [exact (K2 X)|]. exact (blank_no "="%char _ G1 eq_refl X). }
    match goal with |- context [split "=" ?x] => assert (E : split "=" x = [x]) end.
    { apply split_none. rewrite in_app_iff. intros [X|X]; [exact (blank_no "="%char _ G2 eq_refl X)|]. destruct (aQuoted e); [|exact (V1 X)].
      destruct X as [X|X]; [discriminate|]. apply in_app_iff in X as [X|[X|[]]]; [exact (V1 X)|discriminate]. }
    rewrite E. cbn [map get nth_error bind].
    assert (Ek : trim_space (aKey e ++ aGap1 e) = aKey e) by (apply (trim_pad [] (aKey e)); [constructor|assumption|assumption]).
    rewrite Ek, trim_quotes_none by exact K3.
    destruct (aQuoted e).
    - rewrite <- (app_nil_r (quote :: aValue e ++ [quote])). rewrite trim_pad; [rewrite trim_quotes_wrap by exact V2; reflexivity|assumption|constructor|].
      change (quote :: aValue e ++ [quote]) with ([quote] ++ aValue e ++ [quote]). apply tight_app; try discriminate.
      + intros c s' X. inversion X; subst. reflexivity.
      + intros c s' X. apply one_last in X as <-. reflexivity.
    - rewrite <- (app_nil_r (aValue e)). rewrite trim_pad; [|assumption|constructor|assumption]. rewrite trim_quotes_none by exact V2. rewrite app_nil_r. reflexivity.
  Qed.
End Entry.

(** Padding does not count. *)
Lemma padded_clauses tt ts st : tt <> [] -> Forall (tight is_space) tt -> Forall (no ","%char) tt -> Forall2 padded tt ts ->
  foreach (split "," (trim_space (join [","%char] ts))) clause_step st = foreach tt clause_step st.
Proof.
  intros Hn Tt Tn Hp. apply clauses_trim. rewrite split_trimmed, split_join.
  - clear Tn Hn. revert Tt. induction Hp as [|t s ts' ss Hts Hp IH]; intros Tt; [reflexivity|]. inversion Tt; subst. cbn [map]. f_equal; auto.
    inversion Hts as [l t' r Hl Hr]; subst. rewrite trim_pad by assumption. symmetry. apply trimmed. assumption.
  - intros ->. inversion Hp; subst. congruence.
  - clear Tt Hn. revert Tn. induction Hp as [|t s ts' ss Hts Hp IH]; intros Tn; constructor; inversion Tn; subst; auto.
    inversion Hts as [l t' r Hl Hr]; subst. rewrite !in_app_iff. intros [X|[X|X]]; [exact (blank_no ","%char _ Hl eq_refl X)|contradiction|exact (blank_no ","%char _ Hr eq_refl X)].
Qed.
Lemma all_texts es : Forall entry_ok es -> Forall (tight is_space) (concat (map texts es)) /\ Forall (no ","%char) (concat (map texts es)).
Proof.
  induction 1 as [|e es H1 He [I1 I2]]; cbn [map concat]; [split; constructor|]. destruct (texts_tight e H1). rewrite !Forall_app. auto.
Qed.
Lemma all_clauses es : Forall entry_ok es -> forall cs, foreach (concat (map texts es)) clause_step (cs, []) = Ok (cs ++ map clause es, []).
Proof.
  induction 1 as [|e es H1 He IH]; intros cs; cbn [map concat]; [cbn; rewrite app_nil_r; reflexivity|]. rewrite foreach_app, entry_clauses by assumption.
  cbn [bind]. rewrite IH, <- app_assoc. reflexivity.
Qed.
Lemma all_assigned es : Forall entry_ok es -> forall m, foreach (map clause es) assign_step m = Ok (rev (map (fun e => (aKey e, aValue e)) es) ++ m).
Proof.
  induction 1 as [|e es H1 He IH]; intros m; [reflexivity|]. cbn [map foreach]. rewrite entry_assigned by assumption. cbn [bind]. rewrite IH. cbn [rev].
  rewrite <- app_assoc. reflexivity.
Qed.
Lemma texts_some e : texts e <> [].
Proof. unfold texts. destruct (aQuoted e); [destruct (aMore e)|]; discriminate. Qed.

(** ** C146.  The claim in full: a line of a forest file, as rf-ace writes it, is read as the keys and
    values it shows, wherever white space stands, with or without quotes, in any order; the nodes get
    the splitters their lines describe. *)
(** The keys with their values; of two entries with one key the map keeps the later one (it comes first here). *)
Theorem C146_line_partial : forall es line, es <> [] -> Forall entry_ok es -> line_of es line ->
  ParseLine line = Ok (rev (map (fun e => (aKey e, aValue e)) es)).
Proof.
  intros es line Hn He (ts & Hp & ->). unfold ParseLine. destruct (all_texts es He) as [Tt Tn].
  rewrite (padded_clauses (concat (map texts es))); auto.
  2:{ destruct es as [|e es]; [congruence|]. cbn [map concat]. pose proof (texts_some e). destruct (texts e); [congruence|discriminate]. }
  rewrite all_clauses by assumption. cbn [bind app]. rewrite all_assigned by assumption. rewrite app_nil_r. reflexivity.
Qed.
Print Assumptions C146_line_partial.

Definition says (es : list aentry) (key : string) (value : bytes) : Prop := exists e, In e es /\ aKey e = B key /\ aValue e = value.
Lemma says_lookup es key v : NoDup (map aKey es) -> says es key v -> lookup (B key) (rev (map (fun e => (aKey e, aValue e)) es)) = Some v.
Proof.
  intros Hd (e & He & <- & <-).
  assert (G : forall (m : strmap) k v, NoDup (map fst m) -> In (k, v) m -> lookup k m = Some v).
  { clear. induction m as [|[k' v'] m IH]; intros k v Hd H; [destruct H|destruct H as [E|H]].
    - injection E as -> ->. cbn [lookup]. rewrite bytes_eqb_refl. reflexivity.
    - cbn [map fst] in Hd. inversion Hd as [|? ? N1 N2]; subst. cbn [lookup]. destruct (bytes_eqb k k') eqn:Ek; [|apply IH; assumption].
      apply bytes_eqb_eq in Ek as ->. exfalso. apply N1. apply (in_map fst) in H. exact H. }
  apply G.
  - rewrite map_rev, map_map. apply NoDup_rev. exact Hd.
  - rewrite <- in_rev. apply (in_map (fun e => (aKey e, aValue e))). exact He.
Qed.
(** A line that describes a numerical split: name and threshold, whatever else it says. *)
Theorem C146_numerical_partial : forall PF es line name x v, Forall entry_ok es -> NoDup (map aKey es) -> line_of es line ->
  says es "SPLITTERTYPE" (B "NUMERICAL") -> says es "SPLITTER" name -> says es "LVALUES" x -> PF x = Some v ->
  exists m, ParseLine line = Ok m /\ node_splitter PF m = Some (mkSpl (T name) true v []).
Proof.
  intros PF es line name x v He Hd Hl S1 S2 S3 Hv. eexists. split; [apply C146_line_partial; [|exact He|exact Hl]|].
  { destruct S1 as (e & Hin & _). intros ->. destruct Hin. }
  apply (says_lookup _ _ _ Hd) in S1, S2, S3. unfold node_splitter, lookup0, pf0. rewrite S1, S2, S3, Hv. reflexivity.
Qed.
Print Assumptions C146_numerical_partial.
(** A line that describes a categorical split: the categories between the colons go left. *)
Theorem C146_categorical_partial : forall PF es line name cats, Forall entry_ok es -> NoDup (map aKey es) -> line_of es line ->
  says es "SPLITTERTYPE" (B "CATEGORICAL") -> says es "SPLITTER" name -> says es "LVALUES" (join [":"%char] cats) ->
  cats <> [] -> Forall (no ":"%char) cats ->
  exists m s, ParseLine line = Ok m /\ node_splitter PF m = Some s /\ sFeature s = T name /\ sNumerical s = false /\
    NoDup (sLeft s) /\ forall c, In c (sLeft s) <-> In (B c) cats.
Proof.
  intros PF es line name cats He Hd Hl S1 S2 S3 Hc Hn. do 2 eexists. split; [apply C146_line_partial; [|exact He|exact Hl]|].
  { destruct S1 as (e & Hin & _). intros ->. destruct Hin. }
  apply (says_lookup _ _ _ Hd) in S1, S2, S3. unfold node_splitter, lookup0. rewrite S1, S2, S3, split_join by assumption. split; [reflexivity|].
  cbn [sFeature sNumerical sLeft]. split; [reflexivity|]. split; [reflexivity|].
  assert (G : forall l m, NoDup m -> NoDup (fold_left add_key l m) /\ forall c, In c (fold_left add_key l m) <-> In c m \/ In c l).
  { clear. induction l as [|k l IH]; intros m Hm; cbn [fold_left]; [split; [exact Hm|cbn; tauto]|].
    assert (A : NoDup (add_key m k) /\ forall c, In c (add_key m k) <-> In c m \/ c = k).
    { unfold add_key. destruct (in_dec string_dec k m) as [Hi|Hi].
      - split; [exact Hm|]. intros c. split; [auto|intros [X| ->]; auto].
      - split; [|intros c; rewrite in_app_iff; cbn; intuition congruence].
        apply (Permutation_NoDup (Permutation_cons_append m k)). constructor; assumption. }
    destruct A as [A1 A2]. destruct (IH _ A1) as [I1 I2]. split; [exact I1|]. intros c. rewrite I2, A2. cbn. intuition congruence. }
  destruct (G (map T cats) [] (NoDup_nil _)) as [G1 G2]. split; [exact G1|]. intros c. rewrite G2. split.
  - intros [[]|H]. apply in_map_iff in H as (b & <- & H). rewrite BT. exact H.
  - intros H. right. apply in_map_iff. exists (B c). split; [apply TB|exact H].
Qed.
Print Assumptions C146_categorical_partial.

(** *** What is not read as it stands *)
(** A line whose first text has neither an equals sign nor a quote, such as a comment or a blank
    line, makes the reader panic. *)
Theorem C146_no_key_refuted : forall w rest, no ","%char w -> no "="%char w -> no quote w -> rest = [] \/ (exists r, rest = ","%char :: r) ->
  ParseLine (w ++ rest) = Panic.
Proof.
  intros w rest H1 H2 H3 Hr. unfold ParseLine.
  assert (E : exists ts, map trim_space (split "," (trim_space (w ++ rest))) = map trim_space (w :: ts)).
  { rewrite split_trimmed. destruct Hr as [->|(r & ->)]; [exists []; rewrite app_nil_r, split_none by exact H1|exists (split "," r); rewrite split_cons by exact H1]; reflexivity. }
  destruct E as (ts & E). rewrite (clauses_trim _ (w :: ts) _ E). cbn [foreach]. unfold clause_step at 1.
  assert (N : forall c, no c w -> no c (trim_space w)).
  { intros c Hc X. apply Hc. destruct (trim_left_front is_space w) as (a & _ & Ea). destruct (trim_left_front is_space (rev (trim_left is_space w))) as (b & _ & Eb).
    unfold trim_space, trim in X. rewrite <- in_rev in X. rewrite Ea. apply in_app_iff. right. rewrite in_rev, Eb. apply in_app_iff. right. exact X. }
  rewrite !count_byte_no by (apply N; assumption). reflexivity.
Qed.
Print Assumptions C146_no_key_refuted.
(** So a blank line anywhere in a forest file, before or inside a tree, ends the program. *)
Theorem C146_blank_line_refuted : forall PF s rest intree tree forest, blank s -> no nl s ->
  read_step PF (s ++ nl :: rest, intree, tree, forest) = Panic.
Proof.
  intros PF s rest intree tree forest Hs Hn. unfold read_step. pose proof (read_line_ok s rest Hn) as R.
  assert (P : ParseLine (s ++ [nl]) = Panic).
  { rewrite <- (app_nil_r (s ++ [nl])). assert (Bl : blank (s ++ [nl])) by (apply Forall_app; split; [exact Hs|repeat constructor]).
    apply C146_no_key_refuted; [apply blank_no; auto..|auto]. }
  destruct (s ++ nl :: rest) as [|c r] eqn:E; [destruct s; discriminate|].
  assert (Hc : is_space c = true) by (destruct s; injection E as <- _; [reflexivity|inversion Hs; assumption]).
  assert (Hf : Ascii.eqb c "T" || Ascii.eqb c "F" = false).
  { rewrite !eqb_neq_ascii; [reflexivity|intros ->; discriminate..]. }
  rewrite Hf, andb_false_r, R, P. reflexivity.
Qed.
Print Assumptions C146_blank_line_refuted.
(** A value with an equals sign is cut there, quoted or not. *)
Theorem C146_equals_refuted : forall key a b, word key -> key <> [] -> word a -> a <> [] -> word b -> b <> [] ->
  ParseLine (key ++ "="%char :: a ++ "="%char :: b) = Ok [(key, a)] /\
  ParseLine (key ++ "="%char :: quote :: a ++ "="%char :: b ++ [quote]) = Ok [(key, a)].
Proof.
  intros key a b [Ki Kt] Kn [Ai At] An [Bi Bt] Bn. apply inert_no in Ki as (K1 & K2 & K3 & K4). apply inert_no in Ai as (A1 & A2 & A3 & A4). apply inert_no in Bi as (B1 & B2 & B3 & B4).
  assert (G : forall a' b', no ","%char a' -> no ","%char b' -> no "="%char a' -> tight is_space (key ++ "="%char :: a' ++ "="%char :: b') ->
    (count_byte quote (a' ++ b') =? 1) = false -> no "="%char b' -> trim_quotes (trim_space a') = a ->
    ParseLine (key ++ "="%char :: a' ++ "="%char :: b') = Ok [(key, a)]).
  { intros a' b' H1 H2 H3 H4 H5 H6 H7. unfold ParseLine. rewrite (trimmed _ H4), split_none.
    2:{ rewrite in_app_iff. intros [X|[X|X]]; [exact (K1 X)|discriminate|]. apply in_app_iff in X as [X|[X|X]]; [exact (H1 X)|discriminate|exact (H2 X)]. }
    cbn [foreach]. unfold clause_step at 1. rewrite (trimmed _ H4).
    assert (Q : count_byte quote (key ++ "="%char :: a' ++ "="%char :: b') = count_byte quote (a' ++ b')).
    { change ("="%char :: a' ++ "="%char :: b') with (["="%char] ++ a' ++ ["="%char] ++ b'). rewrite !count_byte_app, (count_byte_no quote key) by exact K3. reflexivity. }
    assert (Z : (count_byte "=" (key ++ "="%char :: a' ++ "="%char :: b') =? 0) = false).
    { apply Nat.eqb_neq. change ("="%char :: a' ++ "="%char :: b') with (["="%char] ++ a' ++ ["="%char] ++ b'). rewrite !count_byte_app. change (count_byte "=" ["="%char]) with 1. lia. }
    rewrite Q, Z, H5. cbn [orb length Nat.ltb Nat.leb bind andb app foreach]. unfold assign_step. rewrite split_cons by exact K2. rewrite split_cons by exact H3.
    rewrite split_none by exact H6. cbn [map get nth_error bind]. rewrite H7, (trimmed key Kt), trim_quotes_none by exact K3. reflexivity. }
  split.
  - apply G; auto.
    + split; [apply tight_start; [exact Kn|apply Kt]|]. change (key ++ "="%char :: a ++ "="%char :: b) with (key ++ ["="%char] ++ a ++ ["="%char] ++ b). rewrite !app_assoc. apply tight_end; [exact Bn|apply Bt].
    + rewrite count_byte_app, !count_byte_no by assumption. reflexivity.
    + rewrite (trimmed a At). apply trim_quotes_none. exact A3.
  - apply (G (quote :: a) (b ++ [quote])).
    + rewrite no_cons. split; [discriminate|exact A1].
    + rewrite no_app. split; [exact B1|intros [X|[]]; discriminate].
    + rewrite no_cons. split; [discriminate|exact A2].
    + split; [apply tight_start; [exact Kn|apply Kt]|].
      change (key ++ "="%char :: (quote :: a) ++ "="%char :: b ++ [quote]) with (key ++ ["="%char] ++ (quote :: a) ++ ["="%char] ++ b ++ [quote]). rewrite !app_assoc. apply tight_end; [discriminate|].
      intros c s' X. apply one_last in X as <-. reflexivity.
    + change (quote :: a) with ([quote] ++ a). rewrite !count_byte_app, !(count_byte_no quote a), !(count_byte_no quote b) by assumption. reflexivity.
    + rewrite no_app. split; [exact B2|intros [X|[]]; discriminate].
    + assert (Tq : tight is_space (quote :: a)).
      { split; [intros c s' X; injection X as <- _; reflexivity|]. change (quote :: a) with ([quote] ++ a). apply tight_end; [exact An|apply At]. }
      rewrite (trimmed _ Tq). apply (trim_around (fun c => Ascii.eqb c quote) [quote] a []) in An as X; [rewrite app_nil_r in X; exact X|repeat constructor|constructor|].
      split; [intros c s' ->; apply eqb_neq_ascii; intros ->; apply A3; left; reflexivity|intros c s' ->; apply eqb_neq_ascii; intros ->; apply A3; apply in_app_iff; right; left; reflexivity].
Qed.
Print Assumptions C146_equals_refuted.
(** A quote that is not closed takes the rest of the line with it, without an error. *)
Theorem C146_open_quote_refuted : forall es e ts, Forall entry_ok es -> entry_ok e ->
  Forall2 padded (concat (map texts es) ++ (aKey e ++ aGap1 e ++ "="%char :: aGap2 e ++ quote :: aFirst e) :: aMore e) ts ->
  ParseLine (join [","%char] ts) = Ok (rev (map (fun e => (aKey e, aValue e)) es)).
Proof.
  intros es e ts He Ho Hp. unfold ParseLine. set (open := aKey e ++ aGap1 e ++ "="%char :: aGap2 e ++ quote :: aFirst e) in *.
  destruct (all_texts es He) as [Tt Tn]. pose proof Ho as ((Ki & Kt) & Kn & G1 & G2 & (Fi & Ft) & Hm & _).
  apply inert_no in Ki as (K1 & K2 & K3 & K4). apply inert_no in Fi as (F1 & F2 & F3 & F4).
  assert (O1 : tight is_space open).
  { unfold open. split; [apply tight_start; [exact Kn|apply Kt]|]. change ("="%char :: aGap2 e ++ quote :: aFirst e) with (("="%char :: aGap2 e) ++ quote :: aFirst e). rewrite !app_assoc.
    destruct (aFirst e) as [|x f]; [apply tight_end; [discriminate|]; intros c s' X; apply one_last in X as <-; reflexivity|].
    change (quote :: x :: f) with ([quote] ++ (x :: f)). rewrite app_assoc. apply tight_end; [discriminate|apply Ft]. }
  assert (O2 : no ","%char open).
  { unfold open. rewrite !no_app, no_cons, no_app, no_cons. repeat split; auto; try discriminate; apply blank_no; auto. }
  assert (O3 : count_byte quote open = 1).
  { unfold open. change ("="%char :: aGap2 e ++ quote :: aFirst e) with (["="%char] ++ aGap2 e ++ [quote] ++ aFirst e). rewrite !count_byte_app.
    rewrite (count_byte_no quote (aKey e)), (count_byte_no quote (aGap1 e)), (count_byte_no quote (aGap2 e)), (count_byte_no quote (aFirst e)); [reflexivity|assumption|apply blank_no; auto..|assumption]. }
  rewrite (padded_clauses (concat (map texts es) ++ open :: aMore e)); auto.
  2:{ destruct (concat (map texts es)); discriminate. }
  2:{ apply Forall_app. split; [exact Tt|]. constructor; [exact O1|]. eapply Forall_impl; [|exact Hm]. intros a [_ X]. exact X. }
  2:{ apply Forall_app. split; [exact Tn|]. constructor; [exact O2|]. eapply Forall_impl; [|exact Hm]. intros a [X _]. apply inert_no in X. tauto. }
  rewrite foreach_app, all_clauses by assumption. cbn [bind app foreach]. unfold clause_step at 1. rewrite (trimmed _ O1), O3. cbn [Nat.eqb orb bind app length Nat.ltb Nat.leb andb].
  assert (G : forall ws ins, ins <> [] -> Forall word ws -> foreach ws clause_step (map clause es, ins) = Ok (map clause es, ins ++ ws)).
  { clear. induction ws as [|w ws IH]; intros ins Hi Hw; [cbn; rewrite app_nil_r; reflexivity|]. inversion Hw as [|? ? [W1 W2] Hw']; subst. apply inert_no in W1 as (_ & _ & W3 & _).
    cbn [foreach]. unfold clause_step at 1. rewrite (trimmed _ W2), (count_byte_no quote w) by exact W3.
    assert (L : (0 <? length ins) = true) by (destruct ins; [congruence|reflexivity]). rewrite L. cbn [Nat.eqb orb bind andb].
    etransitivity; [apply IH; [destruct ins; discriminate|exact Hw']|]. rewrite <- app_assoc. reflexivity. }
  etransitivity; [rewrite G; [reflexivity|discriminate|exact Hm]|]. cbn [bind]. rewrite all_assigned by assumption. rewrite app_nil_r. reflexivity.
Qed.
Print Assumptions C146_open_quote_refuted.

(** *** Cases that meet the hypotheses *)
Definition ace_entries : list aentry :=
  [ mkA (B "NODE") [] [] false (B "*L") [];
    mkA (B "LVALUES") [" "%char] [" "%char] true (B "a:b") [];
    mkA (B "RVALUES") [] [" "%char] true (B "c") [B "d"; B "e"];
    mkA (B "SPLITTERTYPE") [] [] false (B "CATEGORICAL") [];
    mkA (B "SPLITTER") [" "%char] [] true (B "C:x") [];
    mkA (B "NOTE") [] [] false (B "one") [B "two"] ].
Definition ace_line : bytes := B " NODE=*L , LVALUES = ""a:b"",RVALUES= ""c, d ,e"" ,SPLITTERTYPE=CATEGORICAL,SPLITTER =""C:x"", NOTE=one,two ".
Lemma word_check s : forallb (fun c => negb (Ascii.eqb c "," || Ascii.eqb c "=" || Ascii.eqb c quote || Ascii.eqb c nl || is_space c)) s = true -> word s.
Proof.
  intros H. rewrite forallb_forall in H.
  assert (G : forall c, In c s -> (c <> ","%char /\ c <> "="%char /\ c <> quote /\ c <> nl) /\ is_space c = false).
  { intros c Hc. specialize (H c Hc). apply negb_true_iff in H. apply orb_false_iff in H as [H H5]. apply orb_false_iff in H as [H H4].
    apply orb_false_iff in H as [H H3]. apply orb_false_iff in H as [H1 H2]. apply Ascii.eqb_neq in H1, H2, H3, H4. auto. }
  split; [apply Forall_forall; intros c Hc; apply G; exact Hc|]. split; intros c s' ->; apply G; [left; reflexivity|apply in_app_iff; right; left; reflexivity].
Qed.
Lemma ace_ok : Forall entry_ok ace_entries.
Proof.
  unfold ace_entries, entry_ok.
  repeat match goal with
  | |- word _ => apply word_check; reflexivity
  | |- blank _ => repeat constructor
  | |- Forall _ _ => constructor
  | |- _ /\ _ => split
  end; cbn [aKey aGap1 aGap2 aQuoted aFirst aMore]; try discriminate; auto.
Qed.
Lemma ace_line_of : line_of ace_entries ace_line.
Proof.
  exists (split "," ace_line). split; [|vm_compute; reflexivity].
  assert (P : forall t l r, blank l -> blank r -> forall s, s = l ++ t ++ r -> padded t s) by (intros ? ? ? ? ? ? ->; constructor; assumption).
  vm_compute split. vm_compute concat.
  repeat (constructor; [first [apply (P _ [] []); [repeat constructor..|reflexivity] | apply (P _ [" "%char] []); [repeat constructor..|reflexivity]
    | apply (P _ [] [" "%char]); [repeat constructor..|reflexivity] | apply (P _ [" "%char] [" "%char]); [repeat constructor..|reflexivity]]|]).
  constructor.
Qed.
Example C146_ex_line : ParseLine ace_line = Ok (rev (map (fun e => (aKey e, aValue e)) ace_entries)) /\ aValue (nth 2 ace_entries (nth 0 ace_entries (mkA [] [] [] false [] []))) = B "c,d,e".
Proof. split; [apply C146_line_partial; [discriminate|exact ace_ok|exact ace_line_of]|reflexivity]. Qed.
Example C146_ex_node : forall PF, exists m s, ParseLine ace_line = Ok m /\ node_splitter PF m = Some s /\ sFeature s = "C:x"%string /\ sNumerical s = false /\
  NoDup (sLeft s) /\ forall c, In c (sLeft s) <-> In (B c) [B "a"; B "b"].
Proof.
  intros PF. apply (C146_categorical_partial PF ace_entries ace_line (B "C:x")).
  - exact ace_ok.
  - repeat (constructor; [intros X; cbn in X; repeat (destruct X as [X|X]; [discriminate X|]); exact X|]). constructor.
  - exact ace_line_of.
  - exists (nth 3 ace_entries (mkA [] [] [] false [] [])). repeat split. cbn. tauto.
  - exists (nth 4 ace_entries (mkA [] [] [] false [] [])). repeat split. cbn. tauto.
  - exists (nth 1 ace_entries (mkA [] [] [] false [] [])). repeat split. cbn. tauto.
  - discriminate.
  - repeat constructor; intros X; cbn in X; repeat (destruct X as [X|X]; [discriminate X|]); exact X.
Qed.
Definition ace_number : list aentry :=
  [ mkA (B "RVALUES") [] [] false (B "7") []; mkA (B "SPLITTERTYPE") [] [] false (B "NUMERICAL") []; mkA (B "LVALUES") [] [] false (B "2.5") [];
    mkA (B "SPLITTER") [] [] true (B "N:y") [] ].
Example C146_ex_number : forall PF v, PF (B "2.5") = Some v ->
  exists m, ParseLine (B "RVALUES=7,SPLITTERTYPE=NUMERICAL,LVALUES=2.5,SPLITTER=""N:y""") = Ok m /\ node_splitter PF m = Some (mkSpl "N:y" true v []).
Proof.
  intros PF v Hv. apply (C146_numerical_partial PF ace_number _ (B "N:y") (B "2.5") v); auto.
  - unfold ace_number, entry_ok.
    repeat match goal with
    | |- word _ => apply word_check; reflexivity
    | |- blank _ => repeat constructor
    | |- Forall _ _ => constructor
    | |- _ /\ _ => split
    end; cbn [aKey aGap1 aGap2 aQuoted aFirst aMore]; try discriminate; auto.
  - repeat (constructor; [intros X; cbn in X; repeat (destruct X as [X|X]; [discriminate X|]); exact X|]). constructor.
  - exists (concat (map texts ace_number)). split; [|reflexivity].
    induction (concat (map texts ace_number)) as [|t ts IH]; constructor; [|exact IH]. rewrite <- (app_nil_r t) at 2. apply (pad [] t []); constructor.
  - exists (nth 1 ace_number (mkA [] [] [] false [] [])). repeat split. cbn. tauto.
  - exists (nth 3 ace_number (mkA [] [] [] false [] [])). repeat split. cbn. tauto.
  - exists (nth 2 ace_number (mkA [] [] [] false [] [])). repeat split. cbn. tauto.
Qed.
Example C146_ex_cut : ParseLine (B "SPLITTER=""N:a=b""") = Ok [(B "SPLITTER", B "N:a")] /\ ParseLine (B "# written by rf-ace") = Panic /\
  ParseLine (B "NODE=*,SPLITTER=""N:a,PRED=3") = Ok [(B "NODE", B "*")].
Proof. repeat split. Qed.
Example C146_ex_blank : forall PF, read_step PF (B " " ++ nl :: B "NODE=*", true, None, None) = Panic.
Proof. intros PF. apply C146_blank_line_refuted; [repeat constructor|intros [X|[]]; discriminate]. Qed.
