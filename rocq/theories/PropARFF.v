(** C102: ARFF files. *)
From Verif Require Import Go GoLemmas F64 ModelFeature FeatureSpec ModelSample FeatureProofs ModelText TextProofs ModelMatrix MatrixSpec MatrixProofs PropMatrix ModelExport.
Local Open Scope string_scope.
Local Open Scope nat_scope.
Local Open Scope list_scope.

(** ** CSV records *)
Definition esc (f : bytes) : bytes := flat_map (fun c => if Ascii.eqb c quote then [quote; quote] else [c]) f.
Section CSV.
  Variable comma : ascii.
  Hypothesis Hcq : comma <> quote.
  Hypothesis Hcn : comma <> nl.
  Lemma scan_esc : forall f rest cur acc, csv_scan comma (esc f ++ quote :: rest) CQuoted cur acc = csv_scan comma rest CQuote (cur ++ f) acc.
  Proof.
    induction f as [|c f IH]; intros rest cur acc; [rewrite app_nil_r; cbn [esc flat_map app csv_scan]; rewrite Ascii.eqb_refl; reflexivity|].
    unfold esc. cbn [flat_map]. fold (esc f). destruct (Ascii.eqb_spec c quote) as [->|Hc].
    - change (([quote; quote] ++ esc f) ++ quote :: rest) with (quote :: quote :: (esc f ++ quote :: rest)).
      cbn [csv_scan]. rewrite Ascii.eqb_refl. rewrite (eqb_neq_ascii quote comma) by congruence.
      replace (Ascii.eqb quote nl) with false by reflexivity. rewrite IH, <- app_assoc. reflexivity.
    - change (([c] ++ esc f) ++ quote :: rest) with (c :: (esc f ++ quote :: rest)).
      cbn [csv_scan]. rewrite (eqb_neq_ascii c quote) by auto. rewrite IH, <- app_assoc. reflexivity.
  Qed.
  Lemma scan_plain : forall f rest cur acc, Forall (fun c => c <> comma /\ c <> quote /\ c <> nl) f ->
    csv_scan comma (f ++ rest) CPlain cur acc = csv_scan comma rest CPlain (cur ++ f) acc.
  Proof.
    induction f as [|c f IH]; intros rest cur acc H; [rewrite app_nil_r; reflexivity|].
    apply Forall_cons_iff in H as [(A & C & D) H]. cbn [app csv_scan].
    rewrite (eqb_neq_ascii c comma), (eqb_neq_ascii c quote), (eqb_neq_ascii c nl) by auto. rewrite IH by auto. rewrite <- app_assoc. reflexivity.
  Qed.
  Lemma plain_field f : needs_quotes comma f = false -> Forall (fun c => c <> comma /\ c <> quote /\ c <> nl /\ c <> cr) f.
  Proof.
    destruct f as [|c f]; [constructor|]. unfold needs_quotes. intros H. apply orb_false_elim in H as [_ H].
    apply Forall_forall. intros x Hx. destruct (existsb_exists (fun c => Ascii.eqb c comma || Ascii.eqb c quote || Ascii.eqb c cr || Ascii.eqb c nl) (c :: f)) as [_ X].
    assert (N : Ascii.eqb x comma || Ascii.eqb x quote || Ascii.eqb x cr || Ascii.eqb x nl = false).
    { destruct (_ || Ascii.eqb x nl) eqn:E; auto. rewrite X in H; [discriminate|]. exists x. auto. }
    repeat (apply orb_false_elim in N as [N ?]). repeat split; intros ->; rewrite Ascii.eqb_refl in *; discriminate.
  Qed.
  (** What follows a field: the end of the field *)
  Definition scan_rest (rest : bytes) (acc : list bytes) : option (list bytes * bytes) :=
    match rest with
    | c :: r => if Ascii.eqb c comma then csv_scan comma r CStart [] acc else Some (acc, r)
    | [] => Some (acc, [])
    end.
  Lemma scan_field f rest acc : (exists c r, rest = c :: r /\ (c = comma \/ c = nl)) ->
    csv_scan comma (csv_field comma f ++ rest) CStart [] acc = scan_rest rest (acc ++ [f]).
  Proof.
    intros (c & r & -> & Hc). unfold csv_field. destruct (needs_quotes comma f) eqn:Nq.
    - unfold csv_quoted. fold (esc f). rewrite <- app_comm_cons, <- app_assoc. cbn [app csv_scan].
      rewrite (eqb_neq_ascii quote comma) by congruence. replace (Ascii.eqb quote nl) with false by reflexivity. rewrite Ascii.eqb_refl.
      rewrite scan_esc. cbn [app csv_scan scan_rest]. destruct Hc as [-> | ->]; rewrite ?Ascii.eqb_refl; auto; rewrite (eqb_neq_ascii nl comma) by congruence; reflexivity.
    - apply plain_field in Nq. destruct f as [|a f].
      + cbn [app csv_scan scan_rest]. destruct Hc as [-> | ->]; rewrite ?Ascii.eqb_refl; auto; rewrite (eqb_neq_ascii nl comma) by congruence; reflexivity.
      + apply Forall_cons_iff in Nq as [(A & C & D & _) H]. cbn [app csv_scan].
        rewrite (eqb_neq_ascii a comma), (eqb_neq_ascii a quote), (eqb_neq_ascii a nl) by auto.
        rewrite scan_plain by (eapply Forall_impl; [|exact H]; cbn; tauto). cbn [app csv_scan scan_rest].
        destruct Hc as [-> | ->]; rewrite ?Ascii.eqb_refl; auto; rewrite (eqb_neq_ascii nl comma) by congruence; reflexivity.
  Qed.
  Lemma scan_record : forall fs rest acc, fs <> [] -> csv_scan comma (csv_write comma fs ++ rest) CStart [] acc = Some (acc ++ fs, rest).
  Proof.
    unfold csv_write. induction fs as [|f fs IH]; intros rest acc Hne; [congruence|]. destruct fs as [|g fs].
    - cbn [map join]. rewrite <- app_assoc. rewrite scan_field by (cbn; eauto). cbn [app scan_rest]. rewrite (eqb_neq_ascii nl comma) by congruence. reflexivity.
    - cbn [map join] in IH |- *. rewrite <- !app_assoc. rewrite scan_field by (cbn; eauto). cbn [app scan_rest]. rewrite Ascii.eqb_refl.
      specialize (IH rest (acc ++ [f]) ltac:(discriminate)). rewrite <- app_assoc in IH. cbn [app] in IH. cbn [join] in IH. rewrite IH, <- app_assoc. reflexivity.
  Qed.
  Lemma field_no_nl f : no nl f -> no nl (csv_field comma f).
  Proof.
    intros H. unfold csv_field. destruct (needs_quotes comma f); auto. unfold csv_quoted. fold (esc f).
    intros [X|X]; [discriminate|]. apply in_app_or in X as [X|[X|[]]]; [|discriminate]. unfold esc in X. apply in_flat_map in X as (c & Hc & X).
    destruct (Ascii.eqb c quote); [destruct X as [X|[X|[]]]; discriminate|]. destruct X as [->|[]]. auto.
  Qed.
  Lemma last_app_ne {A} : forall (a b : list A) d, b <> [] -> last (a ++ b) d = last b d.
  Proof.
    induction a as [|x a IH]; intros b d H; auto. cbn [app]. rewrite <- (IH b d H). destruct (a ++ b) eqn:E; auto.
    apply app_eq_nil in E as [_ E]. congruence.
  Qed.
  Lemma field_last f : last (csv_field comma f) quote <> cr.
  Proof.
    unfold csv_field. destruct (needs_quotes comma f) eqn:Nq.
    - unfold csv_quoted. rewrite app_comm_cons, last_app_ne by discriminate. discriminate.
    - apply plain_field in Nq. destruct f as [|a f] using rev_ind; [discriminate|]. rewrite last_app_ne by discriminate. cbn.
      apply Forall_app in Nq as [_ Nq]. apply Forall_inv in Nq. tauto.
  Qed.
  Lemma join_last : forall fs, last (join [comma] (map (csv_field comma) fs)) quote <> cr \/ last (join [comma] (map (csv_field comma) fs)) quote = comma.
  Proof.
    induction fs as [|f fs IH]; [left; discriminate|]. destruct fs as [|g fs]; [left; apply field_last|].
    cbn [map join] in IH |- *. rewrite last_app_ne by discriminate.
    destruct (list_eq_dec ascii_dec (join [comma] (csv_field comma g :: map (csv_field comma) fs)) []) as [E|E].
    - cbn [join] in E. rewrite E. right. reflexivity.
    - cbn [join] in E. rewrite last_app_ne by exact E. exact IH.
  Qed.
End CSV.
Lemma unix_line : forall s b, no nl s -> last s quote <> cr -> unix (s ++ nl :: b) = s ++ nl :: unix b.
Proof.
  induction s as [|c s IH]; intros b Hn Hl.
  - cbn [app unix]. destruct b as [|d b]; [reflexivity|]. reflexivity.
  - apply no_cons in Hn as [Hc Hn]. cbn [app]. destruct s as [|d s].
    + cbn [app unix]. cbn [last] in Hl. rewrite (eqb_neq_ascii c cr) by auto. cbn [andb]. f_equal. apply (IH b); [intros []|discriminate].
    + cbn [app unix]. assert (Hd : d <> nl) by (intros ->; apply Hn; left; auto). rewrite (eqb_neq_ascii d nl) by auto. rewrite andb_false_r. f_equal.
      apply (IH b Hn). exact Hl.
Qed.
Lemma unix_rows rows : Forall (Forall (no nl)) rows -> unix (concat (map (csv_write ",") rows)) = concat (map (csv_write ",") rows).
Proof.
  induction rows as [|r rows IH]; intros H; [reflexivity|]. apply Forall_cons_iff in H as [Hr H]. cbn [map concat].
  unfold csv_write at 1 3. rewrite <- !app_assoc. cbn [app]. rewrite unix_line.
  - f_equal. f_equal. auto.
  - apply join_no; [intros [X|[]]; discriminate|]. apply Forall_forall. intros x Hx. apply in_map_iff in Hx as (f & <- & Hf).
    apply field_no_nl. rewrite Forall_forall in Hr. auto.
  - destruct (join_last "," r) as [E|E]; [exact E|rewrite E; discriminate].
Qed.

(** ** Words *)
Lemma fields_word : forall w c s acc, Forall (fun x => is_space x = false) w -> is_space c = true -> acc ++ w <> [] ->
  fields_from (w ++ c :: s) acc = (acc ++ w) :: fields_from s [].
Proof.
  induction w as [|a w IH]; intros c s acc H Hc Hne.
  - rewrite app_nil_r in *. cbn [app fields_from]. rewrite Hc. destruct acc; [congruence|]. reflexivity.
  - apply Forall_cons_iff in H as [Ha H]. cbn [app fields_from]. rewrite Ha. rewrite IH; auto.
    + rewrite <- app_assoc. reflexivity.
    + intros X. apply app_eq_nil in X as [X _]. apply app_eq_nil in X as [_ X]. discriminate.
Qed.
Lemma fields_grow : forall s a w, exists w' rest, fields_from s (a :: w) = (a :: w ++ w') :: rest.
Proof.
  induction s as [|c s IH]; intros a w; cbn [fields_from].
  - exists [], []. rewrite app_nil_r. reflexivity.
  - destruct (is_space c); [exists [], (fields_from s []); rewrite app_nil_r; reflexivity|].
    destruct (IH a (w ++ [c])) as (w' & rest & E). cbn [app]. rewrite E. exists (c :: w'), rest. rewrite <- app_assoc. reflexivity.
Qed.

(** ** Specification *)
(** A name in one word *)
Definition one_word (s : string) : Prop := s <> "" /\ Forall (fun c => is_space c = false) (B s).
(** A cell that its text gives back *)
Definition arff_value_ok (PF : string -> option f64) (fmtF : f64 -> string) (v : value) : Prop :=
  match v with
  | VMissing => True
  | VNum x => PF (fmtF x) = Some x /\ no nl (B (fmtF x)) /\ fmtF x <> ""
  | VCat s => ~ is_token s
  end.
(** The text of a value starts a comment *)
Definition like_comment (fmtF : f64 -> string) (v : value) : Prop :=
  match v with VMissing => False | VNum x => starts "%" (fmtF x) | VCat s => starts "%" s end.
Definition categories (f : feature) : list string := match f with FNum _ => [] | FCat f => cmBack (cMap f) end.

Section ARFF.
  Variable PF : string -> option f64.
  Variable itoa : nat -> string.
  Variable fmtF : f64 -> string.

  Definition arff_text (f : feature) (c : nat) : string :=
    match value_at f c with Some (VNum x) => fmtF x | Some (VCat s) => s | _ => "?" end.
  Lemma arff_cell_eq f c v : value_at f c = Some v -> arff_cell fmtF c f = Ok (arff_text f c).
  Proof.
    intros H. unfold arff_cell. pose proof (fGetStr_ok fmtF f c v H) as G. unfold cell_text in G. unfold arff_text. rewrite H in *.
    assert (M : fIsMissing f c = Ok (match v with VMissing => true | _ => false end)).
    { revert H. unfold value_at, fIsMissing, nIsMissing, cIsMissing, get. destruct f as [g|g].
      - destruct (nth_error (nMissing g) c) as [[]|]; try discriminate; destruct (nth_error (nData g) c); try discriminate;
          intros E; inversion E; reflexivity.
      - destruct (nth_error (cMissing g) c) as [[]|]; try discriminate; destruct (nth_error (cData g) c) as [k|]; try discriminate; intros E.
        + inversion E; reflexivity.
        + destruct (nth_error (cmBack (cMap g)) k); inversion E; reflexivity. }
    rewrite M. cbn [bind]. destruct v; auto.
  Qed.
  Lemma arff_row_eq data c : (forall f, In f data -> exists v, value_at f c = Some v) ->
    arff_row fmtF data c = Ok (map (fun f => arff_text f c) data).
  Proof.
    intros H. unfold arff_row. rewrite (foreach_map (arff_cell fmtF c) (fun f => arff_text f c)); [reflexivity|].
    intros f Hf. destruct (H f Hf) as [v Hv]. eapply arff_cell_eq; eauto.
  Qed.
  Lemma WriteArff_eq fm cases relation : (forall f c, In f (fmData fm) -> In c cases -> exists v, value_at f c = Some v) ->
    WriteArffCases fmtF fm cases relation =
    Ok (arff_head relation (fmData fm) ++ concat (map (csv_write ",") (map (fun c => map B (map (fun f => arff_text f c) (fmData fm))) cases))).
  Proof.
    intros H. unfold WriteArffCases. generalize (arff_head relation (fmData fm)). induction cases as [|c cases IH]; intros out; cbn [foreach map concat].
    - rewrite app_nil_r. reflexivity.
    - rewrite arff_row_eq by (intros f Hf; apply H; [auto|left; auto]). cbn [bind]. rewrite IH by (intros; apply H; [auto|right; auto]).
      rewrite <- app_assoc. reflexivity.
  Qed.

  (** *** The head *)
  Definition newA (f : feature) : feature := if is_numerical f then newNum (fName f) else newCat (fName f).
  Definition att_line (f : feature) : bytes := B "@ATTRIBUTE " ++ B (fName f) ++ B " " ++ B (arff_type f) ++ [nl].
  Lemma join_no' c ws : no c (B ",") -> Forall (no c) ws -> no c (join (B ",") ws).
  Proof. apply join_no. Qed.
  Lemma B_app a b : B (a ++ b) = B a ++ B b.
  Proof. unfold B. induction a; cbn; auto. f_equal. auto. Qed.
  Lemma space_nl w : Forall (fun c => is_space c = false) w -> no nl w.
  Proof. intros H X. rewrite Forall_forall in H. apply H in X. discriminate. Qed.
  Lemma att_line_no f : one_word (fName f) -> Forall (fun s => no nl (B s)) (categories f) ->
    exists l, att_line f = l ++ [nl] /\ no nl l.
  Proof.
    intros [_ Hw] Hc. exists (B "@ATTRIBUTE " ++ B (fName f) ++ B " " ++ B (arff_type f)). split; [unfold att_line; rewrite <- !app_assoc; reflexivity|].
    rewrite !no_app. repeat split.
    - intros X. cbn in X. intuition discriminate.
    - apply space_nl. exact Hw.
    - intros X. cbn in X. intuition discriminate.
    - destruct f as [f|f]; cbn [arff_type].
      + intros X. cbn in X. intuition discriminate.
      + rewrite !B_app, BT, !no_app. repeat split; try (intros X; cbn in X; intuition discriminate).
        apply join_no'; [intros X; cbn in X; intuition discriminate|]. apply Forall_map. exact Hc.
  Qed.
  Lemma att_fields f : one_word (fName f) -> exists w rest, fields (att_line f) = B "@ATTRIBUTE" :: B (fName f) :: w :: rest /\
    ((ToLower (T w) =? "numeric")%string || (ToLower (T w) =? "real")%string = is_numerical f).
  Proof.
    intros [Hne Hw]. unfold fields, att_line.
    assert (Hne' : B (fName f) <> []) by (destruct (fName f); [congruence|discriminate]).
    change (B "@ATTRIBUTE " ++ B (fName f) ++ B " " ++ B (arff_type f) ++ [nl]) with (B "@ATTRIBUTE" ++ " "%char :: (B (fName f) ++ " "%char :: (B (arff_type f) ++ [nl]))).
    rewrite fields_word; [|repeat constructor|reflexivity|discriminate]. rewrite fields_word; [|exact Hw|reflexivity|exact Hne']. cbn [app].
    destruct f as [f|f]; cbn [arff_type].
    - exists (B "NUMERIC"), []. split; reflexivity.
    - rewrite B_app. change (B "{") with ["{"%char]. cbn [app fields_from]. change (is_space "{") with false. cbn [app].
      destruct (fields_grow (B (T (join (B ",") (map B (cmBack (cMap f)))) ++ "}") ++ [nl]) "{" []) as (w & rest & E). rewrite E.
      exists ("{"%char :: w), rest. split; reflexivity.
  Qed.
  Lemma arff_step fuel f rest data lookup : one_word (fName f) -> Forall (fun s => no nl (B s)) (categories f) ->
    arff_attributes (S fuel) (att_line f ++ rest) data lookup = arff_attributes fuel rest (data ++ [newA f]) ((fName f, length data) :: lookup).
  Proof.
    intros Hw Hc. destruct (att_line_no f Hw Hc) as (l & El & Hl). destruct (att_fields f Hw) as (w & ws & Ef & Ek).
    cbn [arff_attributes]. rewrite El at 1. rewrite <- app_assoc. cbn [app]. rewrite (read_line_ok l rest Hl).
    assert (H1 : forall p x, B (ToLower (T (B p ++ x))) = B (ToLower p) ++ B (ToLower (T x))).
    { clear. intros p x. unfold B, T. induction p as [|c p IH]; [reflexivity|]. cbn. f_equal. exact IH. }
    rewrite <- El. unfold att_line. rewrite H1. cbn [has_prefix]. fold (att_line f).
    change (B "@ATTRIBUTE " ++ B (fName f) ++ B " " ++ B (arff_type f) ++ [nl]) with (att_line f).
    replace (has_prefix (B "@data") (B (ToLower "@ATTRIBUTE ") ++ B (ToLower (T (B (fName f) ++ B " " ++ B (arff_type f) ++ [nl]))))) with false by reflexivity.
    replace (has_prefix (B "@attribute") (B (ToLower "@ATTRIBUTE ") ++ B (ToLower (T (B (fName f) ++ B " " ++ B (arff_type f) ++ [nl]))))) with true by reflexivity.
    rewrite Ef. cbn [map get nth_error bind]. rewrite Ek, TB. reflexivity.
  Qed.
  Lemma arff_lines : forall fs fuel rest data lookup,
    Forall (fun f => one_word (fName f) /\ Forall (fun s => no nl (B s)) (categories f)) fs -> lookup = table_of data ->
    arff_attributes (length fs + fuel) (flat_map att_line fs ++ rest) data lookup =
    arff_attributes fuel rest (data ++ map newA fs) (table_of (data ++ map newA fs)).
  Proof.
    induction fs as [|f fs IH]; intros fuel rest data lookup H E; cbn [length flat_map map].
    - rewrite app_nil_r, E. reflexivity.
    - apply Forall_cons_iff in H as [[Hw Hc] H]. rewrite <- app_assoc. cbn [Nat.add]. rewrite arff_step by auto.
      rewrite IH; auto.
      + rewrite <- app_assoc. reflexivity.
      + rewrite table_snoc, E. f_equal. f_equal. unfold newA. destruct (is_numerical f); reflexivity.
  Qed.
  Lemma att_line_long f : 1 <= length (att_line f).
  Proof. unfold att_line. rewrite !app_length. cbn. lia. Qed.
  Lemma arff_head_read relation fs rest : no nl (B relation) ->
    Forall (fun f => one_word (fName f) /\ Forall (fun s => no nl (B s)) (categories f)) fs ->
    arff_attributes (S (length (arff_head relation fs ++ rest))) (arff_head relation fs ++ rest) [] [] =
    Ok (Some (map newA fs, table_of (map newA fs), rest)).
  Proof.
    intros Hr H. unfold arff_head. fold att_line. change (flat_map (fun f => B "@ATTRIBUTE " ++ B (fName f) ++ B " " ++ B (arff_type f) ++ [nl]) fs) with (flat_map att_line fs).
    assert (Hlen : exists k, S (length ((B "@RELATION " ++ B relation ++ [nl; nl] ++ flat_map att_line fs ++ [nl] ++ B "@DATA" ++ [nl]) ++ rest)) = S (S (length fs + S (S k)))).
    { assert (length fs <= length (flat_map att_line fs)).
      { clear. induction fs as [|f fs IH]; cbn; auto. rewrite app_length. pose proof (att_line_long f). lia. }
      exists (S (length ((B "@RELATION " ++ B relation ++ [nl; nl] ++ flat_map att_line fs ++ [nl] ++ B "@DATA" ++ [nl]) ++ rest)) - (4 + length fs)).
      rewrite !app_length. cbn [length]. lia. }
    destruct Hlen as [k ->].
    assert (E1 : (B "@RELATION " ++ B relation ++ [nl; nl] ++ flat_map att_line fs ++ [nl] ++ B "@DATA" ++ [nl]) ++ rest =
      (B "@RELATION " ++ B relation) ++ nl :: ([] ++ nl :: (flat_map att_line fs ++ ([] ++ nl :: (B "@DATA" ++ nl :: rest))))).
    { rewrite <- !app_assoc. cbn [app]. rewrite <- ?app_assoc. cbn [app]. reflexivity. }
    rewrite E1. cbn [arff_attributes]. rewrite read_line_ok.
    2:{ rewrite no_app. split; [intros X; cbn in X; intuition discriminate|exact Hr]. }
    replace (has_prefix (B "@data") (B (ToLower (T ((B "@RELATION " ++ B relation) ++ [nl]))))) with false by reflexivity.
    replace (has_prefix (B "@attribute") (B (ToLower (T ((B "@RELATION " ++ B relation) ++ [nl]))))) with false by reflexivity.
    rewrite read_line_ok by (intros []). cbn [app].
    replace (has_prefix (B "@data") (B (ToLower (T [nl])))) with false by reflexivity.
    replace (has_prefix (B "@attribute") (B (ToLower (T [nl])))) with false by reflexivity.
    rewrite arff_lines by auto. cbn [app arff_attributes]. cbn [read_line]; rewrite Ascii.eqb_refl.
    replace (has_prefix (B "@data") (B (ToLower (T [nl])))) with false by reflexivity.
    replace (has_prefix (B "@attribute") (B (ToLower (T [nl])))) with false by reflexivity.
    rewrite read_line_ok by (intros X; cbn in X; intuition discriminate). reflexivity.
  Qed.

  (** *** The cases *)
  Definition row_ok (n : nat) (r : list string) : Prop :=
    length r = n /\ r <> [] /\ Forall (fun s => no nl (B s)) r /\ exists c s, hd "" r = String c s /\ c <> "%"%char.
  Lemma row_head n r rest : row_ok n r -> exists c s, csv_write "," (map B r) ++ rest = c :: s /\ c <> nl /\ c <> "%"%char.
  Proof.
    intros (_ & Hne & Hnl & c & s & Eh & Hc). destruct r as [|t r]; [congruence|]. cbn [hd] in Eh. subst t. unfold csv_write.
    assert (G : exists s', csv_field "," (B (String c s)) = (if needs_quotes "," (B (String c s)) then quote else c) :: s').
    { unfold csv_field. destruct (needs_quotes "," (B (String c s))); [unfold csv_quoted; eauto|]. cbn. eauto. }
    destruct G as [s' G]. assert (E : exists s'', join [","%char] (map (csv_field ",") (map B (String c s :: r))) = (if needs_quotes "," (B (String c s)) then quote else c) :: s'').
    { cbn [map]. rewrite G. destruct (map (csv_field ",") (map B r)); cbn [join app]; eauto. }
    destruct E as [s'' E]. rewrite E. cbn [app]. eexists. eexists. split; [reflexivity|].
    apply Forall_inv in Hnl. destruct (needs_quotes "," (B (String c s))); [split; discriminate|]. split; auto.
    intros ->. apply Hnl. left. reflexivity.
  Qed.
  Lemma arff_cases_ok : forall rows fuel n count data labels, length rows < fuel -> (n = 0 \/ n = length data) ->
    Forall (row_ok (length data)) rows ->
    arff_cases PF itoa fuel n count (concat (map (csv_write ",") (map (map B) rows))) data labels =
    Ok (fold_left (map2 (fAppend PF)) rows data, labels ++ map itoa (seq count (length rows))).
  Proof.
    induction rows as [|r rows IH]; intros fuel n count data labels Hf Hn H; (destruct fuel as [|fuel]; [cbn in Hf; lia|]).
    - cbn. rewrite app_nil_r. reflexivity.
    - apply Forall_cons_iff in H as [Hr H]. cbn [map concat arff_cases].
      destruct (row_head _ _ (concat (map (csv_write ",") (map (map B) rows))) Hr) as (c & s & E & Hc1 & Hc2). rewrite E at 1.
      rewrite (eqb_neq_ascii c nl), (eqb_neq_ascii c "%") by auto. destruct Hr as (Hl & Hne & _).
      rewrite scan_record; [|discriminate|discriminate|destruct r; [congruence|discriminate]]. cbn [app].
      rewrite map_length, Hl. rewrite (proj2 (orb_true_iff _ _)) by (destruct Hn as [->|Hn]; [left; reflexivity|right; apply Nat.eqb_eq; auto]).
      rewrite map_TB, append_case_ok by lia. cbn [bind]. rewrite Hl, skipn_all, app_nil_r.
      assert (Hl2 : length (map2 (fAppend PF) data r) = length data) by (apply map2_length; lia).
      rewrite IH; [|cbn in Hf; lia|right; auto|rewrite Hl2; exact H]. cbn [fold_left length seq map]. rewrite <- app_assoc. reflexivity.
  Qed.
  Lemma columns_filled' rows data k f : Forall (fun r => length r = length data) rows -> nth_error data k = Some f ->
    nth_error (fold_left (map2 (fAppend PF)) rows data) k = Some (fold_left (fAppend PF) (map (fun r => nth k r "") rows) f).
  Proof.
    intros H Hk. pose proof (columns_filled PF (map (cons "") rows) data) as G. 
    specialize (G ltac:(apply Forall_map; exact H) k f Hk). rewrite map_map in G. cbn [tl] in G.
    rewrite <- G. f_equal. clear. revert data. induction rows as [|r rows IH]; intros data; [reflexivity|]. cbn [map fold_left tl]. apply IH.
  Qed.
  Lemma columns_length' rows : forall data, Forall (fun r => length r = length data) rows -> length (fold_left (map2 (fAppend PF)) rows data) = length data.
  Proof.
    induction rows as [|r rows IH]; intros data H; [reflexivity|]. apply Forall_cons_iff in H as [Hr H]. cbn [fold_left].
    assert (E : length (map2 (fAppend PF) data r) = length data) by (apply map2_length; lia). rewrite IH; [exact E|rewrite E; exact H].
  Qed.
  (** A column filled with texts *)
  Lemma refilled f vs : let g := fold_left (fAppend PF) vs (newA f) in
    fName g = fName f /\ is_numerical g = is_numerical f /\ fLength g = length vs /\
    forall i v, nth_error vs i = Some v -> value_at g i = Some (if is_numerical f then match PF v with Some x => VNum x | None => VMissing end
                                                               else if missing_token v then VMissing else VCat v).
  Proof.
    cbn zeta. unfold newA. destruct (is_numerical f).
    - unfold newNum. rewrite fold_num, fold_nAppend. cbn [fName is_numerical fLength nName nLength nMissing]. unfold nLength. cbn [nMissing].
      rewrite map_length. repeat split. intros i v Hv. cbn [value_at nMissing nData]. rewrite !nth_error_map, Hv. cbn [option_map].
      unfold num_bad, num_val. destruct (PF v); reflexivity.
    - pose proof (appends_ok (fName f) vs) as A. unfold newCat. rewrite fold_cat. unfold appends, emptyCat in A.
      cbn [fName is_numerical fLength]. split; [|split; [reflexivity|split]].
      + clear A. induction vs as [|v vs IH] using rev_ind; auto. rewrite fold_left_app. cbn [fold_left]. unfold cAppend.
        destruct (missing_token v); [exact IH|]. destruct (CatToNum _ v). exact IH.
      + unfold cLength. exact (ho_len2 _ _ A).
      + intros i v Hv. pose proof (ho_st _ _ A i v Hv) as Hs. unfold stored in Hs. cbn [value_at]. destruct (missing_token v).
        * destruct Hs as [-> ->]. reflexivity.
        * destruct Hs as (-> & c & -> & Hc). cbn [option_map]. rewrite Hc. reflexivity.
  Qed.

  (** ** C102 *)
  (** Writing cases as ARFF and reading them gives the same features. *)
Theorem C102_arff_round_trip_partial : forall fm cases relation,
    fmData fm <> [] -> PF "?" = None -> no nl (B relation) ->
    (forall f, In f (fmData fm) -> one_word (fName f) /\ Forall (fun s => no nl (B s)) (categories f) /\
       forall c, In c cases -> exists v, value_at f c = Some v /\ arff_value_ok PF fmtF v) ->
    (forall f c v, nth_error (fmData fm) 0 = Some f -> In c cases -> value_at f c = Some v -> ~ like_comment fmtF v) ->
    exists out fm', WriteArffCases fmtF fm cases relation = Ok out /\ ParseARFF PF itoa out = Ok (Some fm') /\
      Forall2 (fun f f' => fName f' = fName f /\ is_numerical f' = is_numerical f /\ fLength f' = length cases /\
        forall j c, nth_error cases j = Some c -> value_at f' j = value_at f c) (fmData fm) (fmData fm') /\
      fmLabels fm' = map itoa (seq 0 (length cases)) /\ names_ok fm'.
  Proof.
    intros fm cases relation Hne HPF Hrel Hf Hfirst.
    set (rows := map (fun c => map (fun f => arff_text f c) (fmData fm)) cases).
    assert (Kv : forall f c v, value_at f c = Some v -> match v with VNum _ => is_numerical f = true | VCat s => is_numerical f = false /\ In s (categories f) | VMissing => True end).
    { intros f c v. unfold value_at. destruct f as [g|g].
      - destruct (nth_error (nMissing g) c) as [[]|]; try discriminate; destruct (nth_error (nData g) c); try discriminate;
          intros E; inversion E; reflexivity.
      - destruct (nth_error (cMissing g) c) as [[]|]; try discriminate; destruct (nth_error (cData g) c) as [k|]; try discriminate; intros E.
        + inversion E; reflexivity.
        + destruct (nth_error (cmBack (cMap g)) k) eqn:Ek; inversion E. split; [reflexivity|]. cbn. eapply nth_error_In; eauto. }
    assert (Hrow : Forall (row_ok (length (fmData fm))) rows).
    { apply Forall_forall. intros r Hr. apply in_map_iff in Hr as (c & <- & Hc). split; [apply map_length|]. split; [destruct (fmData fm); [congruence|discriminate]|]. split.
      - apply Forall_map, Forall_forall. intros f Hin. destruct (Hf f Hin) as (_ & Hcat & Hv). destruct (Hv c Hc) as (v & Ev & Ok). unfold arff_text. rewrite Ev.
        pose proof (Kv _ _ _ Ev) as K. destruct v; cbn in Ok; [intros [X|[]]; discriminate|tauto|]. rewrite Forall_forall in Hcat. apply Hcat. tauto.
      - destruct (fmData fm) as [|f fs]; [congruence|]. cbn [map hd]. destruct (Hf f (or_introl eq_refl)) as (_ & Hcat & Hv). destruct (Hv c Hc) as (v & Ev & Ok).
        specialize (Hfirst f c v eq_refl Hc Ev). unfold arff_text. rewrite Ev. destruct v as [|x|s]; cbn in Ok, Hfirst.
        + exists "?"%char, "". split; [reflexivity|discriminate].
        + destruct (fmtF x) as [|a t] eqn:Et; [tauto|]. exists a, t. split; auto. intros ->. apply Hfirst. exists t. reflexivity.
        + destruct s as [|a t]; [exfalso; apply Ok; exists ""; split; [left; auto|exact I]|]. exists a, t. split; auto. intros ->. apply Hfirst. exists t. reflexivity. }
    eexists. eexists. split.
    { apply WriteArff_eq. intros f c Hin Hc. destruct (Hf f Hin) as (_ & _ & Hv). destruct (Hv c Hc) as (v & Ev & _). eauto. }
    replace (map (fun c => map B (map (fun f => arff_text f c) (fmData fm))) cases) with (map (map B) rows) by (unfold rows; rewrite map_map; reflexivity).
    assert (EP : ParseARFF PF itoa (arff_head relation (fmData fm) ++ concat (map (csv_write ",") (map (map B) rows))) =
      Ok (Some (mkFM (fold_left (map2 (fAppend PF)) rows (map newA (fmData fm))) (table_of (map newA (fmData fm))) (map itoa (seq 0 (length rows)))))).
    { unfold ParseARFF. rewrite arff_head_read; auto.
      2:{ apply Forall_forall. intros f Hin. destruct (Hf f Hin) as (A & C & _). auto. }
      cbn [bind]. rewrite unix_rows.
      2:{ apply Forall_map, Forall_forall. intros r Hr. apply Forall_map. rewrite Forall_forall in Hrow. destruct (Hrow _ Hr) as (_ & _ & X & _). exact X. }
      rewrite arff_cases_ok; [reflexivity| |left; reflexivity|rewrite map_length; exact Hrow].
      clear. induction rows as [|r rows IH]; cbn [map concat length]; [lia|]. unfold csv_write at 1. rewrite !app_length. cbn [length]. lia. }
    split; [exact EP|]. cbn [fmData fmLabels].
    assert (Hrl : Forall (fun r => length r = length (map newA (fmData fm))) rows).
    { rewrite map_length. eapply Forall_impl; [|exact Hrow]. intros r (X & _). exact X. }
    assert (Col : forall k f, nth_error (fmData fm) k = Some f ->
      nth_error (fold_left (map2 (fAppend PF)) rows (map newA (fmData fm))) k = Some (fold_left (fAppend PF) (map (arff_text f) cases) (newA f))).
    { intros k f Hk. rewrite (columns_filled' _ _ k (newA f) Hrl) by (rewrite nth_error_map, Hk; reflexivity). do 2 f_equal.
      unfold rows. rewrite map_map. apply map_ext. intros c. apply nth_error_nth. rewrite nth_error_map, Hk. reflexivity. }
    split; [|split].
    - assert (G : forall l l' : list feature, length l = length l' -> (forall k f, nth_error l k = Some f -> In f (fmData fm) /\ nth_error l' k = Some (fold_left (fAppend PF) (map (arff_text f) cases) (newA f))) ->
        Forall2 (fun f f' => fName f' = fName f /\ is_numerical f' = is_numerical f /\ fLength f' = length cases /\
        forall j c, nth_error cases j = Some c -> value_at f' j = value_at f c) l l').
      { induction l as [|f l IH]; intros [|f' l'] Hl H; try discriminate; constructor.
        - destruct (H 0 f eq_refl) as [Hin E]. inversion E; subst f'. destruct (refilled f (map (arff_text f) cases)) as (A & C & D & V).
          split; [exact A|]. split; [exact C|]. split; [rewrite D; apply map_length|]. intros j c Hj.
          rewrite (V j (arff_text f c)) by (rewrite nth_error_map, Hj; reflexivity).
          destruct (Hf f Hin) as (_ & _ & Hv). destruct (Hv c (nth_error_In _ _ Hj)) as (v & Ev & Ok). rewrite Ev. f_equal.
          pose proof (Kv _ _ _ Ev) as K. unfold arff_text. rewrite Ev. destruct v as [|x|s]; cbn in Ok.
          + rewrite HPF. destruct (is_numerical f); reflexivity.
          + rewrite K. destruct Ok as [-> _]. reflexivity.
          + destruct K as [-> _]. destruct (missing_token s) eqn:Em; auto. exfalso. apply Ok, missing_token_spec. exact Em.
        - apply IH; [cbn in Hl; lia|]. intros k g Hk. apply (H (S k) g Hk). }
      apply G.
      + rewrite columns_length' by exact Hrl. rewrite map_length. reflexivity.
      + intros k f Hk. split; [eapply nth_error_In; eauto|]. apply Col. exact Hk.
    - unfold rows. rewrite map_length. reflexivity.
    - replace (table_of (map newA (fmData fm))) with (table_of (fold_left (map2 (fAppend PF)) rows (map newA (fmData fm)))); [apply table_names_ok|].
      unfold table_of. rewrite columns_length' by exact Hrl. f_equal. f_equal.
      assert (G : forall l l' : list feature, length l = length l' -> (forall k f, nth_error l k = Some f -> exists f', nth_error l' k = Some f' /\ fName f' = fName f) -> map fName l' = map fName l).
      { clear. induction l as [|f l IH]; intros [|f' l'] Hl H; try discriminate; auto. cbn [map]. destruct (H 0 f eq_refl) as (g & E & En). inversion E; subst g. rewrite En. f_equal.
        apply IH; [cbn in Hl; lia|]. intros k g Hk. apply (H (S k) g Hk). }
      apply G; [rewrite columns_length' by exact Hrl; reflexivity|]. intros k f Hk. rewrite nth_error_map in Hk. destruct (nth_error (fmData fm) k) as [f0'|] eqn:Ek; [|discriminate].
      cbn in Hk. inversion Hk; subst f. eexists. split; [apply Col; exact Ek|]. destruct (refilled f0' (map (arff_text f0') cases)) as (A & _). rewrite A.
      unfold newA. destruct (is_numerical f0'); reflexivity.
  Qed.
End ARFF.
Print Assumptions C102_arff_round_trip_partial.

(** *** An example: commas, quotes, blanks and a missing value *)
Definition arff_PF (s : string) : option f64 := if (s =? "1")%string then Some f1 else if (s =? "0")%string then Some f0 else None.
Definition arff_fmt (x : f64) : string := if feqb x f1 then "1" else "0".
Definition arff_itoa (n : nat) : string := match n with 0 => "0" | 1 => "1" | _ => "2" end.
Definition odd_name : string := (" a,b" ++ String quote "c")%string.
Definition arff_fm : fmatrix :=
  mkFM [FCat (mkCat (mkCM [("%y", 1); (odd_name, 0)] [odd_name; "%y"]) [0; 1; 0] [false; false; true] "kind" false true);
        FNum (mkNum [f0; f1; f0] [false; false; true] "size" true)]
       [("size", 1); ("kind", 0)] ["one"; "two"; "three"].
Example C102_example : exists out fm', WriteArffCases arff_fmt arff_fm [0; 2; 0] "test" = Ok out /\ ParseARFF arff_PF arff_itoa out = Ok (Some fm') /\
  fmData fm' = [FCat (mkCat (mkCM [(odd_name, 0)] [odd_name]) [0; 0; 0] [false; true; false] "kind" false true);
                FNum (mkNum [f0; f0; f0] [false; true; false] "size" true)] /\ fmLabels fm' = ["0"; "1"; "2"].
Proof. eexists. eexists. split; [vm_compute; reflexivity|]. split; [vm_compute; reflexivity|]. split; reflexivity. Qed.
Example C102_applies :
  fmData arff_fm <> [] /\ arff_PF "?" = None /\ no nl (B "test") /\
  (forall f, In f (fmData arff_fm) -> one_word (fName f) /\ Forall (fun s => no nl (B s)) (categories f) /\
     forall c, In c [0; 2; 0] -> exists v, value_at f c = Some v /\ arff_value_ok arff_PF arff_fmt v) /\
  (forall f c v, nth_error (fmData arff_fm) 0 = Some f -> In c [0; 2; 0] -> value_at f c = Some v -> ~ like_comment arff_fmt v).
Proof.
  split; [discriminate|]. split; [reflexivity|]. split; [intros X; cbn in X; intuition discriminate|]. split.
  - intros f [<-|[<-|[]]]; (split; [split; [discriminate|repeat constructor]|split]).
    + repeat constructor; intros X; cbn in X; intuition discriminate.
    + assert (X : ~ is_token odd_name) by (intros Y; apply missing_token_spec in Y; discriminate).
      intros c [<-|[<-|[<-|[]]]]; eexists; (split; [reflexivity|]); first [exact I|exact X].
    + constructor.
    + intros c [<-|[<-|[<-|[]]]]; eexists; (split; [reflexivity|]); first [exact I|repeat split; try discriminate; intros X; cbn in X; intuition discriminate].
  - intros f c v Hf Hc Hv. inversion Hf; subst f. destruct Hc as [<-|[<-|[<-|[]]]]; inversion Hv; subst v; cbn; try tauto; intros (s & E); discriminate.
Qed.

(** *** What is not kept *)
(** Case labels are not written, so they are lost. *)
Theorem C102_labels_refuted : exists out fm', WriteArffCases arff_fmt arff_fm [0] "test" = Ok out /\
  ParseARFF arff_PF arff_itoa out = Ok (Some fm') /\ fmLabels arff_fm = ["one"; "two"; "three"] /\ fmLabels fm' = ["0"].
Proof. eexists. eexists. split; [vm_compute; reflexivity|]. split; [vm_compute; reflexivity|]. split; reflexivity. Qed.
(** A case whose first value starts with [%] is read as a comment: it vanishes. *)
Theorem C102_comment_refuted : exists out fm', WriteArffCases arff_fmt arff_fm [0; 1; 2] "test" = Ok out /\
  ParseARFF arff_PF arff_itoa out = Ok (Some fm') /\ Forall (fun f => fLength f = 2) (fmData fm').
Proof. eexists. eexists. split; [vm_compute; reflexivity|]. split; [vm_compute; reflexivity|]. repeat constructor. Qed.
(** Names are written without quotes.  A numerical feature with a blank in its name comes
    back as a categorical one with another name. *)
Theorem C102_blank_in_name_refuted : forall a b data, one_word a -> one_word b -> ToLower b <> "numeric" -> ToLower b <> "real" ->
  forall rest lookup fuel f, fName f = (a ++ " " ++ b)%string -> is_numerical f = true ->
  arff_attributes (S fuel) (att_line f ++ rest) data lookup = arff_attributes fuel rest (data ++ [newCat a]) ((a, length data) :: lookup).
Proof.
  intros a b data [Ha Hwa] [Hb Hwb] N1 N2 rest lookup fuel f Hn Hk.
  assert (Ef : fields (att_line f) = [B "@ATTRIBUTE"; B a; B b; B "NUMERIC"]).
  { unfold fields, att_line. rewrite Hn, !B_app. destruct f as [f|f]; [|discriminate]. cbn [arff_type].
    change (B "@ATTRIBUTE " ++ (B a ++ B " " ++ B b) ++ B " " ++ B "NUMERIC" ++ [nl]) with (B "@ATTRIBUTE" ++ " "%char :: ((B a ++ " "%char :: B b) ++ " "%char :: (B "NUMERIC" ++ [nl]))).
    rewrite <- app_assoc. rewrite fields_word; [|repeat constructor|reflexivity|discriminate].
    change ((" "%char :: B b) ++ " "%char :: (B "NUMERIC" ++ [nl])) with (" "%char :: (B b ++ " "%char :: (B "NUMERIC" ++ [nl]))).
    rewrite fields_word; [|exact Hwa|reflexivity|destruct a; [congruence|discriminate]].
    rewrite fields_word; [|exact Hwb|reflexivity|destruct b; [congruence|discriminate]]. reflexivity. }
  assert (Hl : exists l, att_line f = l ++ [nl] /\ no nl l).
  { exists (B "@ATTRIBUTE " ++ B (fName f) ++ B " " ++ B (arff_type f)). split; [unfold att_line; rewrite <- !app_assoc; reflexivity|].
    destruct f as [f|f]; [|discriminate]. rewrite Hn, !B_app, !no_app. repeat split; try (intros X; cbn in X; intuition discriminate); apply space_nl; auto. }
  destruct Hl as (l & El & Hl). cbn [arff_attributes]. rewrite El at 1. rewrite <- app_assoc. cbn [app]. rewrite (read_line_ok l rest Hl). rewrite <- El.
  assert (H1 : forall p x, B (ToLower (T (B p ++ x))) = B (ToLower p) ++ B (ToLower (T x))).
  { clear. intros p x. unfold B, T. induction p as [|c p IH]; [reflexivity|]. cbn. f_equal. exact IH. }
  unfold att_line at 1 2. rewrite H1.
  replace (has_prefix (B "@data") (B (ToLower "@ATTRIBUTE ") ++ B (ToLower (T (B (fName f) ++ B " " ++ B (arff_type f) ++ [nl]))))) with false by reflexivity.
  replace (has_prefix (B "@attribute") (B (ToLower "@ATTRIBUTE ") ++ B (ToLower (T (B (fName f) ++ B " " ++ B (arff_type f) ++ [nl]))))) with true by reflexivity.
  rewrite Ef. cbn [map get nth_error bind]. rewrite !TB.
  destruct (String.eqb_spec (ToLower b) "numeric"); [congruence|]. destruct (String.eqb_spec (ToLower b) "real"); [congruence|]. reflexivity.
Qed.
(** An attribute line without a type panics. *)
Theorem C102_no_type_refuted : ParseARFF arff_PF arff_itoa (B "@attribute x" ++ [nl] ++ B "@data" ++ [nl]) = Panic.
Proof. vm_compute. reflexivity. Qed.
(** ARFF's integer attributes are read as categorical features. *)
Theorem C102_integer_refuted : exists fm, ParseARFF arff_PF arff_itoa (B "@attribute x integer" ++ [nl] ++ B "@data" ++ [nl] ++ B "1" ++ [nl]) = Ok (Some fm) /\
  option_map is_numerical (nth_error (fmData fm) 0) = Some false.
Proof. eexists. split; [vm_compute; reflexivity|reflexivity]. Qed.
(** Without a data line there is no matrix: nil, without an error. *)
Theorem C102_no_data_refuted : ParseARFF arff_PF arff_itoa (B "@attribute x real" ++ [nl]) = Ok None.
Proof. vm_compute. reflexivity. Qed.
Print Assumptions C102_labels_refuted.
Print Assumptions C102_comment_refuted.
Print Assumptions C102_blank_in_name_refuted.
Print Assumptions C102_no_type_refuted.
Print Assumptions C102_integer_refuted.
Print Assumptions C102_no_data_refuted.
