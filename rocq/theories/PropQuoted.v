(** C126: quotes in matrix files. *)
From Verif Require Import Go GoLemmas F64 ModelFeature FeatureSpec ModelSample FeatureProofs ModelText TextProofs ModelMatrix MatrixSpec
  MatrixProofs PropMatrix ModelExport PropARFF ModelQuoted.
Local Open Scope string_scope.
Local Open Scope nat_scope.
Local Open Scope list_scope.

(** ** C126.  The claim in full: a field of a matrix file may hold any text if it is quoted;
    a matrix written and read again keeps its texts, quotes included. *)

(** ** Files without quotes: the two models of ParseAFM agree. *)
Lemma split_hd sep c s : c <> sep -> exists w ws, split sep s = w :: ws /\ split sep (c :: s) = (c :: w) :: ws.
Proof.
  intros H. cbn [split]. rewrite (eqb_neq_ascii c sep) by auto. destruct (split sep s) eqn:E; [|eauto].
  exfalso. revert E. clear. destruct s; cbn; [discriminate|]. destruct (Ascii.eqb a sep); [discriminate|]. destruct (split sep s); discriminate.
Qed.
Lemma split_ne sep s : split sep s <> [].
Proof. destruct s; cbn; [discriminate|]. destruct (Ascii.eqb a sep); [discriminate|]. destruct (split sep s); discriminate. Qed.

Lemma scan_free : forall l tail st cur acc, no quote l -> no nl l -> st = CPlain \/ st = CStart /\ cur = [] ->
  (tail = [] \/ exists r, tail = nl :: r) ->
  csv_scan tab (l ++ tail) st cur acc =
    Some (match split tab l with w :: ws => acc ++ (cur ++ w) :: ws | [] => acc end, match tail with [] => [] | _ :: r => r end).
Proof.
  induction l as [|c l IH]; intros tail st cur acc Hq Hn Hst Ht.
  - cbn [app split]. rewrite app_nil_r. destruct Ht as [->|[r ->]]; destruct Hst as [->|[-> ->]]; reflexivity.
  - apply no_cons in Hq as [Hq1 Hq]. apply no_cons in Hn as [Hn1 Hn]. cbn [app csv_scan].
    destruct (Ascii.eqb_spec c tab) as [->|Hc].
    + pose proof (IH tail CStart [] (acc ++ [cur]) Hq Hn (or_intror (conj eq_refl eq_refl)) Ht) as G.
      cbn [split]. rewrite Ascii.eqb_refl. rewrite app_nil_r.
      destruct (split tab l) eqn:E; [destruct (split_ne _ _ E)|]. rewrite <- app_assoc in G.
      destruct Hst as [->|[-> ->]]; exact G.
    + destruct (split_hd tab c l Hc) as (w & ws & E1 & E2). rewrite E2.
      rewrite (eqb_neq_ascii c nl), (eqb_neq_ascii c quote) by auto.
      destruct Hst as [->|[-> ->]].
      * rewrite (IH tail CPlain (cur ++ [c]) acc) by auto. rewrite E1, <- app_assoc. reflexivity.
      * rewrite (IH tail CPlain [c] acc) by auto. rewrite E1. reflexivity.
Qed.

(** The lines of [unix s]. *)
Lemma unix_lines : forall s, split nl (unix s) = map drop_cr (split nl s).
Proof.
  assert (D : forall c w, w <> [] -> drop_cr (c :: w) = c :: drop_cr w).
  { intros c w Hw. unfold drop_cr. cbn [rev]. destruct (rev w) as [|d v] eqn:E.
    - apply (f_equal (@rev _)) in E. rewrite rev_involutive in E. cbn in E. congruence.
    - cbn [app]. destruct (Ascii.eqb d cr); auto. rewrite rev_app_distr. reflexivity. }
  induction s as [|c s IH]; [reflexivity|]. cbn [unix]. destruct s as [|d s].
  - destruct (Ascii.eqb_spec c cr) as [->|Hc]; [reflexivity|]. cbn [split]. destruct (Ascii.eqb c nl); [reflexivity|].
    cbn [map]. unfold drop_cr. cbn [rev app]. rewrite (eqb_neq_ascii c cr) by auto. reflexivity.
  - destruct (Ascii.eqb_spec c cr) as [->|Hc]; cbn [andb].
    + destruct (Ascii.eqb_spec d nl) as [->|Hd].
      * rewrite IH. cbn [split]. replace (Ascii.eqb cr nl) with false by reflexivity. rewrite Ascii.eqb_refl. reflexivity.
      * destruct (split_hd nl cr (unix (d :: s))) as (w & ws & E1 & E2); [discriminate|]. rewrite E2. rewrite IH in E1.
        destruct (split_hd nl d s Hd) as (w0 & ws0 & F1 & F2). destruct (split_hd nl cr (d :: s)) as (w1 & ws1 & G1 & G2); [discriminate|].
        rewrite G2. rewrite F2 in *. inversion G1; subst w1 ws1. cbn [map] in *. inversion E1; subst. rewrite (D cr (d :: w0)) by discriminate. reflexivity.
    + destruct (Ascii.eqb_spec c nl) as [->|Hn].
      * cbn [split]. rewrite Ascii.eqb_refl. cbn [map]. f_equal. exact IH.
      * destruct (split_hd nl c (unix (d :: s)) Hn) as (w & ws & E1 & E2). destruct (split_hd nl c (d :: s) Hn) as (w1 & ws1 & G1 & G2).
        rewrite E2, G2. rewrite IH, G1 in E1. cbn [map] in E1. inversion E1; subst. cbn [map]. f_equal.
        destruct w1 as [|e w1]; [|symmetry; apply D; discriminate]. unfold drop_cr. cbn [rev app]. rewrite (eqb_neq_ascii c cr) by auto. reflexivity.
Qed.
Lemma unix_no c : forall s, no c s -> no c (unix s).
Proof.
  intros s H X. apply H. clear H. revert X. induction s as [|a s IH]; cbn [unix]; auto. destruct s as [|d s].
  - destruct (Ascii.eqb a cr); [intros []|auto].
  - destruct (_ && _); [right; auto|]. intros [->|X]; [left; auto|right; auto].
Qed.
Lemma split_app sep : forall s, exists l, no sep l /\ ((s = l /\ split sep s = [l]) \/ exists r, s = l ++ sep :: r /\ split sep s = l :: split sep r).
Proof.
  induction s as [|c s (l & Hl & IH)]; [exists []; split; [intros []|left; auto]|].
  destruct (Ascii.eqb_spec c sep) as [->|Hc].
  - exists []. split; [intros []|]. right. exists s. cbn [app split]. rewrite Ascii.eqb_refl. auto.
  - exists (c :: l). split; [intros [X|X]; [congruence|auto]|]. destruct IH as [[-> E]|(r & -> & E)]; [left|right; exists r];
      (split; [reflexivity|]); cbn [app split]; rewrite (eqb_neq_ascii c sep) by auto; rewrite E; reflexivity.
Qed.
Lemma count_no c l : no c l -> count_byte c l = 0.
Proof.
  unfold count_byte. induction l as [|a l IH]; intros H; [reflexivity|]. apply no_cons in H as [Ha H]. cbn [filter].
  destruct (Ascii.eqb_spec c a); [congruence|]. auto.
Qed.

Lemma scan_shorter comma : forall s st cur acc fs rest, csv_scan comma s st cur acc = Some (fs, rest) -> length rest <= length s - 1.
Proof.
  induction s as [|c s IH]; intros st cur acc fs rest E; cbn [csv_scan] in E.
  - destruct st; inversion E; subst; cbn; lia.
  - cbn [length]. assert (G : forall st' cur' acc', csv_scan comma s st' cur' acc' = Some (fs, rest) -> length rest <= S (length s) - 1).
    { intros st' cur' acc' X. apply IH in X. lia. }
    destruct st; repeat (match type of E with context [if ?b then _ else _] => destruct b end);
      try discriminate; try (inversion E; subst; cbn; lia); eapply G; exact E.
Qed.
Lemma records_total : forall fuel s, length s < fuel -> exists rs, tsv_records fuel s = Ok rs.
Proof.
  induction fuel as [|fuel IH]; intros s H; [lia|]. cbn [tsv_records]. destruct s as [|c s]; [eauto|]. cbn [length] in H.
  destruct (Ascii.eqb c nl); [apply IH; lia|]. destruct (csv_scan tab (c :: s) CStart [] []) as [[fs rest]|] eqn:E; [|eauto].
  apply scan_shorter in E. cbn [length] in E. destruct (IH rest) as [rs ->]; [lia|]. cbn [bind]. eauto.
Qed.
Lemma records_fuel : forall fuel fuel' s, length s < fuel -> length s < fuel' -> tsv_records fuel s = tsv_records fuel' s.
Proof.
  induction fuel as [|fuel IH]; intros fuel' s H H'; [lia|]. destruct fuel' as [|fuel']; [lia|]. cbn [tsv_records].
  destruct s as [|c s]; [reflexivity|]. cbn [length] in *. destruct (Ascii.eqb c nl); [apply IH; lia|].
  destruct (csv_scan tab (c :: s) CStart [] []) as [[fs rest]|] eqn:E; [|reflexivity].
  apply scan_shorter in E. cbn [length] in E. rewrite (IH fuel' rest) by lia. reflexivity.
Qed.

Definition filled_line (l : bytes) : bool := negb (length l =? 0).
Lemma records_free : forall fuel s, length s < fuel -> no quote s ->
  tsv_records fuel s = Ok (map (fun l => Some (split tab l)) (filter filled_line (split nl s))).
Proof.
  induction fuel as [|fuel IH]; intros s H Hq; [lia|]. cbn [tsv_records]. destruct s as [|c s]; [reflexivity|]. cbn [length] in H.
  destruct (Ascii.eqb_spec c nl) as [->|Hc].
  - apply no_cons in Hq as [_ Hq]. rewrite IH by (auto; lia). cbn [split]. rewrite Ascii.eqb_refl. reflexivity.
  - destruct (split_app nl (c :: s)) as (l & Hl & [[E1 E2]|(r & E1 & E2)]).
    + rewrite E2. rewrite E1 in *. replace l with (l ++ []) at 1 by apply app_nil_r.
      rewrite (scan_free l [] CStart [] []) by auto. destruct l as [|a l]; [discriminate|].
      destruct fuel; [cbn in H; lia|]. cbn [tsv_records bind filter map filled_line length Nat.eqb negb].
      destruct (split tab (a :: l)) eqn:E; [destruct (split_ne _ _ E)|]. reflexivity.
    + rewrite E2. rewrite E1 in *. assert (Hq1 : no quote l) by (intros X; apply Hq, in_or_app; auto).
      assert (Hq2 : no quote r) by (intros X; apply Hq, in_or_app; right; right; auto).
      rewrite (scan_free l (nl :: r) CStart [] []) by eauto. destruct l as [|a l]; [inversion E1; congruence|].
      rewrite IH; auto.
      2:{ apply (f_equal (@length _)) in E1. rewrite app_length in E1. cbn [length] in E1. lia. }
      cbn [bind filter map filled_line length Nat.eqb negb].
      destruct (split tab (a :: l)) eqn:E; [destruct (split_ne _ _ E)|]. reflexivity.
Qed.
Lemma record_free l : no quote l -> csv_record l = Some (split tab l).
Proof.
  intros H. unfold csv_record. destruct (existsb _ _) eqn:E; [|reflexivity]. exfalso.
  apply existsb_exists in E as (f & Hf & E). rewrite count_no in E; [discriminate|]. intros X. apply H.
  clear - Hf X. revert f Hf X. induction l as [|a l IH]; intros f Hf X; cbn [split] in Hf; [destruct Hf as [<-|[]]; destruct X|].
  destruct (Ascii.eqb a tab).
  - destruct Hf as [<-|Hf]; [destruct X|right; eauto].
  - destruct (split tab l) as [|w ws] eqn:E; [destruct Hf as [<-|[]]; destruct X as [X|[]]; left; auto|].
    destruct Hf as [<-|Hf]; [destruct X as [X|X]; [left; auto|right; apply (IH w); [left; auto|auto]]|].
    right. apply (IH f); [right; auto|auto].
Qed.
Lemma load_same PF itoa n : n <> 0 -> forall ls count data labels,
  LoadCases PF itoa n true count ls data labels = qLoadCases PF n (map csv_record ls) data labels.
Proof.
  intros Hn. induction ls as [|l ls IH]; intros count data labels; cbn [LoadCases map qLoadCases csv_read]; [reflexivity|].
  destruct (csv_record l) as [fs|]; [|reflexivity]. replace (n =? 0) with false by (symmetry; apply Nat.eqb_neq; auto). cbn [orb].
  destruct (length fs =? n); [|reflexivity]. destruct (get (map T fs) 0) as [x| |]; cbn [bind]; try reflexivity.
  destruct (append_case _ _ _); cbn [bind]; auto.
Qed.
Lemma rows_same PF n : n <> 0 -> forall ls data lookup,
  parse_rows PF n ls data lookup = qparse_rows PF n (map csv_record ls) data lookup.
Proof.
  intros Hn. induction ls as [|l ls IH]; intros data lookup; cbn [parse_rows map qparse_rows csv_read]; [reflexivity|].
  destruct (csv_record l) as [fs|]; [|reflexivity]. replace (n =? 0) with false by (symmetry; apply Nat.eqb_neq; auto). cbn [orb].
  destruct (length fs =? n); [|reflexivity]. destruct (ParseFeature PF (map T fs)); cbn [bind]; try reflexivity.
  destruct (get (map T fs) 0); cbn [bind]; auto.
Qed.
Lemma parse_same PF itoa input : Forall (fun l => csv_record l <> Some []) (csv_lines input) ->
  ParseAFM PF itoa input = parse_records PF (map csv_record (csv_lines input)).
Proof.
  intros H. unfold ParseAFM, parse_records. destruct (csv_lines input) as [|l ls]; [reflexivity|]. cbn [csv_read map].
  apply Forall_inv in H. destruct (csv_record l) as [fs|]; [|reflexivity]. cbn [Nat.eqb orb].
  assert (Hn : length fs <> 0) by (destruct fs; [congruence|discriminate]).
  destruct (get (tl (map T fs)) 0) as [h0| |]; cbn [bind]; try reflexivity.
  match goal with |- bind ?a _ = bind ?a _ => destruct a as [[|]| |]; cbn [bind]; try reflexivity end.
  - match goal with |- bind ?a _ = bind ?a _ => destruct a as [[data lookup]| |]; cbn [bind]; try reflexivity end.
    rewrite load_same by auto. reflexivity.
  - rewrite rows_same by auto. reflexivity.
Qed.

(** For every input without a quote, whatever its lines, line ends and fields. *)
Theorem C126_without_quotes : forall PF itoa input, no quote input -> qParseAFM PF input = ParseAFM PF itoa input.
Proof.
  intros PF itoa input Hq.
  assert (Hl : forall l, In l (csv_lines input) -> no quote l).
  { intros l Hin. unfold csv_lines in Hin. rewrite <- unix_lines in Hin. apply filter_In in Hin as [Hin _].
    apply (unix_no quote) in Hq. intros X. apply Hq. clear - Hin X. revert l Hin X. generalize (unix input) as s.
    induction s as [|a s IH]; intros l Hin X; cbn [split] in Hin; [destruct Hin as [<-|[]]; destruct X|].
    destruct (Ascii.eqb a nl).
    - destruct Hin as [<-|Hin]; [destruct X|right; eauto].
    - destruct (split nl s) as [|w ws] eqn:E; [destruct Hin as [<-|[]]; destruct X as [X|[]]; left; auto|].
      destruct Hin as [<-|Hin]; [destruct X as [X|X]; [left; auto|right; apply (IH w); [left; auto|auto]]|].
      right. apply (IH l); [right; auto|auto]. }
  rewrite parse_same.
  - unfold qParseAFM. rewrite records_free; [|lia|apply unix_no; auto]. cbn [bind]. f_equal.
    rewrite unix_lines. fold (csv_lines input). apply map_ext_in. intros l Hin. symmetry. apply record_free. auto.
  - apply Forall_forall. intros l Hin. rewrite record_free by auto. intros X. inversion X as [Y]. destruct (split_ne _ _ Y).
Qed.

(** Reading never fails to end, quotes or not. *)
Theorem C126_reading_ends : forall input, exists rs, tsv_records (S (length (unix input))) (unix input) = Ok rs.
Proof. intros input. apply records_total. lia. Qed.

(** ** Quoted fields hold any text: tabs, quotes and newlines.  (A carriage return before
    a newline is dropped by the reader, so there is none here.)  A record that is one
    empty field is an empty line. *)
Definition written (fs : list bytes) : Prop := fs <> [] /\ fs <> [[]] /\ Forall (no cr) fs.
Lemma unix_id : forall s, no cr s -> unix s = s.
Proof.
  induction s as [|c s IH]; intros H; [reflexivity|]. apply no_cons in H as [Hc H]. cbn [unix]. destruct s as [|d s].
  - rewrite (eqb_neq_ascii c cr) by auto. reflexivity.
  - rewrite (eqb_neq_ascii c cr) by auto. cbn [andb]. f_equal. auto.
Qed.
Lemma field_no_cr comma f : no cr f -> no cr (csv_field comma f).
Proof.
  intros H. unfold csv_field. destruct (needs_quotes comma f); auto. unfold csv_quoted.
  intros [X|X]; [discriminate|]. apply in_app_or in X as [X|[X|[]]]; [|discriminate]. apply in_flat_map in X as (c & Hc & X).
  destruct (Ascii.eqb c quote); [destruct X as [X|[X|[]]]; discriminate|]. destruct X as [->|[]]. auto.
Qed.
Lemma write_no_cr fs : Forall (no cr) fs -> no cr (csv_write tab fs).
Proof.
  intros H. unfold csv_write. intros X. apply in_app_or in X as [X|[X|[]]]; [|discriminate]. revert X.
  apply join_no; [intros [X|[]]; discriminate|]. apply Forall_forall. intros x Hx. apply in_map_iff in Hx as (f & <- & Hf).
  apply field_no_cr. rewrite Forall_forall in H. auto.
Qed.
Lemma write_head fs rest : written fs -> exists c s, csv_write tab fs ++ rest = c :: s /\ c <> nl.
Proof.
  intros (H1 & H2 & _). destruct fs as [|f fs]; [congruence|]. unfold csv_write.
  destruct f as [|a f].
  - destruct fs as [|g fs]; [exfalso; apply H2; reflexivity|]. cbn. eexists _, _. split; [reflexivity|discriminate].
  - assert (G : exists c s, csv_field tab (a :: f) = c :: s /\ c <> nl).
    { unfold csv_field. destruct (needs_quotes tab (a :: f)) eqn:Nq; [unfold csv_quoted; eexists _, _; split; [reflexivity|discriminate]|].
      apply plain_field in Nq. apply Forall_inv in Nq. exists a, f. split; [reflexivity|tauto]. }
    destruct G as (c & s & G & Hc). cbn [map]. rewrite G. destruct (map (csv_field tab) fs); cbn [join app]; eauto.
Qed.
Lemma records_written : forall rows fuel, Forall written rows -> length (concat (map (csv_write tab) rows)) < fuel ->
  tsv_records fuel (concat (map (csv_write tab) rows)) = Ok (map Some rows).
Proof.
  intros rows fuel H. revert fuel. induction H as [|r rows Hr H IH]; intros fuel Hf; [destruct fuel; [cbn in Hf; lia|reflexivity]|].
  destruct fuel as [|fuel]; [lia|]. cbn [map concat] in *. rewrite app_length in Hf.
  destruct (write_head r (concat (map (csv_write tab) rows)) Hr) as (c & s & E & Hc). cbn [tsv_records]. rewrite E.
  rewrite (eqb_neq_ascii c nl) by auto. rewrite <- E. rewrite scan_record; [|discriminate|discriminate|apply Hr]. cbn [app].
  rewrite IH; [reflexivity|]. assert (length (csv_write tab r) > 0) by (unfold csv_write; rewrite app_length; cbn; lia). lia.
Qed.

Theorem C126_quoted_fields : forall PF rows, Forall written rows ->
  qParseAFM PF (concat (map (csv_write tab) rows)) = parse_records PF (map Some rows).
Proof.
  intros PF rows H. unfold qParseAFM. rewrite unix_id.
  - rewrite records_written by (auto; lia). reflexivity.
  - intros X. apply in_concat in X as (l & Hl & X). apply in_map_iff in Hl as (r & <- & Hr).
    rewrite Forall_forall in H. destruct (H r Hr) as (_ & _ & Hc). revert X. apply write_no_cr. exact Hc.
Qed.

Lemma qrows_table PF n : forall rows data lookup,
  Forall (fun r : string * list string => S (length (snd r)) = n /\ 2 <= String.length (fst r)) rows ->
  lookup = table_of data ->
  exists lookup', lookup' = table_of (data ++ map (fun r => filled PF (fst r) (snd r)) rows) /\ qparse_rows PF n (map Some (map (map B) (map (fun r => fst r :: snd r) rows))) data lookup =
    Ok (data ++ map (fun r => filled PF (fst r) (snd r)) rows, lookup').
Proof.
  induction rows as [|[name vs] rows IH]; intros data lookup H Ht; cbn [map qparse_rows].
  - rewrite app_nil_r. eauto.
  - apply Forall_cons_iff in H as [[H1 H2] H]. cbn [fst snd] in *. cbn [length]. rewrite map_length, H1, Nat.eqb_refl.
    rewrite map_TB, TB. rewrite ParseFeature_ok by exact H2. cbn [bind get nth_error].
    destruct (IH (data ++ [filled PF name vs]) ((name, length data) :: lookup) H) as (lookup' & E' & ->).
    { rewrite table_snoc, filled_name, Ht. reflexivity. }
    exists lookup'. rewrite <- app_assoc in *. split; [exact E'|reflexivity].
Qed.

(** A table whose fields are quoted where needed is read as it is: labels, names (and the
    table of the names), and the
    meaning of every cell, whatever tabs, quotes and newlines are in them. *)
Theorem C126_quoted_table : forall PF t, rectangular t -> tLabels t <> [] -> ~ looks_typed (hd "" (tLabels t)) ->
  Forall (fun r => 2 <= String.length (fst r)) (tRows t) -> Forall (Forall (fun s => no cr (B s))) (row_file t) ->
  exists fm, qParseAFM PF (concat (map (csv_write tab) (map (map B) (row_file t)))) = Ok fm /\
    fmLabels fm = tLabels t /\ map fName (fmData fm) = map fst (tRows t) /\ names_ok fm /\
    forall k name cells j text, nth_error (tRows t) k = Some (name, cells) -> nth_error cells j = Some text ->
    exists f v, nth_error (fmData fm) k = Some f /\ value_at f j = Some v /\ means PF name text v.
Proof.
  intros PF t Hrect Hn Hl Hname Hcr. rewrite C126_quoted_fields.
  2:{ apply Forall_forall. intros fs Hfs. apply in_map_iff in Hfs as (r & <- & Hr). rewrite Forall_forall in Hcr.
      assert (L : 2 <= length r).
      { unfold row_file in Hr. destruct Hr as [<-|Hr]; [destruct (tLabels t); [congruence|cbn; lia]|].
        apply in_map_iff in Hr as (x & <- & Hx). unfold rectangular in Hrect. rewrite Forall_forall in Hrect. specialize (Hrect x Hx).
        cbn [length]. destruct (tLabels t); [congruence|]. cbn [length] in Hrect. lia. }
      split; [|split].
      - destruct r; [cbn in L; lia|discriminate].
      - destruct r as [|a [|b r]]; cbn in L; try lia; discriminate.
      - apply Forall_map. apply Hcr. exact Hr. }
  unfold row_file, parse_records. cbn [map]. change (B (tCorner t) :: map B (tLabels t)) with (map B (tCorner t :: tLabels t)).
  rewrite map_TB. cbn [tl]. destruct (tLabels t) as [|l0 labels] eqn:El; [congruence|]. cbn [get nth_error bind hd] in *.
  rewrite sniff_false by exact Hl. cbn [bind].
  destruct (qrows_table PF (length (map B (tCorner t :: l0 :: labels))) (tRows t) [] []) as (lookup & El' & E).
  { rewrite map_length. unfold rectangular in Hrect. rewrite El in Hrect. rewrite Forall_forall in *. intros r Hr. split; auto.
    specialize (Hrect r Hr). cbn [length] in *. lia. }
  { reflexivity. }
  rewrite E. cbn [bind app]. eexists. split; [reflexivity|]. cbn [fmLabels fmData]. split; [reflexivity|]. split.
  - rewrite map_map. apply map_ext. intros r. apply filled_name.
  - split; [subst lookup; apply table_names_ok|]. intros k name cells j text Hk Hj. exists (filled PF name cells), (cell_value PF name text). split; [|split].
    + rewrite nth_error_map, Hk. reflexivity.
    + apply filled_value. exact Hj.
    + apply cell_value_means. rewrite Forall_forall in Hname. apply (Hname (name, cells)). eapply nth_error_In; eauto.
Qed.

(** ** But WriteCases quotes nothing. *)
Definition quoty (cat : string) : fmatrix :=
  mkFM [FCat (mkCat (mkCM [("x", 1); (cat, 0)] [cat; "x"]) [0; 1] [false; false] "C:kind" false false);
        FNum (mkNum [f1; f0] [false; false] "N:age" false)] [("N:age", 1); ("C:kind", 0)] ["p"; "q"].
Definition reread (fm : fmatrix) : res fmatrix := let* out := WriteCases fmt1 fm [0; 1] in qParseAFM PF1 out.
Definition qstr (s : bytes) : string := T s.
(** A quote inside a category: this feature and all after it are gone, without an error. *)
Theorem C126_features_lost_refuted : exists cat fm', reread (quoty cat) = Ok fm' /\
  length (fmData (quoty cat)) = 2 /\ fmData fm' = [] /\ fmLabels fm' = fmLabels (quoty cat).
Proof. exists (qstr ["5"%char; quote]). eexists. split; [vm_compute; reflexivity|]. split; [|split]; reflexivity. Qed.
(** Quotes around a category: it comes back under another name. *)
Theorem C126_renamed_refuted : exists cat fm', reread (quoty cat) = Ok fm' /\
  option_map (fun f => value_at f 0) (nth_error (fmData (quoty cat)) 0) = Some (Some (VCat cat)) /\
  option_map (fun f => value_at f 0) (nth_error (fmData fm') 0) = Some (Some (VCat "a")) /\ cat <> "a".
Proof.
  exists (qstr [quote; "a"%char; quote]). eexists. split; [vm_compute; reflexivity|]. split; [reflexivity|]. split; [reflexivity|]. discriminate.
Qed.
(** A label with an opening quote: the file cannot be read at all. *)
Theorem C126_header_refuted : exists label out, WriteCases fmt1 (mkFM (fmData (quoty "a")) (fmMap (quoty "a")) [label; "q"]) [0; 1] = Ok out /\
  qParseAFM PF1 out = Panic.
Proof. exists (qstr [quote; "p"%char]). eexists. split; [vm_compute; reflexivity|]. vm_compute. reflexivity. Qed.

(** A category with a tab, a quote and a newline in it. *)
Definition odd : string := T [tab; quote; nl].
Example C126_ex :
  match qParseAFM PF1 (concat (map (csv_write tab) (map (map B) (row_file (mkTable "." ["p"; "q"] [("C:kind", [odd; "x"]); ("N:age", ["1"; "0"])]))))) with
  | Ok fm => map (fun f => map (value_at f) [0; 1]) (fmData fm) = [[Some (VCat odd); Some (VCat "x")]; [Some (VNum f1); Some (VNum f0)]]
  | _ => False
  end.
Proof. vm_compute. reflexivity. Qed.
Example C126_ex_hyps : let t := mkTable "." ["p"; "q"] [("C:kind", [odd; "x"]); ("N:age", ["1"; "0"])] in
  rectangular t /\ tLabels t <> [] /\ ~ looks_typed (hd "" (tLabels t)) /\ Forall (fun r => 2 <= String.length (fst r)) (tRows t) /\
  Forall (Forall (fun s => no cr (B s))) (row_file t).
Proof.
  cbv zeta. split; [|split; [|split; [|split]]].
  - repeat (constructor; [reflexivity|]). constructor.
  - discriminate.
  - intros [[s H]|[[s H]|[s H]]]; discriminate.
  - repeat (constructor; [cbn; lia|]). constructor.
  - assert (G : forall s, existsb (Ascii.eqb cr) (B s) = false -> no cr (B s)).
    { intros s H X. assert (existsb (Ascii.eqb cr) (B s) = true) by (apply existsb_exists; exists cr; split; auto). congruence. }
    cbn [row_file map tCorner tLabels tRows fst snd].
    repeat (constructor; [repeat (constructor; [apply G; reflexivity|]); constructor|]). constructor.
Qed.

Print Assumptions C126_without_quotes.
Print Assumptions C126_reading_ends.
Print Assumptions C126_quoted_fields.
Print Assumptions C126_quoted_table.
Print Assumptions C126_features_lost_refuted.
Print Assumptions C126_renamed_refuted.
Print Assumptions C126_header_refuted.
