(** Lemmas for C55-C62. *)
From Verif Require Import Go GoLemmas F64 ModelFeature FeatureSpec ModelSample FeatureProofs ModelText TextProofs ModelMatrix MatrixSpec.
Local Open Scope string_scope.
Local Open Scope nat_scope.
Local Open Scope list_scope.

(** ** Lines *)
Lemma plain_no s : plain s -> no tab (B s) /\ no nl (B s) /\ no cr (B s) /\ no quote (B s).
Proof.
  unfold plain. rewrite Forall_forall. intros H. repeat split; intros X; apply H in X; destruct X as (A & C & D & E); auto.
Qed.
Lemma drop_cr_no l : no cr l -> drop_cr l = l.
Proof.
  intros H. unfold drop_cr. destruct (rev l) as [|c l'] eqn:E; auto. rewrite eqb_neq_ascii; auto.
  intros ->. apply H. apply in_rev. rewrite E. left. auto.
Qed.
Lemma join_no c sep ws : no c sep -> Forall (no c) ws -> no c (join sep ws).
Proof.
  intros Hs. induction 1 as [|w ws Hw H IH]; [intros []|]. destruct ws as [|w' ws]; auto.
  change (join sep (w :: w' :: ws)) with (w ++ sep ++ join sep (w' :: ws)). apply no_app. split; auto. apply no_app. split; auto.
Qed.
Definition rec_ok (r : list string) : Prop := 2 <= length r /\ Forall plain r.
Definition rec_line (r : list string) : bytes := join [tab] (map B r).
Lemma rec_line_no c r : rec_ok r -> c = nl \/ c = cr -> no c (rec_line r).
Proof.
  intros [_ H] Hc. apply join_no.
  - intros [X|[]]. destruct Hc; subst; discriminate.
  - apply Forall_forall. intros w Hw. apply in_map_iff in Hw as (s & <- & Hs). rewrite Forall_forall in H.
    destruct (plain_no _ (H _ Hs)) as (A & C & D & E). destruct Hc; subst; auto.
Qed.
Lemma rec_line_long r : rec_ok r -> length (rec_line r) =? 0 = false.
Proof.
  intros [Hl _]. unfold rec_line. destruct r as [|a [|b r]]; cbn in Hl; try lia.
  change (map B (a :: b :: r)) with (B a :: B b :: map B r).
  change (join [tab] (B a :: B b :: map B r)) with (B a ++ [tab] ++ join [tab] (B b :: map B r)).
  apply Nat.eqb_neq. rewrite !app_length. cbn. lia.
Qed.
Lemma lines_of_records rs : Forall rec_ok rs -> csv_lines (concat (map tsv_line rs)) = map rec_line rs.
Proof.
  unfold csv_lines. induction 1 as [|r rs Hr H IH]; [reflexivity|]. cbn [map concat]. unfold tsv_line at 1.
  fold (rec_line r). rewrite <- app_assoc. change ([nl] ++ concat (map tsv_line rs)) with (nl :: concat (map tsv_line rs)).
  rewrite split_cons by (apply rec_line_no; auto). cbn [map filter].
  rewrite drop_cr_no by (apply rec_line_no; auto). rewrite rec_line_long by auto. cbn [negb]. f_equal. apply IH.
Qed.
Lemma record_of_line r : rec_ok r -> csv_record (rec_line r) = Some (map B r).
Proof.
  intros [Hl H]. unfold csv_record, rec_line. rewrite split_join.
  - assert (E : existsb (fun f => negb (count_byte quote f =? 0)) (map B r) = false).
    { clear Hl. induction H as [|s r Hs H IH]; auto. cbn [map existsb]. rewrite IH, count_byte_no by apply plain_no, Hs. reflexivity. }
    cbv zeta. rewrite E. reflexivity.
  - destruct r; [cbn in Hl; lia|discriminate].
  - apply Forall_forall. intros w Hw. apply in_map_iff in Hw as (s & <- & Hs). rewrite Forall_forall in H. apply plain_no; auto.
Qed.
Lemma map_TB r : map T (map B r) = r.
Proof. rewrite map_map. rewrite (map_ext _ (fun x => x)) by apply TB. apply map_id. Qed.
Lemma csv_read_rec n r rs : rec_ok r -> n = 0 \/ n = length r -> csv_read n (map rec_line (r :: rs)) = CRec (map B r) (map rec_line rs).
Proof.
  intros Hr Hn. cbn [map csv_read]. rewrite record_of_line by auto. rewrite map_length.
  destruct Hn as [-> | ->]; [reflexivity|]. rewrite Nat.eqb_refl, orb_true_r. reflexivity.
Qed.

(** ** Prefixes *)
Lemma prefix2_ok s : 2 <= String.length s -> prefix2 s = Ok (substring 0 2 s).
Proof. intros H. unfold prefix2. rewrite (proj2 (Nat.ltb_ge _ _) H). reflexivity. Qed.
Lemma prefix2_starts a b s : 2 <= String.length s -> (substring 0 2 s = String a (String b "") <-> starts (String a (String b "")) s).
Proof.
  intros H. destruct s as [|c [|d s]]; cbn in H; try lia. cbn. rewrite (match s with "" => eq_refl | String _ _ => eq_refl end : substring 0 0 s = "").
  split.
  - intros E. inversion E; subst. exists s. reflexivity.
  - intros [s' E]. inversion E. reflexivity.
Qed.

Section Parse.
  Variable PF : string -> option f64.
  Variable itoa : nat -> string.
  Variable fmtF : f64 -> string.

  Definition newF (name : string) : feature := if (substring 0 2 name =? "N:")%string then newNum name else newCat name.
  Definition filled (name : string) (vs : list string) : feature := fold_left (fAppend PF) vs (newF name).

  Lemma ParseFeature_ok name vs : 2 <= String.length name -> ParseFeature PF (name :: vs) = Ok (filled name vs).
  Proof.
    intros H. unfold ParseFeature. cbn [get nth_error bind tl]. rewrite prefix2_ok by auto. reflexivity.
  Qed.

  (** ** Columns *)
  Lemma fold_num vs : forall f, fold_left (fAppend PF) vs (FNum f) = FNum (fold_left (nAppend PF) vs f).
  Proof. induction vs as [|v vs IH]; intros f; cbn; auto. Qed.
  Lemma fold_cat vs : forall f, fold_left (fAppend PF) vs (FCat f) = FCat (fold_left cAppend vs f).
  Proof. induction vs as [|v vs IH]; intros f; cbn; auto. Qed.
  Definition num_val (v : string) : f64 := match PF v with Some x => x | None => f0 end.
  Definition num_bad (v : string) : bool := match PF v with Some _ => false | None => true end.
  Lemma fold_nAppend name vs :
    fold_left (nAppend PF) vs (mkNum [] [] name false) = mkNum (map num_val vs) (map num_bad vs) name (existsb num_bad vs).
  Proof.
    induction vs as [|v vs IH] using rev_ind; auto. rewrite fold_left_app, IH. cbn [fold_left]. unfold nAppend.
    rewrite !map_app, existsb_app. cbn [map existsb nData nMissing nName nHas].
    assert (Ev : num_val v = match PF v with Some x => x | None => f0 end) by reflexivity.
    assert (Eb : num_bad v = match PF v with Some _ => false | None => true end) by reflexivity.
    rewrite Ev, Eb. destruct (PF v); cbn [orb]; rewrite ?orb_false_r, ?orb_true_r; reflexivity.
  Qed.
  (** What a cell of a file means for a feature of a name. *)
  Definition cell_value (name v : string) : value :=
    if (substring 0 2 name =? "N:")%string then match PF v with Some x => VNum x | None => VMissing end
    else if missing_token v then VMissing else VCat v.
  Lemma filled_name name vs : fName (filled name vs) = name.
  Proof.
    unfold filled, newF. destruct (substring 0 2 name =? "N:")%string.
    - unfold newNum. rewrite fold_num, fold_nAppend. reflexivity.
    - unfold newCat. rewrite fold_cat. cbn [fName].
      induction vs as [|v vs IH] using rev_ind; auto. rewrite fold_left_app. cbn [fold_left]. unfold cAppend.
      destruct (missing_token v); [exact IH|]. destruct (CatToNum _ v). exact IH.
  Qed.
  Lemma filled_kind name vs : is_numerical (filled name vs) = (substring 0 2 name =? "N:")%string.
  Proof.
    unfold filled, newF. destruct (substring 0 2 name =? "N:")%string; unfold newNum, newCat; rewrite ?fold_num, ?fold_cat; reflexivity.
  Qed.
  Lemma filled_length name vs : fLength (filled name vs) = length vs.
  Proof.
    unfold filled, newF. destruct (substring 0 2 name =? "N:")%string.
    - unfold newNum. rewrite fold_num, fold_nAppend. cbn. unfold nLength. cbn. apply map_length.
    - unfold newCat. rewrite fold_cat. cbn. unfold cLength. exact (ho_len2 _ _ (appends_ok name vs)).
  Qed.
  Lemma filled_value name vs i v : nth_error vs i = Some v -> value_at (filled name vs) i = Some (cell_value name v).
  Proof.
    intros Hv. unfold filled, newF, cell_value. destruct (substring 0 2 name =? "N:")%string.
    - unfold newNum. rewrite fold_num, fold_nAppend. cbn [value_at nMissing nData]. rewrite !nth_error_map, Hv. cbn [option_map].
      unfold num_bad, num_val. destruct (PF v); reflexivity.
    - unfold newCat. rewrite fold_cat. cbn [value_at].
      pose proof (ho_st _ _ (appends_ok name vs) i v Hv) as Hs. unfold stored, appends, emptyCat in Hs.
      destruct (missing_token v).
      + destruct Hs as [-> ->]. reflexivity.
      + destruct Hs as (-> & c & -> & Hc). cbn [option_map]. rewrite Hc. reflexivity.
  Qed.
  Lemma filled_flag name vs : fMissingVals (filled name vs) = true <-> exists i, value_at (filled name vs) i = Some VMissing.
  Proof.
    assert (G : fMissingVals (filled name vs) = existsb (fun v => match cell_value name v with VMissing => true | _ => false end) vs).
    { unfold filled, newF, cell_value. destruct (substring 0 2 name =? "N:")%string.
      - unfold newNum. rewrite fold_num, fold_nAppend. cbn [fMissingVals nHas]. clear. induction vs as [|v vs IH]; auto. cbn. rewrite IH.
        unfold num_bad. destruct (PF v); reflexivity.
      - unfold newCat. rewrite fold_cat. cbn [fMissingVals]. pose proof (ho_has _ _ (appends_ok name vs)) as EH.
        unfold appends, emptyCat in EH. rewrite EH.
        clear. induction vs as [|v vs IH]; auto. cbn. rewrite IH. destruct (missing_token v); reflexivity. }
    rewrite G, existsb_exists. split.
    - intros (v & Hv & E). apply In_nth_error in Hv as [i Hi]. exists i. rewrite (filled_value _ _ _ _ Hi).
      destruct (cell_value name v); auto; discriminate.
    - intros (i & Hi). destruct (nth_error vs i) as [v|] eqn:Ev.
      + rewrite (filled_value _ _ _ _ Ev) in Hi. inversion Hi as [E]. exists v. split; [eapply nth_error_In; eauto|]. rewrite E. auto.
      + exfalso. apply nth_error_None in Ev. pose proof (filled_length name vs) as HL.
        assert (Hn : value_at (filled name vs) i = None).
        { destruct (filled name vs) as [f|f]; cbn in HL |- *.
          - unfold nLength in HL. rewrite (proj2 (nth_error_None (nMissing f) i)) by lia. reflexivity.
          - unfold cLength in HL. rewrite (proj2 (nth_error_None (cMissing f) i)) by lia. reflexivity. }
        congruence.
  Qed.

  (** ** Features in rows *)
  Lemma parse_rows_ok : forall rows n data lookup,
    Forall (fun r => rec_ok r /\ length r = n /\ 2 <= String.length (hd "" r)) rows ->
    parse_rows PF n (map rec_line rows) data lookup =
    Ok (data ++ map (fun r => filled (hd "" r) (tl r)) rows,
        rev (combine (map (hd "") rows) (seq (length data) (length rows))) ++ lookup).
  Proof.
    induction rows as [|r rows IH]; intros n data lookup H.
    - cbn. rewrite app_nil_r. reflexivity.
    - apply Forall_cons_iff in H as [(Hr & Hl & Hn) H].
      assert (E : csv_read n (map rec_line (r :: rows)) = CRec (map B r) (map rec_line rows)) by (apply csv_read_rec; auto).
      cbn [map] in E |- *. cbn [parse_rows]. rewrite E, map_TB.
      destruct r as [|name vs]; [destruct Hr as [Hr _]; cbn in Hr; lia|]. cbn [hd] in Hn.
      rewrite ParseFeature_ok by auto. cbn [bind get nth_error]. rewrite IH by auto.
      cbn [hd tl map combine length seq rev]. rewrite app_length. cbn [length]. rewrite Nat.add_1_r.
      rewrite <- !app_assoc. reflexivity.
  Qed.

  (** ** Features in columns *)
  Definition map2 {A C D} (g : A -> C -> D) (l : list A) (l' : list C) : list D := map (fun p => g (fst p) (snd p)) (combine l l').
  Lemma append_case_ok : forall record data, length record <= length data ->
    append_case PF record data = Ok (map2 (fAppend PF) data record ++ skipn (length record) data).
  Proof.
    intros record data Hlen. unfold append_case.
    enough (G : forall r pre data, length r <= length data ->
      foreach (combine (seq (length pre) (length r)) r) (fun '((i, v) : nat * string) data =>
        let* f := get data i in set data i (fAppend PF f v)) (pre ++ data)
      = Ok (pre ++ map2 (fAppend PF) data r ++ skipn (length r) data)).
    { apply (G record []); auto. }
    clear. induction r as [|v r IH]; intros pre data H; [unfold map2; destruct data; reflexivity|]. destruct data as [|f data]; [cbn in H; lia|].
    cbn [length seq combine foreach].
    assert (Eg : get (pre ++ f :: data) (length pre) = Ok f) by (apply get_nth; rewrite nth_error_app2, Nat.sub_diag by lia; reflexivity).
    assert (Es : set (pre ++ f :: data) (length pre) (fAppend PF f v) = Ok (upd (pre ++ f :: data) (length pre) (fAppend PF f v))).
    { unfold set. rewrite app_length. cbn [length]. rewrite (proj2 (Nat.ltb_lt _ _)) by lia. reflexivity. }
    rewrite Eg. cbn [bind]. rewrite Es. cbn [bind].
    assert (Eu : upd (pre ++ f :: data) (length pre) (fAppend PF f v) = (pre ++ [fAppend PF f v]) ++ data).
    { rewrite <- app_assoc. clear. induction pre; cbn; auto. f_equal. auto. }
    rewrite Eu. specialize (IH (pre ++ [fAppend PF f v]) data). rewrite app_length in IH. cbn [length] in IH. rewrite Nat.add_1_r in IH.
    rewrite IH by (cbn in H; lia). rewrite <- !app_assoc. reflexivity.
  Qed.
  Lemma LoadCases_ok : forall rows n count data labels,
    n = S (length data) -> Forall (fun r => rec_ok r /\ length r = n) rows ->
    LoadCases PF itoa n true count (map rec_line rows) data labels =
    Ok (fold_left (fun data r => map2 (fAppend PF) data (tl r)) rows data, labels ++ map (hd "") rows).
  Proof.
    induction rows as [|r rows IH]; intros n count data labels Hn H.
    - cbn. rewrite app_nil_r. reflexivity.
    - apply Forall_cons_iff in H as [(Hr & Hl) H].
      assert (E : csv_read n (map rec_line (r :: rows)) = CRec (map B r) (map rec_line rows)) by (apply csv_read_rec; auto).
      cbn [map] in E |- *. cbn [LoadCases]. rewrite E, map_TB.
      destruct r as [|name vs]; [destruct Hr as [Hr _]; cbn in Hr; lia|]. cbn [get nth_error bind tl].
      assert (Hvs : length vs = length data) by (cbn in Hl; lia).
      rewrite append_case_ok by lia. cbn [bind]. rewrite Hvs, skipn_all, app_nil_r.
      replace (if n =? 0 then length (map B (name :: vs)) else n) with n by (destruct n; [lia|reflexivity]).
      rewrite IH; auto.
      + cbn [fold_left tl hd map]. rewrite <- app_assoc. reflexivity.
      + rewrite Hn. unfold map2. rewrite map_length, combine_length. lia.
  Qed.
  Lemma map2_length {A C D} (g : A -> C -> D) l l' : length l = length l' -> length (map2 g l l') = length l.
  Proof. intros H. unfold map2. rewrite map_length, combine_length. lia. Qed.
  Lemma map2_nth {A C D} (g : A -> C -> D) : forall l l' k a c, nth_error l k = Some a -> nth_error l' k = Some c ->
    nth_error (map2 g l l') k = Some (g a c).
  Proof.
    unfold map2. induction l as [|x l IH]; intros [|y l'] [|k] a c Ha Hc; try discriminate; cbn in *.
    - congruence.
    - apply IH; auto.
  Qed.
  (** Appending cases one by one fills the columns. *)
  Lemma columns_filled : forall rows data, Forall (fun r => length (tl r) = length data) rows ->
    forall k f, nth_error data k = Some f ->
    nth_error (fold_left (fun data r => map2 (fAppend PF) data (tl r)) rows data) k =
    Some (fold_left (fAppend PF) (map (fun r => nth k (tl r) "") rows) f).
  Proof.
    induction rows as [|r rows IH]; intros data H k f Hf; cbn; auto.
    apply Forall_cons_iff in H as [Hr H].
    assert (Hk : k < length (tl r)) by (rewrite Hr; eapply nth_error_some_lt; eauto).
    apply IH.
    - rewrite map2_length by auto. auto.
    - apply map2_nth; auto. apply nth_error_nth'. auto.
  Qed.
  Lemma columns_length : forall rows data, Forall (fun r => length (tl r) = length data) rows ->
    length (fold_left (fun data r => map2 (fAppend PF) data (tl r)) rows data) = length data.
  Proof.
    induction rows as [|r rows IH]; intros data H; cbn; auto. apply Forall_cons_iff in H as [Hr H].
    rewrite IH; rewrite map2_length; auto.
  Qed.
  Lemma headers_ok : forall hs data lookup, Forall (fun h => 2 <= String.length h) hs ->
    foreach (combine (seq (length data) (length hs)) hs)
      (fun '((i, label) : nat * string) '((data, lookup) : list feature * list (string * nat)) =>
        let* p := prefix2 label in
        Ok (data ++ [if (p =? "N:")%string then newNum label else newCat label], (label, i) :: lookup)) (data, lookup)
    = Ok (data ++ map newF hs, rev (combine hs (seq (length data) (length hs))) ++ lookup).
  Proof.
    induction hs as [|h hs IH]; intros data lookup H; [cbn; rewrite app_nil_r; auto|].
    apply Forall_cons_iff in H as [Hh H]. cbn [length seq combine foreach map rev].
    rewrite prefix2_ok by auto. cbn [bind].
    specialize (IH (data ++ [newF h]) ((h, length data) :: lookup)). rewrite app_length in IH. cbn [length] in IH. rewrite Nat.add_1_r in IH.
    unfold newF in IH at 1. rewrite IH by auto. rewrite <- !app_assoc. reflexivity.
  Qed.

  (** ** Tables *)
  Lemma sniff_false l0 : ~ looks_typed l0 ->
    (if 1 <? String.length l0
     then let* sniff := prefix2 l0 in Ok ((sniff =? "N:")%string || (sniff =? "C:")%string || (sniff =? "B:")%string)
     else Ok false) = Ok false.
  Proof.
    intros H. destruct (Nat.ltb_spec 1 (String.length l0)) as [L|L]; auto. rewrite prefix2_ok by lia. cbn [bind]. f_equal.
    apply orb_false_iff. split; [apply orb_false_iff; split|]; apply String.eqb_neq; intros E; apply H; unfold looks_typed;
      apply prefix2_starts in E; auto; lia.
  Qed.
  Lemma sniff_true l0 : 2 <= String.length l0 -> looks_typed l0 ->
    (if 1 <? String.length l0
     then let* sniff := prefix2 l0 in Ok ((sniff =? "N:")%string || (sniff =? "C:")%string || (sniff =? "B:")%string)
     else Ok false) = Ok true.
  Proof.
    intros L H. rewrite (proj2 (Nat.ltb_lt _ _)) by lia. rewrite prefix2_ok by lia. cbn [bind]. f_equal.
    destruct H as [H|[H|H]]; apply prefix2_starts in H; auto; rewrite H; reflexivity.
  Qed.
  Lemma ParseAFM_rows corner labels rows : labels <> [] -> Forall plain (corner :: labels) -> ~ looks_typed (hd "" labels) ->
    Forall (fun r => length r = S (length labels) /\ Forall plain r /\ 2 <= String.length (hd "" r)) rows ->
    ParseAFM PF itoa (concat (map tsv_line ((corner :: labels) :: rows))) =
    Ok (mkFM (map (fun r => filled (hd "" r) (tl r)) rows) (rev (combine (map (hd "") rows) (seq 0 (length rows)))) labels).
  Proof.
    intros Hn Hp Hl Hr. destruct labels as [|l0 labels]; [congruence|]. cbn [hd] in Hl.
    assert (H0 : rec_ok (corner :: l0 :: labels)) by (split; [cbn; lia|auto]).
    assert (Hrows : Forall (fun r => rec_ok r /\ length r = S (length (l0 :: labels)) /\ 2 <= String.length (hd "" r)) rows).
    { eapply Forall_impl; [|exact Hr]. cbn. intros r (A & C & D). split; [split; auto; lia|auto]. }
    unfold ParseAFM. rewrite lines_of_records.
    2:{ constructor; auto. eapply Forall_impl; [|exact Hrows]. cbn. tauto. }
    rewrite csv_read_rec by auto. rewrite map_TB. cbn [tl get nth_error bind]. rewrite sniff_false by auto. cbn [bind].
    rewrite map_length. cbn [length]. rewrite (parse_rows_ok rows) by exact Hrows. cbn [bind app length]. rewrite app_nil_r. reflexivity.
  Qed.
  Lemma ParseAFM_cols corner names rows : Forall plain (corner :: names) -> looks_typed (hd "" names) ->
    Forall (fun h => 2 <= String.length h) names -> names <> [] ->
    Forall (fun r => length r = S (length names) /\ Forall plain r) rows ->
    ParseAFM PF itoa (concat (map tsv_line ((corner :: names) :: rows))) =
    Ok (mkFM (fold_left (fun data r => map2 (fAppend PF) data (tl r)) rows (map newF names))
             (rev (combine names (seq 0 (length names)))) (map (hd "") rows)).
  Proof.
    intros Hp Ht Hh Hn Hr. destruct names as [|n0 names]; [congruence|]. cbn [hd] in Ht.
    assert (H0 : rec_ok (corner :: n0 :: names)) by (split; [cbn; lia|auto]).
    assert (Hrows : Forall (fun r => rec_ok r /\ length r = S (length (n0 :: names))) rows).
    { eapply Forall_impl; [|exact Hr]. cbn. intros r (A & C). split; [split; auto; lia|auto]. }
    unfold ParseAFM. rewrite lines_of_records.
    2:{ constructor; auto. eapply Forall_impl; [|exact Hrows]. cbn. tauto. }
    rewrite csv_read_rec by auto. rewrite map_TB. cbn [tl]. 
    assert (Eg : get (n0 :: names) 0 = Ok n0) by reflexivity. rewrite Eg. cbn [bind]. rewrite sniff_true; auto; [|apply Forall_inv in Hh; auto].
    cbn [bind]. rewrite map_length.
    pose proof (headers_ok (n0 :: names) [] [] Hh) as EH. cbn [length app] in EH |- *. rewrite EH. cbn [bind].
    rewrite (LoadCases_ok rows).
    - cbn [bind app]. rewrite app_nil_r. reflexivity.
    - cbn [map length]. rewrite map_length. reflexivity.
    - exact Hrows.
  Qed.
End Parse.
