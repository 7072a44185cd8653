(** C144: the files of -blacklist. *)
From Coq Require Import Sorted.
From Verif Require Import Go GoLemmas F64 ModelFeature ModelText TextProofs ModelMatrix MatrixSpec MatrixProofs ModelExport ModelQuoted PropMatrix PropQuoted
  ModelCommands PropCommands ModelNfold PropNfold FeatureSpec PropLibSVM2 PropToafm ModelList.
Local Open Scope string_scope.
Local Open Scope nat_scope.
Local Open Scope list_scope.

(** ** Spec: a file as its lines; each ends in a newline, with or without a carriage return
    before it. *)
Definition render (ls : list (bytes * bool)) : bytes :=
  concat (map (fun l => fst l ++ (if snd l : bool then [cr; nl] else [nl])) ls).
Definition simple_line (l : bytes * bool) : Prop := no nl (fst l) /\ no cr (fst l) /\ no quote (fst l).
(** The text up to the first tab *)
Fixpoint up_to_tab (l : bytes) : bytes :=
  match l with [] => [] | c :: l => if Ascii.eqb c tab then [] else c :: up_to_tab l end.
Definition tabs (l : bytes) : nat := count_occ Ascii.ascii_dec l tab.
(** The lines that are not blank *)
Definition entries (ls : list (bytes * bool)) : list bytes := filter (fun l => match l with [] => false | _ => true end) (map fst ls).

Lemma split_tabs l : exists ws, split tab l = up_to_tab l :: ws /\ length ws = tabs l.
Proof.
  unfold tabs. induction l as [|c l (ws & E & L)]; [exists []; auto|]. cbn [split up_to_tab count_occ].
  destruct (Ascii.eqb_spec c tab) as [->|Hc].
  - exists (split tab l). split; [reflexivity|]. destruct (Ascii.ascii_dec tab tab); [|congruence]. rewrite E. cbn [length]. f_equal. exact L.
  - rewrite E. exists ws. split; [reflexivity|]. destruct (Ascii.ascii_dec c tab); [congruence|auto].
Qed.
Lemma render_lines ls : Forall simple_line ls -> split nl (unix (render ls)) = map fst ls ++ [[]].
Proof.
  intros H. rewrite unix_lines. induction H as [|[l b] ls (Hn & Hc & _) H IH]; [reflexivity|]. unfold render in *. cbn [map concat fst snd] in *.
  destruct b.
  - rewrite <- app_assoc. replace (l ++ [cr; nl] ++ concat (map (fun l => fst l ++ (if snd l : bool then [cr; nl] else [nl])) ls))
      with ((l ++ [cr]) ++ nl :: concat (map (fun l => fst l ++ (if snd l : bool then [cr; nl] else [nl])) ls)) by (rewrite <- app_assoc; reflexivity).
    rewrite split_cons; [|intros X; apply in_app_or in X as [X|[X|[]]]; [auto|discriminate]]. cbn [map app]. rewrite IH. f_equal.
    unfold drop_cr. rewrite rev_app_distr. cbn [rev app]. rewrite Ascii.eqb_refl. apply rev_involutive.
  - rewrite <- app_assoc. cbn [app]. rewrite split_cons by auto. cbn [map app]. rewrite IH. f_equal. apply drop_cr_no. auto.
Qed.
Lemma render_quotes ls : Forall simple_line ls -> no quote (render ls).
Proof.
  intros H X. unfold render in X. apply in_concat in X as (t & Ht & X). apply in_map_iff in Ht as ([l b] & <- & Hl).
  rewrite Forall_forall in H. destruct (H _ Hl) as (_ & _ & Hq). cbn [fst snd] in *. apply in_app_or in X as [X|X]; [auto|].
  destruct b; cbn in X; intuition discriminate.
Qed.
Lemma filter_entries ls : filter filled_line (map fst ls ++ [[]]) = entries ls.
Proof.
  unfold entries. rewrite filter_app. cbn [filter filled_line length Nat.eqb negb]. rewrite app_nil_r. apply filter_ext. intros [|c l]; reflexivity.
Qed.
Lemma first_of ls : forall n, (forall l, In l ls -> tabs l = n) ->
  forall m, m = 0 \/ m = S n -> first_fields m (map (fun l => Some (split tab l)) ls) = Ok (Some (map (fun l => T (up_to_tab l)) ls)).
Proof.
  induction ls as [|l ls IH]; intros n H m Hm; [reflexivity|]. cbn [map first_fields].
  destruct (split_tabs l) as (ws & E & L). rewrite E. cbn [length get nth_error bind]. rewrite L, (H l) by (left; auto).
  assert (Hb : (m =? 0) || (S n =? m) = true).
  { destruct Hm as [->| ->]; [reflexivity|]. rewrite Nat.eqb_refl. apply Bool.orb_true_r. }
  rewrite Hb. rewrite (IH n); [reflexivity|intros; apply H; right; auto|auto].
Qed.

Lemma unix_step x d r : unix (x :: d :: r) = if Ascii.eqb x cr && Ascii.eqb d nl then unix (d :: r) else x :: unix (d :: r).
Proof. reflexivity. Qed.

(** ** C144 *)
(** Lines without quotes: every line that is not blank gives the text up to its first tab. *)
Theorem C144_lines_partial : forall ls n, Forall simple_line ls -> (forall l, In l (entries ls) -> tabs l = n) ->
  list_ids (render ls) = Ok (Some (map (fun l => T (up_to_tab l)) (entries ls))).
Proof.
  intros ls n Hs Ht. unfold list_ids. rewrite records_free; [|lia|apply unix_no, render_quotes; auto]. cbn [bind].
  rewrite render_lines by auto. rewrite filter_entries. apply (first_of _ n); auto.
Qed.
(** Quoted names may hold anything but carriage returns. *)
Theorem C144_quoted_partial : forall names, Forall (fun s => B s <> [] /\ no cr (B s)) names ->
  list_ids (concat (map (fun s => csv_write tab [B s]) names)) = Ok (Some names).
Proof.
  intros names H. unfold list_ids.
  assert (Hw : Forall written (map (fun s => [B s]) names)).
  { apply Forall_forall. intros r Hr. apply in_map_iff in Hr as (s & <- & Hs). rewrite Forall_forall in H. destruct (H s Hs) as [H1 H2].
    split; [discriminate|]. split; [intros X; inversion X; congruence|]. constructor; auto. }
  rewrite <- (map_map (fun s => [B s]) (csv_write tab)). rewrite unix_id.
  2:{ intros X. apply in_concat in X as (l & Hl & X). apply in_map_iff in Hl as (r & <- & Hr). rewrite Forall_forall in Hw.
      destruct (Hw r Hr) as (_ & _ & Hc). revert X. apply write_no_cr. exact Hc. }
  rewrite records_written by (auto; lia). cbn [bind]. rewrite !map_map.
  assert (G : forall m, m = 0 \/ m = 1 -> first_fields m (map (fun s => Some [B s]) names) = Ok (Some names)).
  { clear. induction names as [|s names IH]; intros m Hm; [reflexivity|]. cbn [map first_fields length get nth_error bind].
    assert (Hb : (m =? 0) || (1 =? m) = true) by (destruct Hm as [->| ->]; reflexivity). rewrite Hb, IH by auto. cbn [bind option_map]. rewrite TB. reflexivity. }
  apply G. auto.
Qed.

(** Growing: the candidates are the features that no line names, beside the target and the
    patterns. *)
Theorem C144_growforest_partial : forall fm ls n target block inc targeti,
  names_ok fm -> NoDup (map fName (fmData fm)) -> assoc target (fmMap fm) = Some targeti ->
  Forall simple_line ls -> (forall l, In l (entries ls) -> tabs l = n) ->
  exists bl nFeatures cans,
    grow_select fm (Some (render ls)) target block inc = Ok (Some (targeti, bl, nFeatures)) /\
    candidates_of (length (fmData fm)) targeti bl = Ok cans /\ StronglySorted lt cans /\
    forall i f, nth_error (fmData fm) i = Some f ->
      (In i cans <-> fName f <> target /\ ~ In (B (fName f)) (map up_to_tab (entries ls)) /\
         (forall re, block = Some re -> re (fName f) = false) /\ (forall re, inc = Some re -> re (fName f) = true)).
Proof.
  intros fm ls n target block inc targeti Hno Hnd Ht Hs Hn. unfold grow_select. rewrite (C144_lines_partial ls n Hs Hn). cbn [bind].
  set (ids := map (fun l => T (up_to_tab l)) (entries ls)).
  destruct (C96_candidates fm ids target block inc targeti Hno Ht) as (bl & nF & cans & E1 & E2 & E3 & E4).
  exists bl, nF, cans. split; [exact E1|]. split; [exact E2|]. split; [exact E3|]. intros i f Hf. rewrite E4. unfold asked_for.
  destruct Hno as [N1 N2].
  assert (Hi : forall k, assoc (fName f) (fmMap fm) = Some k -> k = i).
  { intros k Ek. destruct (N1 _ _ Ek) as (g & Eg & Hg). apply (proj1 (NoDup_nth_error _) Hnd); [rewrite map_length; eapply nth_error_some_lt; eauto|].
    rewrite !nth_error_map, Eg, Hf. cbn. congruence. }
  assert (T1 : i = targeti <-> fName f = target).
  { split; [intros ->|intros E].
    - destruct (N1 _ _ Ht) as (g & Eg & Hg). congruence.
    - symmetry. apply Hi. congruence. }
  assert (L1 : listed fm ids i <-> In (B (fName f)) (map up_to_tab (entries ls))).
  { unfold listed, ids. split.
    - intros (id & Hid & Ha). apply in_map_iff in Hid as (l & <- & Hl). destruct (N1 _ _ Ha) as (g & Eg & Hg). assert (g = f) by congruence. subst g.
      apply in_map_iff. exists l. split; [|exact Hl]. rewrite Hg, BT. reflexivity.
    - intros Hin. apply in_map_iff in Hin as (l & El & Hl). exists (fName f). split.
      + apply in_map_iff. exists l. split; [rewrite El, TB; reflexivity|exact Hl].
      + destruct (N2 f) as [k Ek]; [eapply nth_error_In; eauto|]. rewrite Ek. f_equal. auto. }
  rewrite L1. split.
  - intros (A & C & g & Hg & D1 & D2). assert (g = f) by congruence. subst g. split; [intros X; apply A, T1, X|]. auto.
  - intros (A & C & D1 & D2). split; [intros X; apply A, T1, X|]. split; [exact C|]. exists f. auto.
Qed.
(** nfold: the features that no line names, and the target *)
Theorem C144_nfold_partial : forall fm ls n target maxcats,
  names_ok fm -> NoDup (map fName (fmData fm)) -> Forall simple_line ls -> (forall l, In l (entries ls) -> tabs l = n) ->
  exists fm', nfold_select fm (Some (render ls)) target maxcats false false false = Ok (Some fm') /\ fmLabels fm' = fmLabels fm /\
    names_ok fm' /\
    forall f, In f (fmData fm') <-> In f (fmData fm) /\ (fName f = target \/ ~ In (B (fName f)) (map up_to_tab (entries ls))) /\
      (maxcats = (-1)%Z \/ (Z.of_nat (ModelTargets2.fNCats f) <= maxcats)%Z).
Proof.
  intros fm ls n target maxcats Hno Hnd Hs Hn. unfold nfold_select. rewrite (C144_lines_partial ls n Hs Hn). cbn [bind].
  rewrite nfold_kept by auto. cbn [bind]. eexists. split; [reflexivity|]. split; [reflexivity|]. split; [apply table_names_ok|].
  intros f. cbn [fmData]. rewrite filter_In. unfold keeps. rewrite Bool.andb_true_iff, Bool.orb_true_iff, Bool.negb_true_iff, Bool.andb_false_iff, Bool.negb_false_iff.
  rewrite Z.eqb_eq, Z.leb_le, String.eqb_eq.
  assert (L1 : existsb (String.eqb (fName f)) (map (fun l => T (up_to_tab l)) (entries ls)) = false <-> ~ In (B (fName f)) (map up_to_tab (entries ls))).
  { rewrite <- Bool.not_true_iff_false, existsb_exists. split; intros H X; apply H.
    - apply in_map_iff in X as (l & El & Hl). exists (fName f). split; [|apply String.eqb_refl]. apply in_map_iff. exists l. rewrite El, TB. auto.
    - destruct X as (id & Hid & E). apply String.eqb_eq in E. subst id. apply in_map_iff in Hid as (l & El & Hl). apply in_map_iff. exists l. rewrite <- El, BT. auto. }
  rewrite L1. tauto.
Qed.

(** toafm: the file has the features that no line names, in order, with the values they had. *)
Definition is_named (ls : list (bytes * bool)) (f : feature) : bool := existsb (fun l => String.eqb (fName f) (T (up_to_tab l))) (entries ls).
Theorem C144_toafm_partial : forall PF itoa fmtF fm ls k n,
  names_ok fm -> NoDup (map fName (fmData fm)) -> Forall simple_line ls -> (forall l, In l (entries ls) -> tabs l = k) ->
  (forall f, In f (fmData fm) -> fName f <> "") ->
  let kept := filter (fun f => negb (is_named ls f)) (fmData fm) in
  kept <> [] -> 0 < n -> (forall f, In f kept -> fLength f = n) ->
  (forall l, nth_error (fmLabels fm) 0 = Some l -> ~ looks_typed l) -> PF "NA" = None ->
  (forall c, c < n -> exists l, nth_error (fmLabels fm) c = Some l /\ plain l) ->
  (forall f, In f kept -> plain (fName f) /\ forall c, c < n -> exists v, value_at f c = Some v /\ cell_ok is_token PF fmtF v) ->
  exists out fm', toafm_select itoa fmtF "" "" (Some (render ls)) fm = Ok (Some out) /\ ParseAFM PF itoa out = Ok fm' /\
    (forall c, c < n -> nth_error (fmLabels fm') c = nth_error (fmLabels fm) c) /\ length (fmLabels fm') = n /\ names_ok fm' /\
    Forall2 (fun f f' => name_with_kind f (fName f') /\ is_numerical f' = is_numerical f /\ fLength f' = n /\
                         forall c, c < n -> value_at f' c = value_at f c) kept (fmData fm').
Proof.
  intros PF itoa fmtF fm ls k n Hno Hnd Hs Ht Hname kept. unfold toafm_select. rewrite (C144_lines_partial ls k Hs Ht). cbn [bind].
  assert (E : kept = remaining ["" ; ""] (map (fun l => T (up_to_tab l)) (entries ls)) (fmData fm)).
  { unfold kept, remaining. apply filter_ext_in. intros f Hf. f_equal. unfold struck, is_named. cbn [existsb].
    assert (H0 : String.eqb (fName f) "" = false) by (apply String.eqb_neq; auto). rewrite H0. cbn [orb negb]. rewrite Bool.andb_true_r.
    generalize (entries ls). intros es. induction es as [|l es IH]; [reflexivity|]. cbn [map existsb]. rewrite IH. reflexivity. }
  rewrite E. apply C106_matrix_rewritten; auto.
Qed.

(** ** Where lists are refused *)
(** A line with another number of tabs than the first ends the program, for every list. *)
Theorem C144_ragged_refuted : forall ls l l' rest, Forall simple_line ls -> entries ls = l :: rest -> In l' rest -> tabs l' <> tabs l ->
  list_ids (render ls) = Ok None.
Proof.
  intros ls l l' rest Hs E Hin Ht. unfold list_ids. rewrite records_free; [|lia|apply unix_no, render_quotes; auto]. cbn [bind].
  rewrite render_lines by auto. rewrite filter_entries, E. cbn [map first_fields Nat.eqb orb].
  destruct (split_tabs l) as (ws & Es & L). rewrite Es. cbn [length get nth_error bind]. rewrite L.
  assert (G : first_fields (S (tabs l)) (map (fun l => Some (split tab l)) rest) = Ok None).
  { clear - Hin Ht. induction rest as [|k rest IH]; [destruct Hin|]. cbn [map first_fields Nat.eqb orb]. destruct (split_tabs k) as (ws & Es & L). rewrite Es.
    cbn [length Nat.eqb]. rewrite L. destruct (Nat.eqb_spec (tabs k) (tabs l)) as [Ek|Ek]; [|reflexivity]. cbn [get nth_error bind]. rewrite Ek.
    rewrite IH; [reflexivity|]. destruct Hin as [->|Hin]; [congruence|exact Hin]. }
  rewrite G. reflexivity.
Qed.
(** and then none of the three commands does anything. *)
Theorem C144_ragged_commands_refuted : forall ls l l' rest, Forall simple_line ls -> entries ls = l :: rest -> In l' rest -> tabs l' <> tabs l ->
  (forall fm target block inc, grow_select fm (Some (render ls)) target block inc = Ok None) /\
  (forall fm target maxcats impute onehot num, nfold_select fm (Some (render ls)) target maxcats impute onehot num = Ok None) /\
  (forall itoa fmtF anon libsvm fm, toafm_select itoa fmtF anon libsvm (Some (render ls)) fm = Ok None).
Proof.
  intros ls l l' rest Hs E Hin Ht. pose proof (C144_ragged_refuted ls l l' rest Hs E Hin Ht) as R.
  unfold grow_select, nfold_select, toafm_select. rewrite R. auto.
Qed.
(** So does a name with a quote inside that is not quoted as a whole, wherever it stands. *)
Theorem C144_bare_quote_refuted : forall ls a c b, Forall simple_line ls -> c <> tab -> c <> nl -> c <> quote -> no tab a -> no nl a -> no quote a ->
  (forall l, In l (entries ls) -> tabs l = 0) ->
  list_ids (render ls ++ c :: a ++ quote :: b) = Ok None.
Proof.
  intros ls a c b Hs Hc1 Hc2 Hc3 Ha1 Ha2 Ha3 Ht. unfold list_ids.
  assert (U : exists a' b', unix (render ls ++ c :: a ++ quote :: b) = render (map (fun l => (fst l, false)) ls) ++ c :: a' ++ quote :: b' /\ no tab a' /\ no nl a' /\ no quote a').
  { assert (U1 : forall s t, no quote s -> no nl s -> unix (s ++ quote :: t) = s ++ unix (quote :: t)).
    { clear. induction s as [|x s IH]; intros t H1 H2; [reflexivity|]. apply no_cons in H1 as [H1 H1']. apply no_cons in H2 as [H2 H2'].
      cbn [app]. destruct (s ++ quote :: t) as [|d r] eqn:E; [destruct s; discriminate|]. rewrite unix_step. rewrite <- E, IH by auto.
      assert (Hd : Ascii.eqb d nl = false).
      { destruct s as [|y s]; inversion E; subst; [reflexivity|]. apply no_cons in H2' as [H2' _]. apply eqb_neq_ascii. auto. }
      rewrite Hd, Bool.andb_false_r. reflexivity. }
    assert (U2 : forall l t, no nl l -> no cr l -> unix (l ++ nl :: t) = l ++ nl :: unix t).
    { clear. induction l as [|x l IH]; intros t H1 H2.
      - cbn [app unix]. destruct t; reflexivity.
      - apply no_cons in H1 as [H1 H1']. apply no_cons in H2 as [H2 H2']. cbn [app]. destruct (l ++ nl :: t) as [|d r] eqn:E; [destruct l; discriminate|].
        rewrite unix_step. rewrite <- E, IH by auto. rewrite (eqb_neq_ascii x cr) by auto. reflexivity. }
    assert (U3 : forall l t, no nl l -> no cr l -> unix (l ++ cr :: nl :: t) = l ++ nl :: unix t).
    { clear - U2. induction l as [|x l IH]; intros t H1 H2.
      - cbn [app]. change (unix (cr :: nl :: t)) with (unix (nl :: t)). apply (U2 []); auto.
      - apply no_cons in H1 as [H1 H1']. apply no_cons in H2 as [H2 H2']. cbn [app]. destruct (l ++ cr :: nl :: t) as [|d r] eqn:E; [destruct l; discriminate|].
        rewrite unix_step. rewrite <- E, IH by auto. rewrite (eqb_neq_ascii x cr) by auto. reflexivity. }
    assert (U4 : forall t, unix (render ls ++ t) = render (map (fun l => (fst l, false)) ls) ++ unix t).
    { clear - Hs U2 U3. induction Hs as [|[l e] ls (H1 & H2 & _) Hs IH]; intros t; [reflexivity|]. unfold render in *. cbn [map concat fst snd] in *.
      rewrite <- !app_assoc. destruct e; cbn [app].
      - rewrite U3 by auto. rewrite IH. reflexivity.
      - rewrite U2 by auto. rewrite IH. reflexivity. }
    rewrite U4. change (c :: a ++ quote :: b) with ((c :: a) ++ quote :: b). rewrite U1.
    - destruct (unix (quote :: b)) as [|q b'] eqn:E; [cbn in E; destruct b; discriminate|].
      assert (q = quote) by (cbn in E; destruct b; inversion E; reflexivity). subst q. exists a, b'. auto.
    - intros [X|X]; [congruence|auto].
    - intros [X|X]; [congruence|auto]. }
  destruct U as (a' & b' & -> & A1 & A2 & A3).
  set (ls' := map (fun l => (fst l, false)) ls).
  assert (R : forall fuel, length (render ls' ++ c :: a' ++ quote :: b') < fuel ->
    tsv_records fuel (render ls' ++ c :: a' ++ quote :: b') = Ok (map (fun l => Some (split tab l)) (entries ls') ++ [None])).
  { assert (S1 : forall cur acc, csv_scan tab (a' ++ quote :: b') CPlain cur acc = None).
    { clear - A1 A2 A3. induction a' as [|x a' IH]; intros cur acc; cbn [app csv_scan]; [reflexivity|].
      apply no_cons in A1 as [A1 A1']. apply no_cons in A2 as [A2 A2']. apply no_cons in A3 as [A3 A3'].
      rewrite (eqb_neq_ascii x tab), (eqb_neq_ascii x nl), (eqb_neq_ascii x quote) by auto. apply IH; auto. }
    assert (Hs' : Forall simple_line ls') by (unfold ls'; clear - Hs; induction Hs as [|l ls H Hs IH]; constructor; auto).
    assert (Hf : Forall (fun l => snd l = false) ls') by (unfold ls'; clear; induction ls; constructor; auto).
    clearbody ls'. clear - Hs' Hf S1 Hc1 Hc2 Hc3. induction Hs' as [|[l e] ls (H1 & H2 & H3) Hs IH]; intros fuel Hl; destruct fuel as [|fuel]; try lia.
    - cbn [render map concat app tsv_records csv_scan entries filter]. rewrite (eqb_neq_ascii c nl), (eqb_neq_ascii c tab), (eqb_neq_ascii c quote) by auto. rewrite S1. reflexivity.
    - apply Forall_cons_iff in Hf as [He Hf]. cbn [snd] in He. subst e. unfold render in *. cbn [map concat fst snd] in *. rewrite <- !app_assoc in *. cbn [app] in *.
      rewrite app_length in Hl. cbn [length] in Hl. cbn [fst snd] in *. destruct l as [|x l].
      + cbn [app tsv_records]. rewrite Ascii.eqb_refl. unfold entries. cbn [map fst filter]. apply IH; [auto|lia].
      + pose proof (scan_free (x :: l) (nl :: concat (map (fun l => fst l ++ (if snd l : bool then [cr; nl] else [nl])) ls) ++ c :: a' ++ quote :: b') CStart [] [] H3 H1 (or_intror (conj eq_refl eq_refl))) as SF.
        cbn [app] in *. cbn [tsv_records]. rewrite (eqb_neq_ascii x nl) by (intros X; apply H1; left; auto). rewrite SF by (right; eauto).
        rewrite IH; [|auto|cbn [length] in Hl; lia]. cbn [bind]. unfold entries. cbn [map fst filter]. destruct (split tab (x :: l)) eqn:E; [destruct (split_ne _ _ E)|]. reflexivity. }
  rewrite R by lia. cbn [bind].
  assert (Ht' : forall l, In l (entries ls') -> tabs l = 0).
  { intros l Hl. apply Ht. unfold entries, ls' in *. rewrite map_map in Hl. exact Hl. }
  assert (G : forall m, m = 0 \/ m = 1 -> first_fields m (map (fun l => Some (split tab l)) (entries ls') ++ [None]) = Ok None).
  { clear - Ht'. induction (entries ls') as [|l es IH]; intros m Hm; [reflexivity|]. cbn [map app first_fields].
    destruct (split_tabs l) as (ws & E & L). rewrite E. cbn [length get nth_error bind]. rewrite L, (Ht' l) by (left; auto).
    assert (Hb : (m =? 0) || (1 =? m) = true) by (destruct Hm as [->| ->]; reflexivity). rewrite Hb, IH; [reflexivity|intros; apply Ht'; right; auto|auto]. }
  apply G. auto.
Qed.

(** ** A list with blank lines, both line ends and a second column *)
Definition ex_list : list (bytes * bool) := [(B "N:b" ++ tab :: B "0.5", true); ([], false); (B "N:x" ++ tab :: B "0", false); ([], true)].
Example C144_example_lines : Forall simple_line ex_list /\ (forall l, In l (entries ex_list) -> tabs l = 1) /\
  list_ids (render ex_list) = Ok (Some ["N:b"; "N:x"]).
Proof.
  split; [|split].
  - unfold ex_list. repeat constructor; intros X; vm_compute in X; intuition discriminate.
  - intros l Hl. vm_compute in Hl. repeat destruct Hl as [<-|Hl]; try destruct Hl; reflexivity.
  - vm_compute. reflexivity.
Qed.
Example C144_example_quoted : list_ids (concat (map (fun s => csv_write tab [B s]) ["N:a" ++ T [tab] ++ "b"; "C:5" ++ T [quote] ++ " pipe"]%string))
  = Ok (Some ["N:a" ++ T [tab] ++ "b"; "C:5" ++ T [quote] ++ " pipe"]%string).
Proof. vm_compute. reflexivity. Qed.
Example C144_example_grow : names_ok ex_matrix /\ NoDup (map fName (fmData ex_matrix)) /\
  (let* r := grow_select ex_matrix (Some (render ex_list)) "C:t" None None in
   match r with Some (t, bl, n) => let* c := candidates_of (length (fmData ex_matrix)) t bl in Ok (Some (t, n, c)) | None => Ok None end)
  = Ok (Some (2, 2%Z, [0; 3])).
Proof.
  split; [apply ex_names|]. split; [|vm_compute; reflexivity].
  vm_compute. repeat constructor; intros X; cbn in X; intuition discriminate.
Qed.
Example C144_example_toafm :
  option_map T (match toafm_select svm_itoa svm_fmt "" "" (Some (render [([], true); (B "age", true); (B "no", false)])) toafm_fm with Ok o => o | _ => None end) =
    Some (T (concat (map tsv_line [["."; "x"; "y"; "z"]; ["C:kind"; "a"; "b"; "NA"]; ["N:size"; "1"; "1"; "NA"]]))).
Proof. vm_compute. reflexivity. Qed.
Example C144_example_refused : list_ids (render [(B "N:b" ++ tab :: B "0.5", false); (B "N:x", false)]) = Ok None /\
  list_ids (render [(B "N:b", false)] ++ ("N"%char :: B ":5" ++ quote :: B " pipe")) = Ok None.
Proof. split; vm_compute; reflexivity. Qed.
Print Assumptions C144_lines_partial.
Print Assumptions C144_quoted_partial.
Print Assumptions C144_growforest_partial.
Print Assumptions C144_nfold_partial.
Print Assumptions C144_toafm_partial.
Print Assumptions C144_ragged_refuted.
Print Assumptions C144_ragged_commands_refuted.
Print Assumptions C144_bare_quote_refuted.
