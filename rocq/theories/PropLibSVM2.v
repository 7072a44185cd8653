(** C103: writing libsvm files. *)
From Verif Require Import Go GoLemmas F64 ModelFeature FeatureSpec ModelSample FeatureProofs ModelText TextProofs ModelMatrix MatrixSpec MatrixProofs PropMatrix PropEncode PropLibSVM ModelTargets2 ModelExport PropARFF.
Local Open Scope string_scope.
Local Open Scope nat_scope.
Local Open Scope list_scope.

(** ** Specification *)
(** [ys] is [xs] with [d] in the holes of the mask [ms]. *)
Definition holes_filled {A} (d : A) (ms : list bool) (xs ys : list A) : Prop :=
  length ys = length xs /\ forall i m x, nth_error ms i = Some m -> nth_error xs i = Some x -> nth_error ys i = Some (if m then d else x).
(** The columns of numbers that stand for a feature: its numbers with the mean in the
    holes; of at most two categories the category numbers with the most frequent one in
    the holes; of more categories one column of zeros and ones per category. *)
Definition exported (f : feature) (cols : list (list f64)) : Prop :=
  match f with
  | FNum f => exists ys, holes_filled (fmean (present (nMissing f) (nData f))) (nMissing f) (nData f) ys /\ cols = [ys]
  | FCat f => exists k ys, is_mode k (present (cMissing f) (cData f)) /\ holes_filled k (cMissing f) (cData f) ys /\
      cols = if length (cmBack (cMap f)) <=? 2 then [map f_of_nat ys]
             else map (fun j => map (fun c => if c =? j then f1 else f0) ys) (seq 0 (length (cmBack (cMap f))))
  end.
(** A feature whose category numbers are in range *)
Definition in_range (f : feature) : Prop :=
  aligned f /\ match f with FNum _ => True | FCat f => Forall (fun c => c < length (cmBack (cMap f))) (present (cMissing f) (cData f)) end.
(** A text that is one field of a line, with or without quotes *)
Definition bare (s : string) : Prop := one_word s /\ Forall (fun c => c <> quote) (B s) /\ s <> "\.".
(** The text of a target *)
Definition target_text (itoa : nat -> string) (fmtF : f64 -> string) (target : feature) (i : nat) : option string :=
  match target with
  | FNum f => match nth_error (nMissing f) i, nth_error (nData f) i with
              | Some true, _ => Some "NA"
              | Some false, Some x => Some (fmtF x)
              | _, _ => None
              end
  | FCat f => option_map itoa (nth_error (cData f) i)
  end.
Definition all_but {A} (k : nat) (l : list A) : list A := firstn k l ++ skipn (S k) l.

(** ** Columns *)
Lemma fill_holes {A} (d : A) ms xs : length xs = length ms -> holes_filled d ms xs (fill d ms xs).
Proof.
  intros H. split; [unfold fill; rewrite map_length, combine_length; lia|].
  intros i m x Hm Hx. rewrite nth_error_fill by auto. rewrite Hm, Hx. destruct m; reflexivity.
Qed.
Lemma holes_unique {A} (d : A) ms xs ys zs : length xs = length ms -> holes_filled d ms xs ys -> holes_filled d ms xs zs -> ys = zs.
Proof.
  intros Hl [L1 H1] [L2 H2]. apply nth_error_ext'. intros i. destruct (nth_error ms i) as [m|] eqn:Em.
  - assert (Hx : exists x, nth_error xs i = Some x).
    { destruct (nth_error xs i) eqn:E; eauto. apply nth_error_None in E. apply nth_error_some_lt in Em. lia. }
    destruct Hx as [x Hx]. rewrite (H1 i m x), (H2 i m x) by auto. reflexivity.
  - apply nth_error_None in Em. rewrite !(proj2 (nth_error_None _ _)) by lia. reflexivity.
Qed.
Lemma mode_unique k k' l : is_mode k l -> is_mode k' l -> k = k'.
Proof.
  intros H H'. destruct (lt_eq_lt_dec k k') as [[C|C]|C]; auto.
  - destruct (H k') as [A _]. destruct (H' k) as [_ D]. specialize (D C). lia.
  - destruct (H' k) as [A _]. destruct (H k') as [_ D]. specialize (D C). lia.
Qed.
Lemma copy_full {A} (d : A) (xs : list A) n : length xs = n -> copyinto (repeat d n) xs = xs.
Proof. intros <-. unfold copyinto. rewrite repeat_length, firstn_all, skipn_all2 by (rewrite repeat_length; lia). apply app_nil_r. Qed.
Definition same_values (f g : feature) : Prop :=
  match f, g with
  | FNum f, FNum g => nData g = nData f /\ nMissing g = nMissing f
  | FCat f, FCat g => cData g = cData f /\ cMissing g = cMissing f /\ cMap g = cMap f
  | _, _ => False
  end.
Lemma fCopy_same f : aligned f -> same_values f (fCopy f).
Proof.
  destruct f as [f|f]; cbn; intros H; unfold nCopy, cCopy; cbn; rewrite !copy_full by auto; auto.
Qed.
Definition numbers (f : feature) : list f64 := match f with FNum f => nData f | FCat _ => [] end.
Lemma hot_columns ys : forall (l : list string) s,
  map (fun p : nat * string => map (hot f1 f0 (fst p)) ys) (combine (seq s (length l)) l) = map (fun j => map (fun c => if c =? j then f1 else f0) ys) (seq s (length l)).
Proof.
  induction l as [|b l IH]; intros s; [reflexivity|]. cbn [length seq combine map]. rewrite IH. f_equal.
  apply map_ext. intros c. unfold hot. cbn [fst]. rewrite Nat.eqb_sym. reflexivity.
Qed.
(** Imputing and encoding a feature gives its columns *)
Lemma export_one f g cols : in_range f -> same_values f g -> exported f cols ->
  exists h, fImputeMissing g = Ok h /\ aligned h /\ map numbers (encoded h) = cols /\ Forall (fun e => is_numerical e = true) (encoded h).
Proof.
  intros [Ha Hr] Hs He. destruct f as [f|f], g as [g|g]; cbn in Hs; try tauto.
  - destruct Hs as [Ed Em]. destruct He as (ys & Hy & ->). cbn in Ha. cbn [fImputeMissing]. rewrite nImpute_ok by (rewrite Ed, Em; exact Ha). cbn [bind].
    eexists. split; [reflexivity|]. split; [|split; [|repeat constructor]].
    + cbn. rewrite repeat_length. unfold fill. rewrite map_length, combine_length, Ed, Em. lia.
    + cbn. f_equal. rewrite Ed, Em. eapply holes_unique; [exact Ha| |exact Hy]. apply fill_holes. exact Ha.
  - destruct Hs as (Ed & Em & Ec). destruct He as (k & ys & Hk & Hy & ->). cbn in Ha. cbn [fImputeMissing].
    destruct (cImpute_ok g) as (k' & E & Hk' & _); [rewrite Ed, Em; exact Ha|unfold NCats; rewrite Ed, Em, Ec; exact Hr|]. rewrite E. cbn [bind].
    rewrite Ed, Em in Hk'. assert (k' = k) by (eapply mode_unique; eauto). subst k'.
    assert (Ey : fill k (cMissing g) (cData g) = ys).
    { rewrite Ed, Em. eapply holes_unique; [exact Ha| |exact Hy]. apply fill_holes. exact Ha. }
    eexists. split; [reflexivity|]. split; [|split].
    + cbn. rewrite repeat_length. unfold fill. rewrite map_length, combine_length, Ed, Em. lia.
    + cbn [encoded cMap]. rewrite Ec. destruct (Nat.leb_spec (length (cmBack (cMap f))) 2).
      * cbn. rewrite Ey. reflexivity.
      * rewrite map_map. unfold numbered. cbn [cMap cmBack numbers num_of nData]. rewrite Ey.
        apply hot_columns.
    + cbn [encoded cMap]. destruct (_ <=? 2); [repeat constructor|]. apply Forall_map, Forall_forall. intros; reflexivity.
Qed.

Lemma export_all : forall fs colss, Forall in_range fs -> Forall2 exported fs colss -> forall acc,
  exists hs, foreach (map fCopy fs) (fun f data => let* g := fImputeMissing f in Ok (data ++ [g])) acc = Ok (acc ++ hs) /\
    Forall aligned hs /\ map numbers (flat_map encoded hs) = concat colss /\ Forall (fun e => is_numerical e = true) (flat_map encoded hs).
Proof.
  intros fs colss Hr H. induction H as [|f cols fs colss He H IH]; intros acc.
  - exists []. cbn. rewrite app_nil_r. repeat constructor.
  - apply Forall_cons_iff in Hr as [Hf Hr]. destruct (export_one f (fCopy f) cols Hf (fCopy_same f (proj1 Hf)) He) as (h & E & Ha & Ec & En).
    cbn [map foreach]. rewrite E. cbn [bind]. destruct (IH Hr (acc ++ [h])) as (hs & E' & Ha' & Ec' & En'). rewrite E'.
    exists (h :: hs). rewrite <- app_assoc. split; [reflexivity|]. split; [constructor; auto|]. cbn [flat_map concat]. rewrite map_app, Ec, Ec'. split; [reflexivity|].
    apply Forall_app. auto.
Qed.

(** ** Lines *)
Section Lines.
  Variable itoa : nat -> string.
  Variable fmtF : f64 -> string.
  Definition row_entries (s i : nat) (cols : list (list f64)) : list (nat * f64) :=
    flat_map (fun p : nat * list f64 => let v := nth i (snd p) f0 in if feqb v f0 then [] else [(S (fst p), v)]) (combine (seq s (length cols)) cols).
  Definition entry_text (e : nat * f64) : string := (itoa (fst e) ++ ":" ++ fmtF (snd e))%string.
  Lemma svm_entries_ok i : forall data s acc, Forall (fun e => is_numerical e = true) data -> Forall (fun c => i < length c) (map numbers data) ->
    foreach (combine (seq s (length data)) data) (fun '((j, f) : nat * feature) entries =>
      match f with
      | FCat _ => Panic
      | FNum g => let* v := get (nData g) i in
                  Ok (if feqb v f0 then entries else entries ++ [(itoa (j + 1) ++ ":" ++ fmtF v)%string])
      end) acc = Ok (acc ++ map entry_text (row_entries s i (map numbers data))).
  Proof.
    induction data as [|f data IH]; intros s acc Hn Hl; [cbn; rewrite app_nil_r; reflexivity|].
    apply Forall_cons_iff in Hn as [Hf Hn]. cbn [map] in Hl. apply Forall_cons_iff in Hl as [Hi Hl].
    destruct f as [g|g]; [|discriminate]. cbn [numbers] in Hi. cbn [length seq combine foreach].
    rewrite (get_nth (nData g) i (nth_error_nth' (nData g) f0 Hi)). cbn [bind]. rewrite IH by auto.
    unfold row_entries at 2. cbn [map length numbers seq combine flat_map]. fold (row_entries (S s) i (map numbers data)). cbn [fst snd].
    destruct (feqb (nth i (nData g) f0) f0); [reflexivity|]. rewrite map_app, <- app_assoc. cbn [map app]. unfold entry_text at 2. cbn [fst snd]. rewrite Nat.add_1_r. reflexivity.
  Qed.
  Lemma row_entries_from : forall cols s i e, In e (row_entries s i cols) -> s < fst e /\ fst e <= s + length cols /\ feqb (snd e) f0 = false /\
    exists col, nth_error cols (fst e - S s) = Some col /\ nth i col f0 = snd e.
  Proof.
    induction cols as [|c cols IH]; intros s i e H; [destruct H|]. unfold row_entries in H. cbn [length seq combine flat_map] in H.
    apply in_app_or in H as [H|H].
    - cbn [fst snd] in H. destruct (feqb (nth i c f0) f0) eqn:E; [destruct H|]. destruct H as [<-|[]]. cbn. repeat split; auto; try lia.
      exists c. rewrite Nat.sub_diag. auto.
    - apply (IH (S s) i e) in H as (A & C & D & col & Hc & Hv). cbn [length]. repeat split; auto; try lia. exists col.
      replace (fst e - S s) with (S (fst e - S (S s))) by lia. auto.
  Qed.
  Lemma entries_value PF : forall cols s i j col, nth_error cols j = Some col ->
    (forall x, In x (map snd (row_entries s i cols)) -> PF (fmtF x) = Some x) ->
    column_value PF (S (s + j)) (map (fun e => (fst e, fmtF (snd e))) (row_entries s i cols)) =
    VNum (if feqb (nth i col f0) f0 then f0 else nth i col f0).
  Proof.
    induction cols as [|c cols IH]; intros s i j col Hj HP; [destruct j; discriminate|].
    assert (E : row_entries s i (c :: cols) = (if feqb (nth i c f0) f0 then [] else [(S s, nth i c f0)]) ++ row_entries (S s) i cols) by reflexivity.
    rewrite E in HP |- *. destruct j as [|j]; cbn [nth_error] in Hj.
    - inversion Hj; subst c. rewrite Nat.add_0_r.
      assert (N : forall e, In e (map (fun e => (fst e, fmtF (snd e))) (row_entries (S s) i cols)) -> fst e <> S s).
      { intros e He. apply in_map_iff in He as (e' & <- & He). apply row_entries_from in He as (A & _). cbn. lia. }
      destruct (feqb (nth i col f0) f0) eqn:Z; cbn [app map].
      + apply column_value_none. exact N.
      + cbn [column_value fst snd]. replace (existsb (fun e => fst e =? S s) (map (fun e => (fst e, fmtF (snd e))) (row_entries (S s) i cols))) with false.
        * rewrite Nat.eqb_refl. unfold entry_value. rewrite HP; [reflexivity|]. cbn [app map snd]. left. reflexivity.
        * symmetry. apply not_true_is_false. intros X. apply existsb_exists in X as (e & He & X). apply Nat.eqb_eq in X. apply N in He. contradiction.
    - assert (HP' : forall x, In x (map snd (row_entries (S s) i cols)) -> PF (fmtF x) = Some x).
      { intros x Hx. apply HP. rewrite map_app. apply in_or_app. right. exact Hx. }
      specialize (IH (S s) i j col Hj HP'). replace (S s + j) with (s + S j) in IH by lia.
      destruct (feqb (nth i c f0) f0); [exact IH|]. cbn [app map column_value fst snd].
      destruct (existsb _ _) eqn:X; [exact IH|]. rewrite (proj2 (Nat.eqb_neq _ _)) by lia.
      rewrite <- IH. symmetry. apply column_value_none'. exact X.
  Qed.

  (** *** Fields *)
  Lemma bare_field s : bare s -> csv_field " " (B s) = B s.
  Proof.
    intros ([Hne Hw] & Hq & Hd). unfold csv_field. replace (needs_quotes " " (B s)) with false; [reflexivity|]. symmetry.
    destruct s as [|c s]; [congruence|]. unfold needs_quotes. cbn [B list_ascii_of_string]. fold (B s).
    change (c :: B s) with (B (String c s)). rewrite Forall_forall in Hw, Hq.
    rewrite (Hw c) by (left; auto). rewrite orb_false_r.
    change ["\"%char; "."%char] with (B "\.").
    replace (bytes_eqb (B (String c s)) (B "\.")) with false.
    - cbn [orb]. apply not_true_is_false. intros X. apply existsb_exists in X as (x & Hx & X). pose proof (Hw _ Hx) as Sx. pose proof (Hq _ Hx) as Qx.
      repeat (apply orb_prop in X as [X|X]); apply Ascii.eqb_eq in X; subst x; try discriminate; congruence.
    - symmetry. apply not_true_is_false. intros X. apply bytes_eqb_eq in X. apply Hd. rewrite <- (TB (String c s)), X. reflexivity.
  Qed.
  Lemma fields_join : forall ws, Forall (fun w => w <> [] /\ Forall (fun c => is_space c = false) w) ws -> fields (join [" "%char] ws) = ws.
  Proof.
    unfold fields. induction ws as [|w ws IH]; intros H; [reflexivity|]. apply Forall_cons_iff in H as [[Hne Hw] H]. destruct ws as [|w' ws].
    - cbn [join]. clear - Hne Hw. assert (G : forall w acc, Forall (fun c => is_space c = false) w -> acc ++ w <> [] -> fields_from w acc = [acc ++ w]).
      { clear. induction w as [|c w IH]; intros acc H Hne; cbn [fields_from].
        - rewrite app_nil_r in *. destruct acc; [congruence|reflexivity].
        - apply Forall_cons_iff in H as [Hc H]. rewrite Hc, IH; auto; rewrite <- app_assoc; auto. }
      apply (G w []); auto.
    - replace (join [" "%char] (w :: w' :: ws)) with (w ++ " "%char :: join [" "%char] (w' :: ws)) by reflexivity.
      rewrite fields_word; auto. rewrite IH by exact H. reflexivity.
  Qed.
  Lemma split_ne sep s : split sep s <> [].
  Proof. destruct s as [|c s]; [discriminate|]. cbn [split]. destruct (Ascii.eqb c sep); [discriminate|]. destruct (split sep s); discriminate. Qed.
  Lemma ended_concat ls : Forall (no nl) ls -> ended_lines (concat (map (fun l => l ++ [nl]) ls)) = ls.
  Proof.
    unfold ended_lines. induction ls as [|l ls IH]; intros H; [reflexivity|]. apply Forall_cons_iff in H as [Hl H]. cbn [map concat]. rewrite <- app_assoc. cbn [app].
    rewrite split_cons by exact Hl. specialize (IH H). assert (Hne : split nl (concat (map (fun l => l ++ [nl]) ls)) <> []).
    { apply split_ne. }
    destruct (split nl (concat (map (fun l => l ++ [nl]) ls))) as [|a b] eqn:Es; [congruence|]. cbn [removelast]. rewrite <- IH. reflexivity.
  Qed.
End Lines.

(** ** C103 *)
Lemma svm_write_ok itoa fmtF (first : nat -> res string) (texts : nat -> string) (data : list feature) cases :
  (forall i, In i cases -> first i = Ok (texts i)) -> Forall (fun e => is_numerical e = true) data ->
  (forall i, In i cases -> Forall (fun c => i < length c) (map numbers data)) ->
  svm_write itoa fmtF first cases data =
  Ok (concat (map (fun i => csv_write " " (map B (texts i :: map (entry_text itoa fmtF) (row_entries 0 i (map numbers data))))) cases)).
Proof.
  intros Ht Hn Hl. unfold svm_write. enough (G : forall out, foreach cases (fun i out =>
      let* t := first i in
      let* entries := svm_entries itoa fmtF i data t in
      Ok (out ++ csv_write " " (map B entries))) out =
      Ok (out ++ concat (map (fun i => csv_write " " (map B (texts i :: map (entry_text itoa fmtF) (row_entries 0 i (map numbers data))))) cases))) by apply (G []).
  induction cases as [|i cases IH]; intros out; cbn [foreach map concat]; [rewrite app_nil_r; reflexivity|].
  rewrite Ht by (left; auto). cbn [bind]. unfold svm_entries at 1. rewrite svm_entries_ok; [|exact Hn|apply Hl; left; auto]. cbn [bind app].
  rewrite IH; [rewrite <- app_assoc; reflexivity| |]; intros; [apply Ht|apply Hl]; right; auto.
Qed.
Lemma bare_entry itoa fmtF e : bare (itoa (fst e)) -> bare (fmtF (snd e)) -> bare (entry_text itoa fmtF e).
Proof.
  intros ([N1 W1] & Q1 & _) ([N2 W2] & Q2 & _). unfold entry_text. split; [split|split].
  - destruct (itoa (fst e)); [congruence|discriminate].
  - rewrite !B_app, !Forall_app. repeat split; auto. repeat constructor.
  - rewrite !B_app, !Forall_app. repeat split; auto. repeat constructor. discriminate.
  - intros X. assert (Y : In ":"%char (B (itoa (fst e) ++ ":" ++ fmtF (snd e)))) by (rewrite !B_app; apply in_or_app; right; left; reflexivity).
    rewrite X in Y. cbn in Y. intuition discriminate.
Qed.
Lemma svm_line_text ws : Forall bare ws -> csv_write " " (map B ws) = join [" "%char] (map B ws) ++ [nl].
Proof.
  intros H. unfold csv_write. f_equal. f_equal. rewrite map_map. apply map_ext_in. intros w Hw. apply bare_field. rewrite Forall_forall in H. auto.
Qed.

(** The file that [svm_write] makes, read back. *)
Lemma svm_read_back PF itoa Atoi fmtF (texts : nat -> string) cols n cases :
  PF "0" = Some f0 ->
  (forall k, 0 < k <= length cols -> Atoi (B (itoa k)) = Some (Z.of_nat k) /\ bare (itoa k) /\ no ":" (B (itoa k))) ->
  (forall x, In x (concat cols) -> PF (fmtF x) = Some x /\ bare (fmtF x) /\ no ":" (B (fmtF x))) ->
  Forall (fun c => length c = n) cols -> (forall i, In i cases -> i < n /\ bare (texts i)) -> cases <> [] ->
  exists fm', ParseLibSVM PF itoa Atoi (concat (map (fun i => csv_write " " (map B (texts i :: map (entry_text itoa fmtF) (row_entries 0 i cols)))) cases)) = Ok fm' /\
    Forall (fun f => fLength f = length cases) (fmData fm') /\
    length (fmData fm') <= S (length cols) /\
    (length (fmData fm') = 1 \/ exists i col v, In i cases /\ nth_error cols (length (fmData fm') - 2) = Some col /\ nth_error col i = Some v /\ feqb v f0 = false) /\
    (forall j col r i v, nth_error cols j = Some col -> nth_error cases r = Some i -> nth_error col i = Some v ->
       match nth_error (fmData fm') (S j) with
       | Some f => is_numerical f = true /\ value_at f r = Some (VNum (if feqb v f0 then f0 else v))
       | None => feqb v f0 = true
       end) /\
    (exists f, nth_error (fmData fm') 0 = Some f /\ forall r i, nth_error cases r = Some i ->
       (In "."%char (B (texts (hd 0 cases))) -> value_at f r = Some (entry_value PF (texts i))) /\
       (~ In "."%char (B (texts (hd 0 cases))) -> is_token (texts i) /\ value_at f r = Some VMissing \/ ~ is_token (texts i) /\ value_at f r = Some (VCat (texts i)))).
Proof.
  intros PF0 Hk Hx Hlen Hc Hne.
  set (words := fun i => texts i :: map (entry_text itoa fmtF) (row_entries 0 i cols)).
  set (sp := fun i => mkSparse (texts i) (map (fun e => (fst e, fmtF (snd e))) (row_entries 0 i cols))).
  assert (Hin : forall i e, In i cases -> In e (row_entries 0 i cols) -> 0 < fst e <= length cols /\ In (snd e) (concat cols) /\ exists col, nth_error cols (fst e - 1) = Some col /\ nth_error col i = Some (snd e) /\ feqb (snd e) f0 = false).
  { intros i e Hi He. apply row_entries_from in He as (A & C & D & col & Hcol & Hv). split; [lia|].
    assert (Hl : i < length col). { rewrite Forall_forall in Hlen. rewrite (Hlen col) by (eapply nth_error_In; eauto). apply Hc. exact Hi. }
    assert (Hv' : nth_error col i = Some (snd e)) by (rewrite <- Hv; apply nth_error_nth'; exact Hl).
    split; [apply in_concat; exists col; split; [eapply nth_error_In; eauto|eapply nth_error_In; eauto]|]. eauto. }
  assert (Hbare : forall i, In i cases -> Forall bare (words i)).
  { intros i Hi. constructor; [apply Hc; exact Hi|]. apply Forall_map, Forall_forall. intros e He. destruct (Hin i e Hi He) as (A & C & _).
    apply bare_entry; [apply Hk; exact A|apply Hx; exact C]. }
  assert (Hout : concat (map (fun i => csv_write " " (map B (words i))) cases) = concat (map (fun l => l ++ [nl]) (map (fun i => join [" "%char] (map B (words i))) cases))).
  { f_equal. rewrite map_map. apply map_ext_in. intros i Hi. apply svm_line_text. auto. }
  change (concat (map (fun i => csv_write " " (map B (texts i :: map (entry_text itoa fmtF) (row_entries 0 i cols)))) cases)) with (concat (map (fun i => csv_write " " (map B (words i))) cases)).
  rewrite Hout. clear Hout.
  assert (Hlines : ended_lines (concat (map (fun l => l ++ [nl]) (map (fun i => join [" "%char] (map B (words i))) cases))) = map (fun i => join [" "%char] (map B (words i))) cases).
  { apply ended_concat. apply Forall_map, Forall_forall. intros i Hi. apply join_no; [intros [X|[]]; discriminate|]. apply Forall_map.
    eapply Forall_impl; [|apply (Hbare i Hi)]. intros w ([_ W] & _). apply space_nl. exact W. }
  assert (Hss : Forall2 (line_of Atoi) (map (fun i => join [" "%char] (map B (words i))) cases) (map sp cases)).
  { clear Hlines Hne. assert (G : forall i, In i cases -> line_of Atoi (join [" "%char] (map B (words i))) (sp i)).
    { intros i Hi. exists (B (texts i)), (map B (map (entry_text itoa fmtF) (row_entries 0 i cols))). split.
      - rewrite fields_join; [reflexivity|]. apply Forall_map. eapply Forall_impl; [|apply (Hbare i Hi)]. intros w ([N W] & _). split; [destruct w; [congruence|discriminate]|exact W].
      - split; [symmetry; apply TB|]. cbn [sEntries sp].
        assert (G : forall es, (forall e, In e es -> In e (row_entries 0 i cols)) -> Forall2 (entry_word Atoi) (map B (map (entry_text itoa fmtF) es)) (map (fun e => (fst e, fmtF (snd e))) es)).
        { induction es as [|e es IH]; intros H; cbn [map]; constructor; [|apply IH; intros; apply H; right; auto].
          destruct (Hin i e Hi (H e (or_introl eq_refl))) as (A & C & _). destruct (Hk _ A) as (K1 & _ & K3). destruct (Hx _ C) as (_ & _ & X3).
          exists (B (itoa (fst e))), (B (fmtF (snd e))), []. cbn [fst snd]. split; [|split; [lia|split; [exact K1|symmetry; apply TB]]].
          unfold entry_text. rewrite !B_app. change (B ":" ++ B (fmtF (snd e))) with (":"%char :: B (fmtF (snd e))). rewrite split_cons by exact K3.
          rewrite split_none by exact X3. reflexivity. }
        apply G. auto. }
    clear - G. induction cases as [|i cases IH]; cbn [map]; constructor; [apply G; left; auto|apply IH; intros; apply G; right; auto]. }
  rewrite <- Hlines in Hss. destruct (C62_libsvm_matrix PF itoa Atoi _ _ PF0 Hss) as (fm' & E & HL & _ & Hmax & Hwid & Hcol & Htar); [destruct cases; [congruence|discriminate]|].
  rewrite map_length in HL. exists fm'. split; [exact E|]. split; [exact HL|].
  assert (Hval : forall r i, nth_error cases r = Some i -> nth_error (map sp cases) r = Some (sp i)) by (intros r i Hr; rewrite nth_error_map, Hr; reflexivity).
  assert (Hpos : 0 < length (fmData fm')).
  { destruct Hwid as [->|(s & v & Hs & Hv)]; [lia|]. specialize (Hmax s _ v Hs Hv). lia. }
  assert (Hw : length (fmData fm') = 1 \/ exists i col v, In i cases /\ nth_error cols (length (fmData fm') - 2) = Some col /\ nth_error col i = Some v /\ feqb v f0 = false).
  { destruct Hwid as [X|(s & v & Hs & Hv)]; [left; exact X|right]. apply in_map_iff in Hs as (i & <- & Hi). cbn [sp sEntries] in Hv.
    apply in_map_iff in Hv as (e & Ee & He). inversion Ee as [[E1 E2]]. destruct (Hin i e Hi He) as (A & C & col & Hcl & Hv & Hz). exists i, col, (snd e). split; [exact Hi|].
    rewrite E1 in Hcl. replace (length (fmData fm') - 2) with (length (fmData fm') - 1 - 1) by lia. auto. }
  split; [|split; [exact Hw|split]].
  - destruct Hw as [->|(i & col & v & _ & Hcl & _)]; [lia|]. apply nth_error_some_lt in Hcl. lia.
  - intros j col r i v Hj Hr Hv. destruct (nth_error (fmData fm') (S j)) as [f|] eqn:Ef.
    + destruct (Hcol (S j) f Ef ltac:(lia)) as [K V]. split; [exact K|]. rewrite (V r (sp i) (Hval r i Hr)). f_equal. cbn [sp sEntries].
      change (S j) with (S (0 + j)). rewrite (entries_value fmtF PF cols 0 i j col Hj).
      * rewrite (nth_error_nth _ _ f0 Hv). reflexivity.
      * intros x Hxx. apply in_map_iff in Hxx as (e & <- & He). destruct (Hin i e (nth_error_In _ _ Hr) He) as (_ & C & _). apply Hx. exact C.
    + destruct (feqb v f0) eqn:Z; auto. exfalso. apply nth_error_None in Ef.
      assert (He : In (S j, v) (row_entries 0 i cols)).
      { clear - Hj Hv Z. enough (G : forall s, In (S (s + j), v) (row_entries s i cols)) by apply (G 0). revert j Hj. induction cols as [|c cols IH]; intros j Hj s; [destruct j; discriminate|].
        unfold row_entries. cbn [length seq combine flat_map]. fold (row_entries (S s) i cols). apply in_or_app. destruct j as [|j]; cbn [nth_error] in Hj.
        - left. inversion Hj; subst c. cbn [fst snd]. rewrite (nth_error_nth _ _ f0 Hv), Z. left. rewrite Nat.add_0_r. reflexivity.
        - right. specialize (IH j Hj (S s)). replace (s + S j) with (S s + j) by lia. exact IH. }
      pose proof (Hmax (sp i) (S j) (fmtF v)) as Y. cbn [sp sEntries] in Y. specialize (Y (in_map sp _ _ (nth_error_In _ _ Hr))).
      specialize (Y (in_map (fun e => (fst e, fmtF (snd e))) _ _ He)). cbn in Y. lia.
  - destruct (nth_error (fmData fm') 0) as [f|] eqn:Ef; [|apply nth_error_None in Ef; lia]. exists f. split; [reflexivity|]. intros r i Hr.
    pose proof (Htar f eq_refl r (sp i) (Hval r i Hr)) as V. cbn [sp sTarget] in V.
    assert (Eh : sTarget (hd (sp i) (map sp cases)) = texts (hd 0 cases)) by (destruct cases; [congruence|reflexivity]). rewrite Eh in V.
    assert (D : count_byte "." (B (texts (hd 0 cases))) =? 0 = true <-> ~ In "."%char (B (texts (hd 0 cases)))).
    { rewrite Nat.eqb_eq. split; [|apply count_byte_no]. intros Z X. unfold count_byte in Z. apply length_zero_iff_nil in Z.
      assert (Y : In "."%char (filter (Ascii.eqb ".") (B (texts (hd 0 cases))))) by (apply filter_In; split; auto). rewrite Z in Y. destruct Y. }
    split; intros X.
    + destruct (count_byte "." (B (texts (hd 0 cases))) =? 0) eqn:Z; [|exact V]. exfalso. exact (proj1 D eq_refl X).
    + apply D in X. rewrite X in V. exact V.
Qed.

Lemma exported_length f cols n : in_range f -> fLength f = n -> exported f cols -> Forall (fun c => length c = n) cols.
Proof.
  intros [Ha _] Hn He. destruct f as [f|f]; cbn in Ha, Hn, He; unfold nLength, cLength in Hn.
  - destruct He as (ys & [L _] & ->). constructor; [lia|constructor].
  - destruct He as (k & ys & _ & [L _] & ->). destruct (_ <=? 2); [constructor; [rewrite map_length; lia|constructor]|].
    apply Forall_map, Forall_forall. intros j _. rewrite map_length. lia.
Qed.
Lemma svm_target_ok itoa fmtF target i : aligned target -> i < fLength target ->
  exists s, target_text itoa fmtF target i = Some s /\ svm_target itoa fmtF target i = Ok s.
Proof.
  intros Ha Hi. destruct target as [f|f]; cbn in Ha, Hi; unfold nLength, cLength in Hi.
  - destruct (nth_error (nMissing f) i) as [m|] eqn:Em; [|apply nth_error_None in Em; lia].
    destruct (nth_error (nData f) i) as [x|] eqn:Ex; [|apply nth_error_None in Ex; lia].
    cbn [target_text svm_target fGetStr]. rewrite Em, Ex, (get_nth _ _ Em). cbn [bind]. destruct m; [eauto|]. rewrite (get_nth _ _ Ex). cbn [bind]. eauto.
  - destruct (nth_error (cData f) i) as [c|] eqn:Ec; [|apply nth_error_None in Ec; lia].
    cbn [target_text svm_target]. unfold cGeti. rewrite Ec, (get_nth _ _ Ec). cbn [bind option_map]. eauto.
Qed.

(** Every feature with category numbers in range has such columns. *)
Theorem C103_columns_exist : forall fs, Forall in_range fs -> exists colss, Forall2 exported fs colss.
Proof.
  induction fs as [|f fs IH]; intros H; [exists []; constructor|]. apply Forall_cons_iff in H as [[Ha Hr] H]. destruct (IH H) as (colss & Hc).
  assert (E : exists cols, exported f cols).
  { destruct f as [f|f]; cbn in Ha.
    - exists [fill (fmean (present (nMissing f) (nData f))) (nMissing f) (nData f)]. eexists. split; [|reflexivity]. apply fill_holes. exact Ha.
    - destruct (cImpute_ok f Ha Hr) as (k & _ & Hk & _). eexists. exists k, (fill k (cMissing f) (cData f)). split; [exact Hk|]. split; [|reflexivity]. apply fill_holes. exact Ha. }
  destruct E as [cols E]. exists (cols :: colss). constructor; auto.
Qed.

(** What WriteLibSvm writes *)
Lemma WriteLibSvm_text itoa fmtF fm targetn t target colss n :
  assoc targetn (fmMap fm) = Some t -> nth_error (fmData fm) t = Some target ->
  Forall (fun f => in_range f /\ fLength f = n) (all_but t (fmData fm)) -> aligned target -> fLength target = n ->
  Forall2 exported (all_but t (fmData fm)) colss ->
  WriteLibSvm itoa fmtF fm targetn = Ok (Some (concat (map (fun i => csv_write " " (map B ((match target_text itoa fmtF target i with Some s => s | None => "" end) :: map (entry_text itoa fmtF) (row_entries 0 i (concat colss))))) (seq 0 n)))).
Proof.
  intros Ht Htar Hf Ha Hn Hex.
  assert (Hr : Forall in_range (all_but t (fmData fm))) by (eapply Forall_impl; [|exact Hf]; cbn; tauto).
  destruct (export_all _ _ Hr Hex []) as (hs & Ei & Hal & Ecols & Hnum).
  set (texts := fun i => match target_text itoa fmtF target i with Some s => s | None => "" end).
  assert (Hlen : Forall (fun c => length c = n) (concat colss)).
  { clear - Hf Hex. induction Hex as [|f cols fs colss He H IH]; cbn [concat]; [constructor|]. apply Forall_cons_iff in Hf as [[Hi Hl] Hf].
    apply Forall_app. split; [eapply exported_length; eauto|auto]. }
  unfold WriteLibSvm. rewrite Ht, (get_nth _ _ Htar). cbn [bind]. unfold fmImputeMissing. cbn [fmData fmMap fmLabels without].
  fold (all_but t (fmData fm)). rewrite Ei. cbn [bind app]. rewrite fmEncodeToNum_ok by exact Hal. cbn [bind fmData fmLabels].
  destruct (add_columns_data (flat_map encoded hs) (mkFM [] [] (fmLabels fm))) as [Ed _]. cbn [fmData app] in Ed. rewrite Ed, Hn.
  rewrite (svm_write_ok itoa fmtF _ texts).
  - cbn [bind]. rewrite Ecols. reflexivity.
  - intros i Hi. apply in_seq in Hi. destruct (svm_target_ok itoa fmtF target i Ha ltac:(lia)) as (s & E1 & E2). unfold texts. rewrite E1. exact E2.
  - exact Hnum.
  - intros i Hi. apply in_seq in Hi. rewrite Ecols. eapply Forall_impl; [|exact Hlen]. cbn. intros c ->. lia.
Qed.

(** Reading what WriteLibSvm wrote: column [j+1] has the numbers of column [j] of the
    imputed and encoded features, except that columns of zeros at the end are missing. *)
Theorem C103_libsvm_round_trip_partial : forall PF itoa Atoi fmtF fm targetn t target colss n,
  PF "0" = Some f0 ->
  assoc targetn (fmMap fm) = Some t -> nth_error (fmData fm) t = Some target ->
  Forall (fun f => in_range f /\ fLength f = n) (all_but t (fmData fm)) -> aligned target -> fLength target = n -> 0 < n ->
  Forall2 exported (all_but t (fmData fm)) colss ->
  (forall k, 0 < k <= length (concat colss) -> Atoi (B (itoa k)) = Some (Z.of_nat k) /\ bare (itoa k) /\ no ":" (B (itoa k))) ->
  (forall x, In x (concat (concat colss)) -> PF (fmtF x) = Some x /\ bare (fmtF x) /\ no ":" (B (fmtF x))) ->
  (forall i s, target_text itoa fmtF target i = Some s -> bare s) ->
  exists out fm', WriteLibSvm itoa fmtF fm targetn = Ok (Some out) /\ ParseLibSVM PF itoa Atoi out = Ok fm' /\
    Forall (fun f => fLength f = n) (fmData fm') /\
    length (fmData fm') <= S (length (concat colss)) /\
    (** the last column is not all zero *)
    (length (fmData fm') = 1 \/ exists i col v, nth_error (concat colss) (length (fmData fm') - 2) = Some col /\ nth_error col i = Some v /\ feqb v f0 = false) /\
    (forall j col i v, nth_error (concat colss) j = Some col -> nth_error col i = Some v ->
       match nth_error (fmData fm') (S j) with
       | Some f => is_numerical f = true /\ value_at f i = Some (VNum (if feqb v f0 then f0 else v))
       | None => feqb v f0 = true
       end) /\
    (** the target is numerical when its first text has a point and categorical otherwise *)
    (exists f first, nth_error (fmData fm') 0 = Some f /\ target_text itoa fmtF target 0 = Some first /\ forall i s, target_text itoa fmtF target i = Some s ->
       (In "."%char (B first) -> value_at f i = Some (entry_value PF s)) /\
       (~ In "."%char (B first) -> is_token s /\ value_at f i = Some VMissing \/ ~ is_token s /\ value_at f i = Some (VCat s))).
Proof.
  intros PF itoa Atoi fmtF fm targetn t target colss n PF0 Ht Htar Hf Ha Hn Hpos Hex Hk Hx Hbare.
  set (texts := fun i => match target_text itoa fmtF target i with Some s => s | None => "" end).
  assert (Hlen : Forall (fun c => length c = n) (concat colss)).
  { clear - Hf Hex. induction Hex as [|f cols fs colss He H IH]; cbn [concat]; [constructor|]. apply Forall_cons_iff in Hf as [[Hi Hl] Hf].
    apply Forall_app. split; [eapply exported_length; eauto|auto]. }
  assert (EW : WriteLibSvm itoa fmtF fm targetn = Ok (Some (concat (map (fun i => csv_write " " (map B (texts i :: map (entry_text itoa fmtF) (row_entries 0 i (concat colss))))) (seq 0 n))))).
  { eapply WriteLibSvm_text; eauto. }
  destruct (svm_read_back PF itoa Atoi fmtF texts (concat colss) n (seq 0 n) PF0 Hk Hx Hlen) as (fm' & EP & HL & Hw1 & Hw2 & Hcol & f & Ef & HT).
  { intros i Hi. apply in_seq in Hi. split; [lia|]. destruct (svm_target_ok itoa fmtF target i Ha ltac:(lia)) as (s & E1 & E2). unfold texts. rewrite E1. eauto. }
  { destruct n; [lia|discriminate]. }
  rewrite seq_length in HL. eexists. exists fm'. split; [exact EW|]. split; [exact EP|]. split; [exact HL|]. split; [exact Hw1|].
  assert (Hseq : forall i, i < n -> nth_error (seq 0 n) i = Some i).
  { intros i Hi. rewrite (nth_error_nth' _ 0) by (rewrite seq_length; exact Hi). rewrite seq_nth by exact Hi. reflexivity. }
  split; [|split].
  - destruct Hw2 as [X|(i & col & v & _ & X)]; [left; exact X|right; eauto].
  - intros j col i v Hj Hv. apply (Hcol j col i i v Hj); auto. apply Hseq. apply nth_error_some_lt in Hv as Hlt. rewrite Forall_forall in Hlen.
    rewrite (Hlen col) in Hlt by (eapply nth_error_In; eauto). exact Hlt.
  - assert (E0 : hd 0 (seq 0 n) = 0) by (destruct n; reflexivity). rewrite E0 in HT.
    destruct (svm_target_ok itoa fmtF target 0 Ha ltac:(lia)) as (first & F1 & _). exists f, first. split; [exact Ef|]. split; [exact F1|].
    intros i s Hs. assert (Hi : i < n).
    { rewrite <- Hn. destruct target as [g|g]; cbn in Hs, Ha |- *; unfold nLength, cLength.
      - destruct (nth_error (nMissing g) i) eqn:Em; [eapply nth_error_some_lt; eauto|discriminate].
      - destruct (nth_error (cData g) i) eqn:Em; [|discriminate]. apply nth_error_some_lt in Em. lia. }
    specialize (HT i i (Hseq i Hi)). unfold texts in HT. rewrite F1, Hs in HT. exact HT.
Qed.
Print Assumptions C103_columns_exist.
Print Assumptions C103_libsvm_round_trip_partial.

(** *** An example with a hole in a categorical and in a numerical feature *)
Definition svm_fmt (x : f64) : string :=
  if feqb x f0 then "0" else if feqb x f1 then "1" else if feqb x (f_of_nat 2) then "2" else if feqb x (f_of_nat 3) then "3" else "9.5".
Definition svm_PF (s : string) : option f64 :=
  if (s =? "9.5")%string then Some (fdiv (f_of_nat 19) (f_of_nat 2)) else PFd s.
Definition svm_itoa (n : nat) : string := String (ascii_of_nat (48 + n)) "".
Definition svm_fm : fmatrix :=
  mkFM [FCat (mkCat (mkCM [("c", 2); ("b", 1); ("a", 0)] ["a"; "b"; "c"]) [0; 1; 1; 2; 0] [false; false; false; false; true] "C:x" false true);
        FNum (mkNum [fdiv (f_of_nat 19) (f_of_nat 2); f1; f0; f0; f1] (repeat false 5) "N:y" false);
        FNum (mkNum [f1; f_of_nat 3; f0; f_of_nat 2; f_of_nat 2] [false; false; true; false; false] "N:z" true);
        FCat (mkCat (mkCM [("q", 1); ("p", 0)] ["p"; "q"]) [0; 0; 0; 0; 0] (repeat false 5) "C:w" false false)]
       [("C:w", 3); ("N:z", 2); ("N:y", 1); ("C:x", 0)] ["1"; "2"; "3"; "4"; "5"].
Definition svm_cols : list (list (list f64)) :=
  let z := f0 in [[[f1; z; z; z; z]; [z; f1; f1; z; f1]; [z; z; z; f1; z]]; [[f1; f_of_nat 3; f_of_nat 2; f_of_nat 2; f_of_nat 2]]; [[z; z; z; z; z]]].
Lemma holes_from {A} (d : A) ms xs ys : ys = fill d ms xs -> length xs = length ms -> holes_filled d ms xs ys.
Proof. intros ->. apply fill_holes. Qed.
Example C103_applies :
  assoc "N:y" (fmMap svm_fm) = Some 1 /\ Forall2 exported (all_but 1 (fmData svm_fm)) svm_cols /\
  Forall (fun f => in_range f /\ fLength f = 5) (all_but 1 (fmData svm_fm)) /\
  (forall k, 0 < k <= length (concat svm_cols) -> Atoid (B (svm_itoa k)) = Some (Z.of_nat k) /\ bare (svm_itoa k) /\ no ":" (B (svm_itoa k))) /\
  (forall x, In x (concat (concat svm_cols)) -> svm_PF (svm_fmt x) = Some x /\ bare (svm_fmt x) /\ no ":" (B (svm_fmt x))).
Proof.
  assert (W : forall s, s <> "" -> forallb (fun c => negb (is_space c) && negb (Ascii.eqb c quote) && negb (Ascii.eqb c ":")) (B s) = true -> s <> "\." -> bare s /\ no ":" (B s)).
  { intros s Hne H Hd. assert (G : forall c, In c (B s) -> is_space c = false /\ c <> quote /\ c <> ":"%char).
    { intros c Hc. rewrite forallb_forall in H. specialize (H c Hc). apply andb_prop in H as [H H3]. apply andb_prop in H as [H1 H2].
      destruct (Ascii.eqb_spec c quote); [discriminate|]. destruct (Ascii.eqb_spec c ":"); [discriminate|]. destruct (is_space c); [discriminate|]. auto. }
    split; [split; [split; [exact Hne|]|split; [|exact Hd]]|].
    - apply Forall_forall. intros c Hc. apply G. exact Hc.
    - apply Forall_forall. intros c Hc. apply G. exact Hc.
    - intros X. apply G in X. tauto. }
  split; [reflexivity|]. split; [|split; [|split]].
  - repeat constructor.
    + exists 1, [0; 1; 1; 2; 1]. split; [|split; [apply holes_from; reflexivity|reflexivity]].
      intros j. cbn [cMissing cData present]. destruct j as [|[|[|j]]]; cbn; split; lia.
    + eexists. split; [apply holes_from; [|reflexivity]|reflexivity]. vm_compute. reflexivity.
    + exists 0, [0; 0; 0; 0; 0]. split; [|split; [apply holes_from; reflexivity|reflexivity]].
      intros j. cbn [cMissing cData present]. destruct j as [|j]; cbn; split; lia.
  - repeat constructor.
  - intros k Hk. cbn in Hk. assert (K : k = 1 \/ k = 2 \/ k = 3 \/ k = 4 \/ k = 5) by lia.
    destruct K as [->|[->|[->|[->| ->]]]]; (split; [reflexivity|apply W; [discriminate|reflexivity|discriminate]]).
  - intros x Hx. assert (K : x = f0 \/ x = f1 \/ x = f_of_nat 2 \/ x = f_of_nat 3) by (vm_compute in Hx; vm_compute; intuition auto).
    destruct K as [->|[->|[->| ->]]]; (split; [reflexivity|apply W; [discriminate|reflexivity|discriminate]]).
Qed.
Example C103_example : exists out fm', WriteLibSvm svm_itoa svm_fmt svm_fm "N:y" = Ok (Some out) /\
  T out = T (svm_lines ["9.5 1:1 4:1"; "1 2:1 4:3"; "0 2:1 4:2"; "0 3:1 4:2"; "1 2:1 4:2"]) /\
  ParseLibSVM svm_PF svm_itoa Atoid out = Ok fm' /\ length (fmData fm') = 5 /\
  option_map (fun f => value_at f 2) (nth_error (fmData fm') 4) = Some (Some (VNum (f_of_nat 2))).
Proof. eexists. eexists. split; [vm_compute; reflexivity|]. split; [reflexivity|]. split; [vm_compute; reflexivity|]. split; reflexivity. Qed.

(** *** What is not kept *)
(** The column of the feature [C:w] above, all of whose cases are [p], is not there. *)
Theorem C103_trailing_columns_refuted : exists out fm', WriteLibSvm svm_itoa svm_fmt svm_fm "N:y" = Ok (Some out) /\
  ParseLibSVM svm_PF svm_itoa Atoid out = Ok fm' /\ length (concat svm_cols) = 5 /\ length (fmData fm') = 5.
Proof. eexists. eexists. split; [vm_compute; reflexivity|]. split; [vm_compute; reflexivity|]. split; reflexivity. Qed.
(** A numerical target whose first value is a whole number comes back as categories. *)
Theorem C103_numerical_target_refuted : exists out fm', WriteLibSvm svm_itoa svm_fmt svm_fm "N:z" = Ok (Some out) /\
  ParseLibSVM svm_PF svm_itoa Atoid out = Ok fm' /\
  option_map (fun f => map (value_at f) [0; 1; 2]) (nth_error (fmData fm') 0) = Some [Some (VCat "1"); Some (VCat "3"); Some VMissing].
Proof. eexists. eexists. split; [vm_compute; reflexivity|]. split; [vm_compute; reflexivity|]. reflexivity. Qed.
(** A missing category of the target comes back as the first category. *)
Theorem C103_missing_target_refuted : exists out fm', WriteLibSvm svm_itoa svm_fmt svm_fm "C:x" = Ok (Some out) /\
  ParseLibSVM svm_PF svm_itoa Atoid out = Ok fm' /\
  option_map (fun f => value_at f 4) (nth_error (fmData svm_fm) 0) = Some (Some VMissing) /\
  option_map (fun f => map (value_at f) [0; 1; 4]) (nth_error (fmData fm') 0) = Some [Some (VCat "0"); Some (VCat "1"); Some (VCat "0")].
Proof. eexists. eexists. split; [vm_compute; reflexivity|]. split; [vm_compute; reflexivity|]. split; reflexivity. Qed.
Print Assumptions C103_trailing_columns_refuted.
Print Assumptions C103_numerical_target_refuted.
Print Assumptions C103_missing_target_refuted.
