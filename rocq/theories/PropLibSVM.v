(** C62: libsvm files. *)
From Verif Require Import Go GoLemmas F64 ModelFeature FeatureSpec ModelSample FeatureProofs ModelText TextProofs ModelMatrix MatrixSpec MatrixProofs.
Local Open Scope string_scope.
Local Open Scope nat_scope.
Local Open Scope list_scope.

(** ** Specification *)
(** The lines that count: those ended by a newline. *)
Definition ended_lines (input : bytes) : list bytes := removelast (split nl input).
(** A line as a target and entries (index and text of the value). *)
Record sparse := mkSparse { sTarget : string; sEntries : list (nat * string) }.
Section Spec.
  Variable PF : string -> option f64.
  Variable Atoi : bytes -> option Z.
  (** A word [index:value] with a positive index; anything may follow a second colon. *)
  Definition entry_word (w : bytes) (e : nat * string) : Prop :=
    exists p0 p1 more, split ":" w = p0 :: p1 :: more /\ 0 < fst e /\ Atoi p0 = Some (Z.of_nat (fst e)) /\ snd e = T p1.
  Definition line_of (line : bytes) (s : sparse) : Prop :=
    exists w ws, fields line = w :: ws /\ sTarget s = T w /\ Forall2 entry_word ws (sEntries s).
  (** The value of column [j] in a line: the last entry of that index, zero if there is none. *)
  Definition entry_value (v : string) : value := match PF v with Some x => VNum x | None => VMissing end.
  Fixpoint column_value (j : nat) (es : list (nat * string)) : value :=
    match es with
    | [] => VNum f0
    | (k, v) :: es' => if existsb (fun e => fst e =? j) es' then column_value j es'
                       else if k =? j then entry_value v else VNum f0
    end.
End Spec.

(** ** Lemmas *)
Definition top (es : list (nat * string)) : nat := fold_right (fun e m => Nat.max (fst e) m) 0 es.
Lemma top_snoc es e : top (es ++ [e]) = Nat.max (top es) (fst e).
Proof. unfold top. induction es as [|a es IH]; cbn; [lia|]. rewrite IH. lia. Qed.
Lemma top_in es e : In e es -> fst e <= top es.
Proof. unfold top. induction es as [|a es IH]; cbn; [tauto|]. intros [->|H]; [lia|]. apply IH in H. lia. Qed.

Definition width (ss : list sparse) : nat := S (fold_right (fun s m => Nat.max (top (sEntries s)) m) 0 ss).
Lemma width_snoc ss s : width (ss ++ [s]) = Nat.max (width ss) (S (top (sEntries s))).
Proof. unfold width. induction ss as [|a ss IH]; cbn; [lia|]. cbn in IH. lia. Qed.
Lemma width_in ss s : In s ss -> top (sEntries s) < width ss.
Proof. unfold width. induction ss as [|a ss IH]; cbn; [tauto|]. intros [->|H]; [lia|]. apply IH in H. lia. Qed.

Section Proofs.
  Variable PF : string -> option f64.
  Variable itoa : nat -> string.
  Variable Atoi : bytes -> option Z.
  Hypothesis PF0 : PF "0" = Some f0.

  (** A numerical column of [n] cases with given values *)
  Definition column (n : nat) (vals : nat -> value) (f : feature) : Prop :=
    exists g, f = FNum g /\ length (nData g) = n /\ length (nMissing g) = n /\ forall i, i < n -> value_at f i = Some (vals i).
  Lemma column_ext n v v' f : (forall i, i < n -> v i = v' i) -> column n v f -> column n v' f.
  Proof. intros E (g & -> & A & C & D). exists g. repeat (split; [auto|]). intros i Hi. rewrite D by auto. f_equal. auto. Qed.
  Lemma column_zero n : forall name, column n (fun _ => VNum f0) (FNum (mkNum (repeat f0 n) (repeat false n) name false)).
  Proof.
    intros name. eexists. split; [reflexivity|]. cbn. rewrite !repeat_length. split; auto. split; auto. intros i Hi.
    rewrite !(nth_error_nth' _ (if true then false else true)) by (rewrite repeat_length; auto).
    rewrite (nth_error_nth' (repeat f0 n) f0) by (rewrite repeat_length; auto). rewrite !nth_repeat. reflexivity.
  Qed.
  Lemma column_append n v f : column n v f -> column (S n) (fun i => if i =? n then VNum f0 else v i) (fAppend PF f "0").
  Proof.
    intros (g & -> & A & C & D). eexists. split; [reflexivity|]. cbn [fAppend]. unfold nAppend. rewrite PF0. cbn [nData nMissing value_at].
    rewrite !app_length. cbn. split; [lia|]. split; [lia|]. intros i Hi. destruct (Nat.eqb_spec i n) as [->|Hn].
    - rewrite !nth_error_app2, A, C, Nat.sub_diag by lia. reflexivity.
    - rewrite !nth_error_app1 by lia. apply D. lia.
  Qed.
  Lemma column_put n v f i w : column n v f -> i < n ->
    exists f', fPutStr PF f i w = Ok f' /\ column n (fun k => if k =? i then entry_value PF w else v k) f'.
  Proof.
    intros (g & -> & A & C & D) Hi. cbn [fPutStr]. unfold nPutStr, entry_value. destruct (PF w) as [x|].
    - rewrite !set_ok by lia. cbn [bind]. eexists. split; [reflexivity|]. eexists. split; [reflexivity|]. cbn [nData nMissing value_at].
      rewrite !upd_length. split; auto. split; auto. intros k Hk. destruct (Nat.eqb_spec k i) as [->|Hn].
      + rewrite !nth_error_upd_eq by lia. reflexivity.
      + rewrite !nth_error_upd_neq by auto. apply D. auto.
    - rewrite !set_ok by lia. cbn [bind]. eexists. split; [reflexivity|]. eexists. split; [reflexivity|]. cbn [nData nMissing value_at].
      rewrite !upd_length. split; auto. split; auto. intros k Hk. destruct (Nat.eqb_spec k i) as [->|Hn].
      + rewrite !nth_error_upd_eq by lia. destruct (nth_error (nData g) i) eqn:E; auto. apply nth_error_None in E. lia.
      + rewrite !nth_error_upd_neq by auto. apply D. auto.
  Qed.

  (** The columns beside the target *)
  Definition columns (n : nat) (vals : nat -> nat -> value) (data : list feature) : Prop :=
    forall j f, 0 < j -> nth_error data j = Some f -> column n (vals j) f.
  Definition hole (i : nat) (vals : nat -> nat -> value) (j : nat) : nat -> value := fun k => if k =? i then VNum f0 else vals j k.
  (** columns beyond the data are all zero *)
  Definition zero_beyond (len : nat) (vals : nat -> nat -> value) : Prop := forall j k, len <= j -> vals j k = VNum f0.
  Lemma existsb_snoc {A} (p : A -> bool) l a : existsb p (l ++ [a]) = existsb p l || p a.
  Proof. rewrite existsb_app. cbn. rewrite orb_false_r. reflexivity. Qed.
  Lemma column_value_snoc j es k v : column_value PF j (es ++ [(k, v)]) = if k =? j then entry_value PF v else column_value PF j es.
  Proof.
    induction es as [|(a, b) es IH]; cbn; [reflexivity|]. rewrite existsb_snoc. cbn [fst]. rewrite IH.
    destruct (k =? j) eqn:E; [rewrite orb_true_r; reflexivity|]. rewrite orb_false_r. destruct (existsb _ es); reflexivity.
  Qed.
  Lemma column_value_none j es : (forall e, In e es -> fst e <> j) -> column_value PF j es = VNum f0.
  Proof.
    induction es as [|(a, b) es IH]; cbn; intros H; auto. rewrite IH by auto. destruct (existsb _ es); auto.
    rewrite (proj2 (Nat.eqb_neq _ _)); auto. apply (H (a, b)). auto.
  Qed.
  Lemma column_value_none' j es : existsb (fun e => fst e =? j) es = false -> column_value PF j es = VNum f0.
  Proof.
    intros H. apply column_value_none. intros e He E. apply Bool.not_true_iff_false in H. apply H. apply existsb_exists. exists e. split; auto. apply Nat.eqb_eq; auto.
  Qed.
  Definition line_vals (i : nat) (es : list (nat * string)) (vals : nat -> nat -> value) (j k : nat) : value :=
    if k =? i then column_value PF j es else vals j k.
  Lemma entries_ok i : forall ws es2, Forall2 (entry_word Atoi) ws es2 -> forall es1 vals data lookup f0' len,
    nth_error data 0 = Some f0' -> length data = Nat.max len (S (top es1)) -> 0 < len -> zero_beyond len vals ->
    columns (S i) (line_vals i es1 vals) data ->
    exists data' lookup', foreach ws (svm_entry PF itoa Atoi i (S i)) (data, lookup) = Ok (data', lookup') /\
      nth_error data' 0 = Some f0' /\ length data' = Nat.max len (S (top (es1 ++ es2))) /\
      columns (S i) (line_vals i (es1 ++ es2) vals) data'.
  Proof.
    induction 1 as [|w (k, v) ws es2 He H IH]; intros es1 vals data lookup f0' len H0 Hlen Hpos Hz Hc.
    - exists data, lookup. rewrite app_nil_r. auto.
    - destruct He as (p0 & p1 & more & Esp & Hk & Ea & Ev). cbn [fst snd] in *. cbn [foreach].
      unfold svm_entry at 1. rewrite Esp. cbn [get nth_error bind]. rewrite Ea.
      rewrite (proj2 (Z.ltb_ge _ _)) by lia. rewrite Nat2Z.id.
      set (new := seq (length data) (S k - length data)).
      set (data1 := data ++ map (fun j => FNum (mkNum (repeat f0 (S i)) (repeat false (S i)) (itoa j) false)) new).
      assert (Eg : grow_to itoa k (S i) (data, lookup) = (data1, rev (map (fun j => (itoa j, j)) new) ++ lookup)) by reflexivity.
      rewrite Eg.
      assert (Hd1 : length data1 = Nat.max (length data) (S k)) by (unfold data1, new; rewrite app_length, map_length, seq_length; lia).
      assert (Hc1 : columns (S i) (line_vals i es1 vals) data1).
      { intros j f Hj Hf. unfold data1 in Hf. destruct (Nat.lt_ge_cases j (length data)) as [L|L].
        - rewrite nth_error_app1 in Hf by auto. apply Hc; auto.
        - rewrite nth_error_app2, nth_error_map in Hf by auto. destruct (nth_error new (j - length data)); [|discriminate]. cbn in Hf. inversion Hf.
          apply (column_ext (S i) (fun _ => VNum f0)); [|apply column_zero]. intros m Hm. unfold line_vals.
          destruct (m =? i); [symmetry; apply column_value_none; intros e He; apply top_in in He; lia|symmetry; apply Hz; lia]. }
      destruct (nth_error data1 k) as [f|] eqn:Ef; [|apply nth_error_None in Ef; lia].
      destruct (column_put _ _ _ i v (Hc1 k f Hk Ef) (Nat.lt_succ_diag_r i)) as (f' & Ep & Hcf).
      assert (EgZ : getZ data1 (Z.of_nat k) = Ok f).
      { unfold getZ. rewrite (proj2 (Z.ltb_ge _ _)) by lia. rewrite Nat2Z.id. apply get_nth. auto. }
      rewrite EgZ. cbn [bind]. rewrite <- Ev, Ep. cbn [bind]. rewrite set_ok by lia. cbn [bind].
      destruct (IH (es1 ++ [(k, v)]) vals (upd data1 k f') (rev (map (fun j => (itoa j, j)) new) ++ lookup) f0' len) as (data' & lookup' & E & R0 & R1 & R2).
      + rewrite nth_error_upd_neq by lia. unfold data1. rewrite nth_error_app1 by (apply nth_error_some_lt in H0; auto). auto.
      + rewrite upd_length, Hd1, Hlen, top_snoc. cbn [fst]. lia.
      + auto.
      + auto.
      + intros j g Hj Hg. destruct (Nat.eq_dec j k) as [->|Hn].
        * rewrite nth_error_upd_eq in Hg by lia. inversion Hg; subst g. eapply column_ext; [|exact Hcf]. intros m Hm. cbn beta. unfold line_vals.
          rewrite column_value_snoc, Nat.eqb_refl. destruct (m =? i); reflexivity.
        * rewrite nth_error_upd_neq in Hg by auto. eapply column_ext; [|apply (Hc1 j g Hj Hg)]. intros m Hm. unfold line_vals.
          rewrite column_value_snoc, (proj2 (Nat.eqb_neq k j)) by auto. reflexivity.
      + exists data', lookup'. rewrite <- app_assoc in R1, R2. cbn [app] in R1, R2. auto.
  Qed.

  (** *** Lines *)
  Definition new_target (v0 : string) : feature := if count_byte "." (B v0) =? 0 then newCat "0" else newNum "0".
  Definition target_of (ss : list sparse) : feature :=
    fold_left (fAppend PF) (map sTarget ss) (new_target (match ss with s :: _ => sTarget s | [] => "" end)).
  Definition vals_of (ss : list sparse) (j k : nat) : value :=
    match nth_error ss k with Some s => column_value PF j (sEntries s) | None => VNum f0 end.
  Definition svm_inv (ss : list sparse) (data : list feature) : Prop :=
    match ss with
    | [] => data = []
    | _ => nth_error data 0 = Some (target_of ss) /\ length data = width ss /\ columns (length ss) (vals_of ss) data
    end.
  Lemma target_snoc ss s : ss <> [] -> target_of (ss ++ [s]) = fAppend PF (target_of ss) (sTarget s).
  Proof.
    intros H. unfold target_of. rewrite map_app, fold_left_app. cbn [map fold_left]. destruct ss; [congruence|]. reflexivity.
  Qed.
  Lemma svm_line_ok ss line s data lookup : svm_inv ss data -> line_of Atoi line s ->
    exists data' lookup', svm_line PF itoa Atoi (length ss) line (data, lookup) = Ok (data', lookup') /\ svm_inv (ss ++ [s]) data'.
  Proof.
    intros Hinv (w & ws & Ef & Et & Hes). unfold svm_line. rewrite Ef. cbn [get nth_error bind tl].
    assert (G : exists data1 lookup1 rest,
      (if length ss =? 0 then (data ++ [if count_byte "." w =? 0 then newCat "0" else newNum "0"], ("0", 0) :: lookup) else (data, lookup)) = (data1, lookup1) /\
      exists f, data1 = f :: rest /\ fAppend PF f (sTarget s) = target_of (ss ++ [s]) /\ S (length rest) = width ss /\
        (forall j g, nth_error rest j = Some g -> column (length ss) (vals_of ss (S j)) g)).
    { destruct ss as [|s0 ss].
      - cbn in Hinv. subst data. cbn [length Nat.eqb]. eexists. eexists. exists []. split; [reflexivity|].
        exists (new_target (sTarget s)). split; [unfold new_target; rewrite Et, BT; reflexivity|]. split; [reflexivity|]. split; [reflexivity|].
        intros [|j] g X; discriminate.
      - destruct Hinv as (H0 & Hlen & Hc). destruct data as [|f rest]; [discriminate|]. cbn [length Nat.eqb].
        exists (f :: rest), lookup, rest. split; [reflexivity|]. exists f. split; [reflexivity|]. split.
        + rewrite target_snoc by discriminate. cbn [nth_error] in H0. congruence.
        + split; [exact Hlen|]. intros j g Hg. apply (Hc (S j) g); [lia|exact Hg]. }
    destruct G as (data1 & lookup1 & rest & -> & f & -> & Ea & Hlen & Hc). cbn [get nth_error bind].
    unfold set. cbn [length Nat.ltb Nat.leb upd bind]. rewrite <- Et, Ea.
    destruct (entries_ok (length ss) ws (sEntries s) Hes [] (vals_of ss) (target_of (ss ++ [s]) :: map (fun f => fAppend PF f "0") rest) lookup1 (target_of (ss ++ [s])) (width ss))
      as (data' & lookup' & E & R0 & R1 & R2).
    - reflexivity.
    - cbn [length top fold_right]. rewrite map_length. unfold width in *. lia.
    - unfold width. lia.
    - intros j k Hj. unfold vals_of. destruct (nth_error ss k) as [s'|] eqn:Es; auto. apply column_value_none. intros e He.
      apply top_in in He. apply nth_error_In in Es. apply width_in in Es. lia.
    - intros j g Hj Hg. destruct j as [|j]; [lia|]. cbn in Hg. rewrite nth_error_map in Hg. destruct (nth_error rest j) as [h|] eqn:Eh; [|discriminate].
      cbn in Hg. inversion Hg; subst g. eapply column_ext; [|apply column_append; apply (Hc j h Eh)]. intros m Hm. unfold line_vals. cbn beta.
      destruct (m =? length ss); reflexivity.
    - rewrite E. exists data', lookup'. split; [reflexivity|]. unfold svm_inv. destruct (ss ++ [s]) as [|a l] eqn:Eapp; [destruct ss; discriminate|].
      rewrite <- Eapp in *. split; [exact R0|]. split; [rewrite width_snoc; exact R1|].
      intros j g Hj Hg. rewrite app_length. cbn [length]. rewrite Nat.add_1_r. eapply column_ext; [|apply (R2 j g Hj Hg)]. intros m Hm. unfold line_vals, vals_of. cbn [app].
      destruct (Nat.eqb_spec m (length ss)) as [->|Hn].
      + rewrite nth_error_app2, Nat.sub_diag by lia. reflexivity.
      + rewrite nth_error_app1 by lia. reflexivity.
  Qed.
  Lemma svm_lines_ok : forall lines ss2, Forall2 (line_of Atoi) lines ss2 -> forall ss1 data lookup, svm_inv ss1 data ->
    exists data' lookup', foreach (combine (seq (length ss1) (length lines)) lines) (fun '((i, l) : nat * bytes) st => svm_line PF itoa Atoi i l st) (data, lookup) = Ok (data', lookup')
      /\ svm_inv (ss1 ++ ss2) data'.
  Proof.
    induction 1 as [|l s lines ss2 Hl H IH]; intros ss1 data lookup Hinv.
    - exists data, lookup. rewrite app_nil_r. auto.
    - cbn [length seq combine foreach]. destruct (svm_line_ok ss1 l s data lookup Hinv Hl) as (d1 & l1 & E & Hinv1).
      rewrite E. cbn [bind]. destruct (IH (ss1 ++ [s]) d1 l1 Hinv1) as (d2 & l2 & E2 & Hinv2).
      rewrite app_length in E2. cbn [length] in E2. rewrite Nat.add_1_r in E2. exists d2, l2. rewrite <- app_assoc in Hinv2. auto.
  Qed.
End Proofs.

(** ** C62 *)
(** Lines with positive indices: a rectangular matrix whose first column is the target
    and whose column [j] has the value of the last entry [j] of the line, or zero. *)
Theorem C62_libsvm_matrix : forall PF itoa Atoi input ss,
  PF "0" = Some f0 -> Forall2 (line_of Atoi) (ended_lines input) ss -> ss <> [] ->
  exists fm, ParseLibSVM PF itoa Atoi input = Ok fm /\
    Forall (fun f => fLength f = length ss) (fmData fm) /\
    (** the cases are labelled by their numbers, from 0 *)
    fmLabels fm = map itoa (seq 0 (length ss)) /\
    (** as many columns as the largest index asks for *)
    (forall s j v, In s ss -> In (j, v) (sEntries s) -> j < length (fmData fm)) /\
    (length (fmData fm) = 1 \/ exists s v, In s ss /\ In (length (fmData fm) - 1, v) (sEntries s)) /\
    (forall j f, nth_error (fmData fm) j = Some f -> 0 < j -> is_numerical f = true /\
       forall i s, nth_error ss i = Some s -> value_at f i = Some (column_value PF j (sEntries s))) /\
    (** the target: categorical unless its first text has a point *)
    (forall f, nth_error (fmData fm) 0 = Some f -> forall i s, nth_error ss i = Some s ->
       if count_byte "." (B (sTarget (hd s ss))) =? 0
       then is_token (sTarget s) /\ value_at f i = Some VMissing \/ ~ is_token (sTarget s) /\ value_at f i = Some (VCat (sTarget s))
       else value_at f i = Some (entry_value PF (sTarget s))).
Proof.
  intros PF itoa Atoi input ss PF0 H Hne. unfold ParseLibSVM. fold (ended_lines input).
  destruct (svm_lines_ok PF itoa Atoi PF0 _ _ H [] [] []) as (data & lookup & E & Hinv); [reflexivity|].
  cbn [length app] in E, Hinv. rewrite E. cbn [bind]. eexists. split; [reflexivity|]. cbn [fmData fmLabels].
  assert (Hlines : length (ended_lines input) = length ss) by (clear -H; induction H; cbn; lia).
  unfold svm_inv in Hinv. destruct ss as [|s0 ss']; [congruence|]. set (ss := s0 :: ss') in *. destruct Hinv as (H0 & Hw & Hc).
  assert (Ht : target_of PF ss = fold_left (fAppend PF) (map sTarget ss) (new_target (sTarget s0))) by reflexivity.
  assert (Htv : fLength (target_of PF ss) = length ss /\ forall i s, nth_error ss i = Some s ->
     if count_byte "." (B (sTarget s0)) =? 0
       then is_token (sTarget s) /\ value_at (target_of PF ss) i = Some VMissing \/ ~ is_token (sTarget s) /\ value_at (target_of PF ss) i = Some (VCat (sTarget s))
       else value_at (target_of PF ss) i = Some (entry_value PF (sTarget s))).
  { rewrite Ht. unfold new_target. destruct (count_byte "." (B (sTarget s0)) =? 0).
    - split.
      + pose proof (filled_length PF "0" (map sTarget ss)) as L. rewrite map_length in L. exact L.
      + intros i s Hs. assert (Hv : nth_error (map sTarget ss) i = Some (sTarget s)) by (rewrite nth_error_map, Hs; reflexivity).
        pose proof (filled_value PF "0" _ _ _ Hv) as V. unfold cell_value in V. cbn [substring] in V. cbn [String.eqb] in V.
        unfold filled, newF in V. cbn [substring] in V. 
        destruct (missing_token (sTarget s)) eqn:Em; [left|right]; (split; [|exact V]).
        * apply missing_token_spec; auto.
        * intros X. apply missing_token_spec in X. congruence.
    - unfold newNum. rewrite fold_num, fold_nAppend. split; [cbn [fLength]; unfold nLength; cbn [nMissing]; rewrite !map_length; reflexivity|].
      intros i s Hs. cbn [value_at nMissing nData]. rewrite !nth_error_map, Hs. cbn [option_map]. unfold num_bad, num_val, entry_value. destruct (PF (sTarget s)); reflexivity. }
  destruct Htv as [Htl Htv].
  split; [|split; [|split; [|split; [|split]]]].
  - apply Forall_forall. intros f Hf. apply In_nth_error in Hf as [[|j] Hj].
    + rewrite H0 in Hj. inversion Hj; subst f. exact Htl.
    + destruct (Hc (S j) f (Nat.lt_0_succ j) Hj) as (g & -> & A & C & D). exact C.
  - rewrite Hlines. reflexivity.
  - intros s j v Hs Hj. apply top_in in Hj. cbn in Hj. apply width_in in Hs. rewrite Hw. lia.
  - rewrite Hw. destruct (Nat.eq_dec (width ss) 1) as [|Hn]; [left; auto|right].
    assert (G : forall l, 0 < fold_right (fun s m => Nat.max (top (sEntries s)) m) 0 l -> exists s v, In s l /\ In (fold_right (fun s m => Nat.max (top (sEntries s)) m) 0 l, v) (sEntries s)).
    { assert (GE : forall es, 0 < top es -> exists v, In (top es, v) es).
      { induction es as [|(a, b) es IH]; [cbn; lia|]. change (top ((a, b) :: es)) with (Nat.max a (top es)). cbn [In]. intros Hp. destruct (Nat.max_spec a (top es)) as [[L ->]|[L ->]].
        - destruct IH as [v Hv]; [lia|]. eauto.
        - exists b. auto. }
      induction l as [|s l IH]; cbn; [lia|]. intros Hp. destruct (Nat.max_spec (top (sEntries s)) (fold_right (fun s m => Nat.max (top (sEntries s)) m) 0 l)) as [[L ->]|[L ->]].
      - destruct IH as (s' & v & Hs & Hv); [lia|]. eauto.
      - destruct (GE (sEntries s)) as [v Hv]; [lia|]. eauto. }
    destruct (G ss) as (s & v & Hs & Hv); [unfold width in Hn; lia|]. exists s, v. split; auto. unfold width. rewrite Nat.sub_succ, Nat.sub_0_r. exact Hv.
  - intros j f Hj Hpos. destruct (Hc j f Hpos Hj) as (g & -> & A & C & D). split; [reflexivity|]. intros i s Hs.
    rewrite (D i) by (eapply nth_error_some_lt; eauto). unfold vals_of. rewrite Hs. reflexivity.
  - intros f Hf. rewrite H0 in Hf. inversion Hf; subst f. exact Htv.
Qed.
Print Assumptions C62_libsvm_matrix.

(** *** An example, with one digit numbers *)
Definition digit (s : bytes) : option nat :=
  match s with [c] => let n := nat_of_ascii c in if (48 <=? n) && (n <=? 57) then Some (n - 48) else None | _ => None end.
Definition PFd (s : string) : option f64 := option_map f_of_nat (digit (B s)).
Definition Atoid (s : bytes) : option Z := option_map Z.of_nat (digit s).
Definition svm_lines (ls : list string) : bytes := concat (map (fun l => B l ++ [nl]) ls).
Example C62_applies :
  Forall2 (line_of Atoid) (ended_lines (svm_lines ["a 2:7 1:5"; "b"; "a 2:3 2:x"]))
    [mkSparse "a" [(2, "7"); (1, "5")]; mkSparse "b" []; mkSparse "a" [(2, "3"); (2, "x")]].
Proof.
  assert (W : forall w e p0 p1, split ":" w = [p0; p1] -> 0 < fst e -> Atoid p0 = Some (Z.of_nat (fst e)) -> snd e = T p1 -> entry_word Atoid w e).
  { intros w e p0 p1 A C D E. exists p0, p1, []. auto. }
  change (ended_lines (svm_lines ["a 2:7 1:5"; "b"; "a 2:3 2:x"])) with [B "a 2:7 1:5"; B "b"; B "a 2:3 2:x"].
  repeat apply Forall2_cons; try apply Forall2_nil.
  - exists (B "a"), [B "2:7"; B "1:5"]. split; [reflexivity|]. split; [reflexivity|].
    repeat apply Forall2_cons; try apply Forall2_nil; eapply W; try reflexivity; cbn; lia.
  - exists (B "b"), []. split; [reflexivity|]. split; [reflexivity|]. constructor.
  - exists (B "a"), [B "2:3"; B "2:x"]. split; [reflexivity|]. split; [reflexivity|].
    repeat apply Forall2_cons; try apply Forall2_nil; eapply W; try reflexivity; cbn; lia.
Qed.
Example C62_example :
  ParseLibSVM PFd (fun _ => "") Atoid (svm_lines ["a 2:7 1:5"; "b"; "a 2:3 2:x"]) =
  Ok (mkFM [FCat (mkCat (mkCM [("b", 1); ("a", 0)] ["a"; "b"]) [0; 1; 0] [false; false; false] "0" false false);
            FNum (mkNum [f_of_nat 5; f0; f0] [false; false; false] "" false);
            FNum (mkNum [f_of_nat 7; f0; f_of_nat 3] [false; false; true] "" true)]
           [("", 2); ("", 1); ("0", 0)] [""; ""; ""]).
Proof. vm_compute. reflexivity. Qed.

(** *** What is not in the claim *)
(** Any text after the last newline is ignored, so the last case of a file that does not
    end in a newline is lost. *)
Theorem C84_last_line_lost_refuted : forall PF itoa Atoi input last, no nl last -> (input = [] \/ exists a, input = a ++ [nl]) ->
  ParseLibSVM PF itoa Atoi (input ++ last) = ParseLibSVM PF itoa Atoi input.
Proof.
  intros PF itoa Atoi input last Hl Hin. unfold ParseLibSVM.
  assert (E : removelast (split nl (input ++ last)) = removelast (split nl input)).
  { assert (G : forall a b, no nl b -> exists ws, split nl (a ++ nl :: b) = ws ++ [b] /\ split nl (a ++ [nl]) = ws ++ [[]] /\ ws <> []).
    { intros a b Hb. induction a as [|c a IH]; cbn [app split].
      - exists [[]]. rewrite Ascii.eqb_refl, split_none by exact Hb. split; auto. split; [auto|discriminate].
      - destruct IH as (ws & E1 & E2 & Hne). rewrite E1, E2. destruct (Ascii.eqb c nl).
        + exists ([] :: ws). split; auto. split; [auto|discriminate].
        + destruct ws as [|w ws]; [congruence|]. exists ((c :: w) :: ws). split; auto. split; [auto|discriminate]. }
    destruct Hin as [->|(a & ->)].
    - cbn [app]. rewrite split_none by exact Hl. reflexivity.
    - rewrite <- app_assoc. cbn [app]. destruct (G a last Hl) as (ws & E1 & E2 & _). rewrite E1, E2. rewrite !removelast_last. reflexivity. }
  rewrite E. reflexivity.
Qed.
Print Assumptions C84_last_line_lost_refuted.
(** An index of 0, or one that is not a number, overwrites the target of the case. *)
Theorem C85_target_overwritten_refuted :
  (exists fm, ParseLibSVM PFd (fun _ => "") Atoid (svm_lines ["a 1:5"; "b 0:7"]) = Ok fm /\
     option_map (fun f => value_at f 1) (nth_error (fmData fm) 0) = Some (Some (VCat "7"))) /\
  (exists fm, ParseLibSVM PFd (fun _ => "") Atoid (svm_lines ["a 1:5"; "b qid:7"]) = Ok fm /\
     option_map (fun f => value_at f 1) (nth_error (fmData fm) 0) = Some (Some (VCat "7"))).
Proof. split; eexists; (split; [vm_compute; reflexivity|reflexivity]). Qed.
Print Assumptions C85_target_overwritten_refuted.
(** A negative index, an entry without a colon or an empty line panics. *)
Theorem C85_malformed_panics_refuted :
  ParseLibSVM PFd (fun _ => "") (fun s => match s with c :: s' => if Ascii.eqb c "-" then option_map (fun n => (- Z.of_nat n)%Z) (digit s') else option_map Z.of_nat (digit s) | [] => None end)
     (svm_lines ["a -1:5"]) = Panic /\
  ParseLibSVM PFd (fun _ => "") Atoid (svm_lines ["a 1"]) = Panic /\
  ParseLibSVM PFd (fun _ => "") Atoid (svm_lines ["a 1:5"; ""]) = Panic.
Proof. repeat split; vm_compute; reflexivity. Qed.
Print Assumptions C85_malformed_panics_refuted.
