(** C50, C80, C81: gradient boosting. *)
From Verif Require Import Go GoLemmas F64 Exact ModelFeature ModelTree TreeSpec ModelImpurity ModelBoost BoostProofs
  ModelBallot BallotSpec BallotProofs PropBallot PropTree.
Local Open Scope string_scope.
Local Open Scope nat_scope.
Local Open Scope list_scope.

Lemma nth_error_nth_lt {B} (l : list B) i d : i < length l -> nth_error l i = Some (nth i l d).
Proof. intros H. apply nth_error_nth'. exact H. Qed.
Lemma get_lt {B} (l : list B) i d : i < length l -> get l i = Ok (nth i l d).
Proof. intros H. apply get_nth, nth_error_nth_lt, H. Qed.
Lemma nth_upd {B} (l : list B) i j x d : i < length l -> nth j (upd l i x) d = if j =? i then x else nth j l d.
Proof.
  intros H. destruct (j =? i) eqn:E.
  - apply Nat.eqb_eq in E. subst. apply nth_error_nth, nth_error_upd_eq, H.
  - apply Nat.eqb_neq in E. destruct (nth_error l j) as [y|] eqn:Ej.
    + rewrite (nth_error_nth l j d Ej). apply nth_error_nth. rewrite nth_error_upd_neq; auto.
    + rewrite !nth_overflow; auto; [|rewrite upd_length]; apply nth_error_None; auto.
Qed.
Lemma upd_same {B} (l : list B) i x : nth_error l i = Some x -> upd l i x = l.
Proof. revert i. induction l as [|y l IH]; intros [|i] H; cbn in *; try congruence. f_equal. auto. Qed.

Section Any.
  Variable A : arith.
  Variable PF : string -> option A.
  Local Notation zero := (nofZ A 0).

  (** the mean that is computed *)
  Definition float_mean (xs : list A) : A := ndiv A (fold_left (nadd A) xs zero) (nofZ A (Z.of_nat (length xs))).

  Lemma sum_loop (xs : list A) : forall pre s,
    for_up (length xs) (length pre) (fun i sum => let* x := get (pre ++ xs) i in Ok (nadd A sum x)) s = Ok (fold_left (nadd A) xs s).
  Proof.
    induction xs as [|x xs IH]; intros pre s; [reflexivity|]. cbn [length for_up fold_left].
    rewrite (get_nth _ _ (a := x)). 2:{ rewrite nth_error_app2, Nat.sub_diag; auto. }
    cbn [bind]. specialize (IH (pre ++ [x]) (nadd A s x)). rewrite app_length in IH. cbn [length] in IH.
    replace (length pre + 1) with (S (length pre)) in IH by lia. rewrite <- app_assoc in IH. exact IH.
  Qed.

  (** Putting values one after the other. *)
  Lemma put_ok i v f : i < length (ncData A f) -> i < length (ncMissing A f) ->
    ncPut A i v f = Ok (mkNC A (upd (ncData A f) i v) (upd (ncMissing A f) i false)).
  Proof. intros H1 H2. unfold ncPut. rewrite set_ok by auto. cbn [bind]. rewrite set_ok by auto. reflexivity. Qed.

  (** Both arrays have [n] entries, none is missing. *)
  Definition full (n : nat) (f : numcol A) : Prop :=
    length (ncData A f) = n /\ length (ncMissing A f) = n /\ forall d, d < n -> nth d (ncMissing A f) false = false.

  Lemma new_gradboost f lr : length (ncData A f) = length (ncMissing A f) ->
    exists g, NewGradBoostTarget A f lr = Ok g /\ gbLearn A g = lr /\ gbMean A g = float_mean (ncData A f) /\
      full (length (ncData A f)) (gbF A g) /\
      forall d, d < length (ncData A f) ->
        nth d (ncData A (gbF A g)) zero = nsub A (nth d (ncData A f) zero) (float_mean (ncData A f)).
  Proof.
    intros L. unfold NewGradBoostTarget. rewrite <- L.
    pose proof (sum_loop (ncData A f) [] zero) as Es. cbn [length app] in Es. rewrite Es. cbn [bind]. fold (float_mean (ncData A f)).
    set (mu := float_mean (ncData A f)). set (n := length (ncData A f)) in *.
    destruct (for_up_total (fun i (h : numcol A) => length (ncData A h) = n /\ length (ncMissing A h) = n /\
        (forall d, d < i -> nth d (ncMissing A h) false = false) /\
        forall d, d < n -> nth d (ncData A h) zero = if d <? i then nsub A (nth d (ncData A f) zero) mu else nth d (ncData A f) zero)
      (fun i h => let* x := get (ncData A h) i in ncPut A i (nsub A x mu) h) n (lo := 0) f) as (h & E & H1 & H2 & H3 & H4).
    - intros i h Hi (H1 & H2 & H3 & H4). rewrite (get_lt (ncData A h) i zero) by (lia). cbn [bind].
      rewrite put_ok by lia. eexists. split; [reflexivity|]. cbn [ncData ncMissing]. rewrite !upd_length. do 2 (split; auto).
      split.
      + intros d Hd. rewrite nth_upd by lia. destruct (d =? i) eqn:E; auto. apply Nat.eqb_neq in E. apply H3. lia.
      + intros d Hd. rewrite nth_upd by lia. destruct (d =? i) eqn:E.
        * apply Nat.eqb_eq in E. subst d. rewrite H4 by lia. rewrite Nat.ltb_irrefl.
          replace (i <? S i) with true by (symmetry; apply Nat.ltb_lt; lia). reflexivity.
        * apply Nat.eqb_neq in E. rewrite H4 by auto. replace (d <? S i) with (d <? i); [reflexivity|].
          apply eq_true_iff_eq. rewrite !Nat.ltb_lt. lia.
    - do 2 (split; auto). split; [lia|]. intros d Hd. reflexivity.
    - rewrite E. cbn [bind]. eexists. split; [reflexivity|]. cbn [gbLearn gbMean gbF]. do 2 (split; auto).
      split; [split; auto|]. intros d Hd. rewrite H4 by auto. replace (d <? 0 + n) with true by (symmetry; apply Nat.ltb_lt; lia).
      reflexivity.
  Qed.

  Lemma gb_step (lr mu : A) n g c x :
    (full n (gbF A g) /\ gbLearn A g = lr /\ gbMean A g = mu) -> c < n ->
    exists g', (let* m := get (ncMissing A (gbF A g)) c in
      if m then Ok g
      else
        let* y := get (ncData A (gbF A g)) c in
        let* f := ncPut A c (nsub A y (nmul A (gbLearn A g) x)) (gbF A g) in
        Ok (mkGB A f (gbLearn A g) (gbMean A g))) = Ok g' /\
      (full n (gbF A g') /\ gbLearn A g' = lr /\ gbMean A g' = mu) /\
      forall d, d < n -> nth d (ncData A (gbF A g')) zero =
        if d =? c then nsub A (nth d (ncData A (gbF A g)) zero) (nmul A lr x) else nth d (ncData A (gbF A g)) zero.
  Proof.
    intros ((F1 & F2 & F3) & E1 & E2) Hc.
    rewrite (get_lt (ncMissing A (gbF A g)) c false) by (lia). cbn [bind]. rewrite F3 by auto.
    rewrite (get_lt (ncData A (gbF A g)) c zero) by (lia). cbn [bind].
    rewrite put_ok by lia. cbn [bind]. eexists. split; [reflexivity|]. cbn [gbF gbLearn gbMean ncData ncMissing].
    unfold full. cbn [ncData ncMissing]. rewrite !upd_length. split.
    - split; auto. do 2 (split; auto). intros d Hd. rewrite nth_upd by lia. destruct (d =? c); auto.
    - intros d Hd. rewrite nth_upd by lia. destruct (d =? c) eqn:E; auto. apply Nat.eqb_eq in E. subst. reflexivity.
  Qed.

  Lemma gb_rounds (lr mu : A) n : forall rounds g ws, Forall (round_ok n) rounds ->
    (full n (gbF A g) /\ gbLearn A g = lr /\ gbMean A g = mu) ->
    exists g', foreach rounds (fun '((fm, t) : fmatrix * node) '((g, ws) : gradboost A * list A) =>
      let* (arr, (leaves, preds)) := TreePartition fm t in
      let* (g, w) := gbBoost A PF arr leaves preds g in
      Ok (g, ws ++ [w])) (g, ws) = Ok (g', ws ++ repeat lr (length rounds)) /\
      (full n (gbF A g') /\ gbLearn A g' = lr /\ gbMean A g' = mu) /\
      forall d, d < n -> nth d (ncData A (gbF A g')) zero =
        fold_left (fun r s => nsub A r (nmul A lr (parse0 A PF s))) (leaf_words rounds d) (nth d (ncData A (gbF A g)) zero).
  Proof.
    induction rounds as [|[fm t] rounds IH]; intros g ws Hr Hg.
    - exists g. cbn. rewrite app_nil_r. auto.
    - inversion Hr as [|? ? H1 H2]; subst. cbn [foreach].
      destruct (one_round A PF (gradboost A) A
        (fun c x g => let* m := get (ncMissing A (gbF A g)) c in
          if m then Ok g
          else
            let* y := get (ncData A (gbF A g)) c in
            let* f := ncPut A c (nsub A y (nmul A (gbLearn A g) x)) (gbF A g) in
            Ok (mkGB A f (gbLearn A g) (gbMean A g))) (gbUpdate A) (fun _ _ _ => eq_refl) n
        (fun g => full n (gbF A g) /\ gbLearn A g = lr /\ gbMean A g = mu)
        (fun g d => nth d (ncData A (gbF A g)) zero) (fun x v => nsub A v (nmul A lr x))
        (fun g c x => gb_step lr mu n g c x) fm t g H1 Hg) as (arr & leaves & preds & g1 & Ep & Eo & G1 & V1).
      rewrite Ep. cbn [bind]. unfold gbBoost at 1. rewrite Eo. cbn [bind].
      destruct (IH g1 (ws ++ [gbLearn A g1]) H2 G1) as (g2 & E2 & G2 & V2). rewrite E2.
      exists g2. destruct G1 as (_ & L1 & _). rewrite L1. rewrite <- app_assoc. split; auto. split; auto.
      intros d Hd. rewrite V2, V1 by auto. unfold leaf_words. cbn [flat_map]. rewrite app_nil_r, fold_left_app. reflexivity.
  Qed.

  (** The residuals, operation by operation (also of float64): value minus mean, minus
      learning rate times prediction for every leaf reached. *)
Theorem C50_residuals : forall f lr rounds, length (ncData A f) = length (ncMissing A f) ->
  Forall (round_ok (length (ncData A f))) rounds ->
  exists g g', NewGradBoostTarget A f lr = Ok g /\
    gbRounds A PF rounds g = Ok (g', repeat lr (length rounds)) /\
    gbIntercept A g' = float_mean (ncData A f) /\ gbIntercept A g = gbIntercept A g' /\
    length (ncData A (gbF A g')) = length (ncData A f) /\
    forall c x, nth_error (ncData A f) c = Some x ->
      nth_error (ncData A (gbF A g')) c =
        Some (fold_left (fun r s => nsub A r (nmul A lr (parse0 A PF s))) (leaf_words rounds c)
                (nsub A x (float_mean (ncData A f)))).
Proof.
  intros f lr rounds L Hr. destruct (new_gradboost f lr L) as (g & E & E1 & E2 & F & Hv).
  destruct (gb_rounds lr (float_mean (ncData A f)) (length (ncData A f)) rounds g [] Hr) as (g' & E' & (F' & E1' & E2') & Hv').
  { auto. }
  exists g, g'. split; auto. split; [exact E'|]. unfold gbIntercept. split; auto. split; [congruence|].
  split; [apply F'|]. intros c x Hc. assert (Hl : c < length (ncData A f)) by (eapply nth_error_some_lt; eauto).
  rewrite (nth_error_nth_lt _ _ zero) by (destruct F' as (-> & _); auto).
  rewrite Hv' by auto. rewrite Hv by auto. rewrite (nth_error_nth _ _ zero Hc). reflexivity.
Qed.

  (** ** Two classes *)
  Section Class.
    Variables expit nlog : A -> A.

    Lemma enc_ok (data : list nat) (h : nat -> A) : forall (pre : list nat) (d : list A), length pre + length data <= length d ->
      exists d', foreach (combine (seq (length pre) (length data)) data) (fun '((i, v) : nat * nat) d => set d i (h v)) d = Ok d' /\
        length d' = length d.
    Proof.
      induction data as [|v data IH]; intros pre d H; cbn [length seq combine foreach] in *; [eauto|].
      rewrite set_ok by lia. cbn [bind].
      destruct (IH (pre ++ [v]) (upd d (length pre) (h v))) as (d' & E & L).
      { rewrite app_length, upd_length. cbn. lia. }
      rewrite app_length in E. cbn [length] in E. replace (length pre + 1) with (S (length pre)) in E by lia.
      exists d'. rewrite L, upd_length. auto.
    Qed.

    Definition readable (f : catF) : Prop :=
      length (cData f) = length (cMissing f) /\ forall i, i < length (cMissing f) -> exists s, cGetStr f i = Ok s.

    (** 1 for the cases of the positive class *)
    Definition positive (f : catF) (pos : string) (i : nat) : A :=
      match cGetStr f i with Ok s => if (s =? pos)%string then nofZ A 1 else zero | _ => zero end.

    Lemma new_class f lr pos : readable f ->
      let n := length (cMissing f) in
      let prior := let p := fold_left (nadd A) (map (positive f pos) (seq 0 n)) zero in
                   nlog (ndiv A p (nsub A (nofZ A (Z.of_nat n)) p)) in
      exists g f', NewGradBoostClassTarget A expit nlog f lr pos = Ok (g, f') /\ gcLearn A g = lr /\ gcPrior A g = prior /\
        full n (gcRes A g) /\ full n (gcActual A g) /\ full n (gcPred A g) /\
        (forall d, d < n -> nth d (ncData A (gcActual A g)) zero = positive f pos d /\
           nth d (ncData A (gcPred A g)) zero = prior /\
           nth d (ncData A (gcRes A g)) zero = nsub A (positive f pos d) (expit prior)) /\
        cMap f' = cMap f /\ cData f' = cData f /\ length (cMissing f') = n /\
        (forall d, d < n -> nth d (cMissing f') false = false).
    Proof.
      intros [L R] n prior. unfold NewGradBoostClassTarget. fold n.
      destruct (enc_ok (cData f) (fun v => if NCats (cMap f) <=? 2 then nofZ A (Z.of_nat v)
                             else if v =? 0 then nofZ A 1 else zero) [] (repeat zero n)) as (enc & Ee & Le).
      { rewrite repeat_length. cbn. lia. }
      cbn [length] in Ee. rewrite Ee. cbn [bind]. rewrite repeat_length in Le.
      destruct (for_up_total (fun i '((a, h) : numcol A * catF) =>
          length (ncData A a) = n /\ length (ncMissing A a) = n /\ cMissing h = ncMissing A a /\ cMap h = cMap f /\ cData h = cData f /\
          (forall d, d < i -> nth d (ncMissing A a) false = false /\ nth d (ncData A a) zero = positive f pos d) /\
          (forall d, i <= d < n -> nth d (ncMissing A a) false = nth d (cMissing f) false))
        (fun i '((actual, f) : numcol A * catF) =>
          let* s := cGetStr f i in
          let* a := ncPut A i (if (s =? pos)%string then nofZ A 1 else zero) actual in
          Ok (a, mkCat (cMap f) (cData f) (ncMissing A a) (cName f) (cRandom f) (cHas f)))
        n (lo := 0) (mkNC A enc (cMissing f), f)) as ([a h] & E & H1 & H2 & H3 & H4 & H5 & H6 & H7).
      - intros i [a h] Hi (H1 & H2 & H3 & H4 & H5 & H6 & H7).
        destruct (R i) as (s & Es); [fold n; lia|].
        assert (Eh : cGetStr h i = Ok s).
        { unfold cGetStr in *. rewrite H3, H4, H5.
          rewrite (get_lt (ncMissing A a) i false) by (lia). cbn [bind]. rewrite H7 by lia.
          rewrite (get_lt (cMissing f) i false) in Es by (fold n; lia). cbn [bind] in Es. exact Es. }
        rewrite Eh. cbn [bind]. rewrite put_ok by lia. cbn [bind]. eexists. split; [reflexivity|].
        cbn [ncData ncMissing cMissing cMap cData]. rewrite !upd_length. do 5 (split; auto). split.
        + intros d Hd. rewrite !nth_upd by lia. destruct (d =? i) eqn:Ed.
          * apply Nat.eqb_eq in Ed. subst d. split; auto. unfold positive. rewrite Es. reflexivity.
          * apply Nat.eqb_neq in Ed. apply H6. lia.
        + intros d Hd. rewrite nth_upd by lia. replace (d =? i) with false by (symmetry; apply Nat.eqb_neq; lia). apply H7. lia.
      - cbn [ncData ncMissing]. do 5 (split; auto). split; [lia|]. auto.
      - rewrite E. cbn [bind].
        assert (Ea : ncData A a = map (positive f pos) (seq 0 n)).
        { apply nth_ext with (d := zero) (d' := positive f pos 0); [rewrite map_length, seq_length; auto|].
          intros d Hd. destruct (H6 d) as [_ ->]; [lia|]. rewrite map_nth, seq_nth by lia. reflexivity. }
        pose proof (sum_loop (ncData A a) [] zero) as Es. cbn [length app] in Es. rewrite H1 in Es. rewrite Es. cbn [bind].
        assert (Ev : nlog (ndiv A (fold_left (nadd A) (ncData A a) zero) (nsub A (nofZ A (Z.of_nat n)) (fold_left (nadd A) (ncData A a) zero))) = prior)
          by (unfold prior; rewrite Ea; reflexivity).
        rewrite Ev.
        destruct (for_up_total (fun i '((p, r) : numcol A * numcol A) =>
            length (ncData A p) = n /\ length (ncMissing A p) = n /\ length (ncData A r) = n /\ length (ncMissing A r) = n /\
            (forall d, d < n -> nth d (ncMissing A r) false = false) /\
            (forall d, d < i -> nth d (ncMissing A p) false = false /\ nth d (ncData A p) zero = prior /\
               nth d (ncData A r) zero = nsub A (positive f pos d) (expit prior)))
          (fun i '((pred, r) : numcol A * numcol A) =>
            let* pred := ncPut A i prior pred in
            let* x := get (ncData A a) i in
            let* r := ncPut A i (nsub A x (expit prior)) r in
            Ok (pred, r)) n (lo := 0) (mkNC A enc (cMissing f), a)) as ([p r] & E2 & P1 & P2 & P3 & P4 & P5 & P6).
        + intros i [p r] Hi (P1 & P2 & P3 & P4 & P5 & P6). rewrite put_ok by lia. cbn [bind].
          rewrite (get_lt (ncData A a) i zero) by (lia). cbn [bind].
          rewrite put_ok by lia. cbn [bind]. eexists. split; [reflexivity|]. cbn [ncData ncMissing].
          rewrite !upd_length. do 4 (split; auto). split.
          * intros d Hd. rewrite nth_upd by lia. destruct (d =? i); auto.
          * intros d Hd. rewrite !nth_upd by lia. destruct (d =? i) eqn:Ed.
            -- apply Nat.eqb_eq in Ed. subst d. do 2 (split; auto). destruct (H6 i) as [_ ->]; [lia|]. reflexivity.
            -- apply Nat.eqb_neq in Ed. apply P6. lia.
        + cbn [ncData ncMissing]. do 4 (split; auto). split; [intros d Hd; apply H6; lia|]. lia.
        + rewrite E2. cbn [bind]. eexists _, _. split; [reflexivity|]. cbn [gcLearn gcPrior gcRes gcActual gcPred].
          do 2 (split; auto). split; [split; auto|]. split; [split; auto; split; auto; intros; apply H6; lia|].
          split; [split; auto; split; auto; intros; apply P6; lia|].
          split; [intros d Hd; split; [apply H6; lia|apply P6; lia]|].
          do 2 (split; auto). rewrite H3. split; auto. intros; apply H6; lia.
    Qed.

    (** the state after [k] rounds: scores and residuals of the [n] cases *)
    Definition good_class (f : catF) (pos : string) (lr prior : A) (n : nat) (g : gbclass A) : Prop :=
      gcLearn A g = lr /\ gcPrior A g = prior /\ full n (gcRes A g) /\ full n (gcActual A g) /\ full n (gcPred A g) /\
      forall d, d < n -> nth d (ncData A (gcActual A g)) zero = positive f pos d /\
        nth d (ncData A (gcRes A g)) zero = nsub A (positive f pos d) (expit (nth d (ncData A (gcPred A g)) zero)).

    Lemma gc_step f pos (lr prior : A) n g c x : good_class f pos lr prior n g -> c < n ->
      exists g', (let* y := get (ncData A (gcPred A g)) c in
        let pred := nadd A y (nmul A (gcLearn A g) x) in
        let* pf := ncPut A c pred (gcPred A g) in
        let* a := get (ncData A (gcActual A g)) c in
        let* rf := ncPut A c (nsub A a (expit pred)) (gcRes A g) in
        Ok (mkGBC A rf (gcActual A g) pf (gcLearn A g) (gcPrior A g))) = Ok g' /\
      good_class f pos lr prior n g' /\
      forall d, d < n -> nth d (ncData A (gcPred A g')) zero =
        if d =? c then nadd A (nth d (ncData A (gcPred A g)) zero) (nmul A lr x) else nth d (ncData A (gcPred A g)) zero.
    Proof.
      intros (E1 & E2 & (R1 & R2 & R3) & (A1 & A2 & A3) & (P1 & P2 & P3) & H) Hc.
      rewrite (get_lt (ncData A (gcPred A g)) c zero) by lia. cbn [bind]. cbv zeta.
      rewrite put_ok by lia. cbn [bind]. rewrite (get_lt (ncData A (gcActual A g)) c zero) by lia. cbn [bind].
      rewrite put_ok by lia. cbn [bind]. eexists. split; [reflexivity|]. split.
      - unfold good_class, full. cbn [gcLearn gcPrior gcRes gcActual gcPred ncData ncMissing]. rewrite !upd_length.
        do 2 (split; auto). split; [do 2 (split; auto); intros d Hd; rewrite nth_upd by lia; destruct (d =? c); auto|].
        split; [auto|]. split; [do 2 (split; auto); intros d Hd; rewrite nth_upd by lia; destruct (d =? c); auto|].
        intros d Hd. destruct (H d Hd) as [H1 H2]. split; auto. rewrite !nth_upd by lia.
        destruct (d =? c) eqn:E; auto. apply Nat.eqb_eq in E. subst d. rewrite H1. reflexivity.
      - intros d Hd. cbn [gcPred ncData]. rewrite nth_upd by lia. destruct (d =? c) eqn:E; auto.
        apply Nat.eqb_eq in E. subst d. rewrite E1. reflexivity.
    Qed.

    Lemma gc_rounds f pos (lr prior : A) n : forall rounds g ws, Forall (round_ok n) rounds -> good_class f pos lr prior n g ->
      exists g', foreach rounds (fun '((fm, t) : fmatrix * node) '((g, ws) : gbclass A * list A) =>
        let* (arr, (leaves, preds)) := TreePartition fm t in
        let* (g, w) := gcBoost A PF expit arr leaves preds g in
        Ok (g, ws ++ [w])) (g, ws) = Ok (g', ws ++ repeat lr (length rounds)) /\
        good_class f pos lr prior n g' /\
        forall d, d < n -> nth d (ncData A (gcPred A g')) zero =
          fold_left (fun r s => nadd A r (nmul A lr (parse0 A PF s))) (leaf_words rounds d) (nth d (ncData A (gcPred A g)) zero).
    Proof.
      induction rounds as [|[fm t] rounds IH]; intros g ws Hr Hg.
      - exists g. cbn. rewrite app_nil_r. auto.
      - inversion Hr as [|? ? H1 H2]; subst. cbn [foreach].
        destruct (one_round A PF (gbclass A) A
          (fun c x g => let* y := get (ncData A (gcPred A g)) c in
            let pred := nadd A y (nmul A (gcLearn A g) x) in
            let* pf := ncPut A c pred (gcPred A g) in
            let* a := get (ncData A (gcActual A g)) c in
            let* rf := ncPut A c (nsub A a (expit pred)) (gcRes A g) in
            Ok (mkGBC A rf (gcActual A g) pf (gcLearn A g) (gcPrior A g))) (gcUpdate A expit) (fun _ _ _ => eq_refl) n
          (good_class f pos lr prior n)
          (fun g d => nth d (ncData A (gcPred A g)) zero) (fun x v => nadd A v (nmul A lr x))
          (fun g c x => gc_step f pos lr prior n g c x) fm t g H1 Hg) as (arr & leaves & preds & g1 & Ep & Eo & G1 & V1).
        rewrite Ep. cbn [bind]. unfold gcBoost at 1. rewrite Eo. cbn [bind].
        destruct (IH g1 (ws ++ [gcLearn A g1]) H2 G1) as (g2 & E2 & G2 & V2). rewrite E2.
        exists g2. destruct G1 as (L1 & _). rewrite L1. rewrite <- app_assoc. split; auto. split; auto.
        intros d Hd. rewrite V2, V1 by auto. unfold leaf_words. cbn [flat_map]. rewrite app_nil_r, fold_left_app. reflexivity.
    Qed.

    (** C81.  Scores and residuals of two class boosting, operation by operation. *)
Theorem C81_scores_and_residuals : forall f lr pos rounds, readable f ->
  let n := length (cMissing f) in
  Forall (round_ok n) rounds ->
  exists g f' g', NewGradBoostClassTarget A expit nlog f lr pos = Ok (g, f') /\
    gcRounds A PF expit rounds g = Ok (g', repeat lr (length rounds)) /\
    gcIntercept A g = gcIntercept A g' /\
    (let p := fold_left (nadd A) (map (positive f pos) (seq 0 n)) zero in
     gcIntercept A g' = nlog (ndiv A p (nsub A (nofZ A (Z.of_nat n)) p))) /\
    forall c, c < n ->
      let score := fold_left (fun r s => nadd A r (nmul A lr (parse0 A PF s))) (leaf_words rounds c) (gcIntercept A g') in
      nth_error (ncData A (gcPred A g')) c = Some score /\
      nth_error (ncData A (gcRes A g')) c = Some (nsub A (positive f pos c) (expit score)).
Proof.
  intros f lr pos rounds Hf n Hr.
  destruct (new_class f lr pos Hf) as (g & f' & E & L & P & F1 & F2 & F3 & V & _). fold n in P, F1, F2, F3, V.
  remember (let p := fold_left (nadd A) (map (positive f pos) (seq 0 n)) zero in
             nlog (ndiv A p (nsub A (nofZ A (Z.of_nat n)) p))) as prior eqn:Eprior.
  destruct (gc_rounds f pos lr prior n rounds g [] Hr) as (g' & E' & G' & V').
  { do 5 (split; auto). intros d Hd. destruct (V d Hd) as (V1 & V2 & V3). rewrite V2. auto. }
  exists g, f', g'. split; auto. split; [exact E'|]. pose proof G' as (L' & P' & (R1 & R2 & R3) & _ & (Q1 & Q2 & Q3) & G).
  unfold gcIntercept. rewrite P, P'. split; auto. split; [exact Eprior|]. intros c Hc. cbv zeta.
  assert (Es : nth c (ncData A (gcPred A g')) zero =
    fold_left (fun r s => nadd A r (nmul A lr (parse0 A PF s))) (leaf_words rounds c) prior).
  { rewrite V' by auto. destruct (V c Hc) as (_ & -> & _). reflexivity. }
  rewrite (nth_error_nth_lt _ _ zero) by lia. rewrite Es. split; auto.
  rewrite (nth_error_nth_lt _ _ zero) by lia. destruct (G c Hc) as [_ ->]. rewrite Es. reflexivity.
Qed.
  End Class.
End Any.

(** ** C50 in exact arithmetic *)

(** The votes of boosted trees (C18) for the cases [0..n-1], with weight [l]. *)
Definition boosted_votes (l : R) (n : nat) (rounds : list (fmatrix * node)) : list (vote XR) :=
  flat_map (fun '(fm, t) => map (fun '((c, p, _) : nat * string * f64) => (c, p, Some l : XR)) (due fm t f1 (seq 0 n))) rounds.

Lemma flat_map_flat_map {X Y Z} (f : Y -> list Z) (g : X -> list Y) l :
  flat_map f (flat_map g l) = flat_map (fun x => flat_map f (g x)) l.
Proof. induction l; cbn; auto. rewrite flat_map_app, IHl. auto. Qed.

Lemma flat_map_one {X Y} (dec : forall x y : X, {x = y} + {x <> y}) (f : X -> list Y) c l :
  NoDup l -> In c l -> (forall x, x <> c -> f x = []) -> flat_map f l = f c.
Proof.
  intros Hn. induction Hn as [|x l Hx Hn IH]; intros Hi H; [contradiction|]. cbn.
  destruct (dec x c) as [->|N].
  - assert (E : flat_map f l = []); [|rewrite E, app_nil_r; auto].
    clear - Hx H. induction l as [|y l IH]; cbn; auto. rewrite H by (intros ->; apply Hx; left; auto). apply IH. intros Hc. apply Hx. right. auto.
  - rewrite H by auto. destruct Hi as [|Hi]; [congruence|]. apply IH; auto.
Qed.

Lemma boosted_numbers PF l n rounds c : c < n ->
  numbers_for XR PF c (boosted_votes l n rounds) =
  flat_map (fun s => match PF s with Some v => [(v, Some l)] | None => [] end) (leaf_words rounds c).
Proof.
  intros Hc. unfold numbers_for, boosted_votes, leaf_words. rewrite !flat_map_flat_map.
  apply flat_map_ext. intros [fm t]. rewrite flat_map_concat_map, map_map, <- flat_map_concat_map.
  unfold due. rewrite flat_map_flat_map. rewrite (flat_map_one Nat.eq_dec _ c).
  - destruct (follow fm t c); cbn; auto. rewrite Nat.eqb_refl, !app_nil_r. reflexivity.
  - apply seq_NoDup.
  - apply in_seq. lia.
  - intros x Hx. destruct (follow fm t x); cbn; auto. rewrite app_nil_r. apply Nat.eqb_neq in Hx. rewrite Hx. auto.
Qed.

Lemma fold_sum (xs : list xr) : forall s : R, Forall (fun x => x <> None) xs ->
  exists r, fold_left (nadd XR) xs (Some s) = Some r.
Proof.
  induction xs as [|x xs IH]; intros s H; cbn; [eauto|]. inversion H; subst. destruct x as [x|]; [|congruence]. cbn. auto.
Qed.

Theorem C50_accounting : forall PF f l rounds votes,
  (forall s, PF s <> Some None) -> ncData XR f <> [] -> length (ncData XR f) = length (ncMissing XR f) ->
  Forall (fun x => x <> None) (ncData XR f) ->
  let n := length (ncData XR f) in
  Forall (round_ok n) rounds -> Permutation (boosted_votes l n rounds) votes ->
  exists g g' bb, NewGradBoostTarget XR f (Some l) = Ok g /\
    gbRounds XR PF rounds g = Ok (g', repeat (Some l : XR) (length rounds)) /\
    scast XR PF votes (NewSumBallotBox XR n) = Ok bb /\
    forall c x, nth_error (ncData XR f) c = Some (Some x) ->
      exists m s r, gbIntercept XR g = Some m /\ sumTallyNum XR bb c = Ok (Some s) /\
        nth_error (ncData XR (gbF XR g')) c = Some (Some r) /\ (m + s + r = x)%R.
Proof.
  intros PF f l rounds votes HPF Hne L Hx n Hr HP.
  destruct (C50_residuals XR PF f (Some l) rounds L Hr) as (g & g' & E & Er & Ei & Ei' & _ & Hv).
  assert (Hsz : Forall (fun '((c, _, _) : vote XR) => c < n) (boosted_votes l n rounds)).
  { apply Forall_forall. intros [[c p] w] H. apply in_flat_map in H as ((fm, t) & _ & H).
    apply in_map_iff in H as (((c', p'), w') & Ec & H). inversion Ec; subst. apply in_flat_map in H as (d & Hd & H).
    apply in_seq in Hd. destruct (follow fm t d); [|contradiction]. destruct H as [H|[]]. inversion H; subst. lia. }
  destruct (C21_sum XR PF n votes) as (bb & Eb & _); [eapply Permutation_Forall; eauto|].
  exists g, g', bb. do 3 (split; auto). intros c x Hc.
  assert (Hl : c < n) by (eapply nth_error_some_lt; eauto).
  destruct (fold_sum (ncData XR f) 0 Hx) as (tot & Et).
  assert (Em : float_mean XR (ncData XR f) = Some (tot / IZR (Z.of_nat n))%R).
  { unfold float_mean. cbn [nofZ XR]. rewrite Et. cbn [ndiv XR]. apply xdiv_some. apply not_0_IZR. unfold n.
    destruct (ncData XR f); [congruence|]. cbn [length]. lia. }
  destruct (C21_sum_exact PF n (boosted_votes l n rounds) c Hsz Hl) with (votes' := votes) as (bb' & Eb' & Hb); auto.
  { rewrite boosted_numbers by auto. apply Forall_forall. intros [v w] H. apply in_flat_map in H as (s & _ & H).
    specialize (HPF s). destruct (PF s) as [y|]; [|contradiction]. destruct H as [H|[]]. inversion H; subst.
    split; [congruence|discriminate]. }
  rewrite Eb in Eb'. inversion Eb'; subst bb'. rewrite Ei', Ei, Em.
  rewrite boosted_numbers in Hb by auto. specialize (Hv c _ Hc). rewrite Em in Hv. cbn [nsub XR lift2] in Hv.
  set (m := (tot / IZR (Z.of_nat n))%R) in *. clearbody m.
  enough (G : forall ws (r : R), fold_left (fun (r : XR) s => nsub XR r (nmul XR (Some l) (parse0 XR PF s))) ws (Some r) =
     Some (r - wvsum (real_pairs (flat_map (fun s => match PF s with Some v => [(v, Some l)] | None => [] end) ws)))%R).
  { eexists m, _, _. split; auto. split; [exact Hb|]. split; [rewrite Hv; f_equal; apply G|].
    match goal with |- (_ + ?a + (_ - ?b) = _)%R => change b with a; generalize a; intros; lra end. }
  clear - HPF. induction ws as [|s ws IH]; intros r; cbn [fold_left flat_map].
  - unfold wvsum. cbn. f_equal. lra.
  - specialize (HPF s). unfold parse0 at 2. destruct (PF s) as [[v|]|].
    + cbn [nmul nsub XR lift2]. rewrite IH. cbn [app].
      match goal with |- _ = Some (_ - wvsum (real_pairs (_ :: ?t)))%R =>
        change (wvsum (real_pairs ((Some v, Some l) :: t))) with (v * l + wvsum (real_pairs t))%R; generalize (wvsum (real_pairs t)) end.
      intros. f_equal. lra.
    + congruence.
    + cbn [nmul nsub nofZ XR lift2]. rewrite IH. cbn [app]. f_equal. lra.
Qed.

(** A case lost by the tree keeps its residual: four leaves are numbers, one is not, and
    case 4 reaches none. *)
Definition ex_PF (N : arith) (s : string) : option N :=
  if (s =? "LL")%string then Some (nofZ N 1) else if (s =? "LR")%string then Some (nofZ N 2)
  else if (s =? "RL")%string then Some (nofZ N 4) else if (s =? "RR")%string then Some (nofZ N 8) else None.
Lemma ex_round : round_ok 5 (ex_fm, ex_tree).
Proof.
  exists (FNum (mkNum [f1; f2; f1; f2; f0] [false; false; true; false; false] "N:a" true)).
  split; [reflexivity|]. split; [reflexivity|]. split; [discriminate|]. split; apply C17_example.
Qed.
Example C50_ex : let f := mkNC F64 (map f_of_Z [10; 20; 30; 40; 50]%Z) (repeat false 5) in
  Forall (round_ok (length (ncData F64 f))) [(ex_fm, ex_tree); (ex_fm, ex_tree)] /\
  (let* g := NewGradBoostTarget F64 f f1 in
   let* (g, ws) := gbRounds F64 (ex_PF F64) [(ex_fm, ex_tree); (ex_fm, ex_tree)] g in
   Ok (map (fun x => x) (ncData F64 (gbF F64 g)), gbIntercept F64 g, ws)) =
  Ok (map f_of_Z [-22; -18; 0; -6; 20]%Z, f_of_Z 30, [f1; f1]).
Proof.
  split.
  - apply Forall_cons; [exact ex_round|]. apply Forall_cons; [exact ex_round|]. constructor.
  - vm_compute. reflexivity.
Qed.
Example C50_accounting_ex : Forall (fun x => x <> None) [Some 10%R; Some 20%R; Some 30%R; Some 40%R; Some 50%R] /\
  (forall s, ex_PF XR s <> Some None) /\
  Permutation (boosted_votes 1 5 [(ex_fm, ex_tree)]) [(3, "RR", Some 1%R); (0, "LL", Some 1%R); (1, "RL", Some 1%R); (2, "M", Some 1%R)].
Proof.
  split; [repeat constructor; discriminate|]. split.
  - intros s. unfold ex_PF. repeat destruct (String.eqb _ _); discriminate.
  - change (boosted_votes 1 5 [(ex_fm, ex_tree)]) with
      [(0, "LL", Some 1%R : XR); (1, "RL", Some 1%R); (2, "M", Some 1%R); (3, "RR", Some 1%R)].
    etransitivity; [apply perm_skip, perm_skip, perm_swap|].
    etransitivity; [apply perm_skip, perm_swap|]. etransitivity; [apply perm_swap|]. reflexivity.
Qed.

(** For the residual also after a score of infinity or a rounding error, C81 at F64 with
    some [expit]; here [expit] and [nlog] are the constants 0 and 1. *)
Definition ex_cat : catF :=
  mkCat (mkCM [("y", 1); ("x", 0)] ["x"; "y"]) [0; 1; 1; 0; 0] [false; false; true; false; false] "C:b" false true.
Example C81_ex : readable ex_cat /\
  (let* (g, f) := NewGradBoostClassTarget F64 (fun _ => f0) (fun _ => f1) ex_cat f1 "y" in
   let* (g, ws) := gcRounds F64 (ex_PF F64) (fun _ => f0) [(ex_fm, ex_tree)] g in
   Ok (ncData F64 (gcPred F64 g), ncData F64 (gcRes F64 g), ws)) =
  Ok (map f_of_Z [2; 5; 1; 9; 1]%Z, map f_of_Z [0; 1; 0; 0; 0]%Z, [f1]).
Proof.
  split; [|vm_compute; reflexivity]. split; [reflexivity|]. intros i Hi. cbn in Hi.
  do 5 (destruct i as [|i]; [eexists; reflexivity|]). lia.
Qed.

(** ** C80.  Missing values of the target *)

(** Whatever was missing, nothing is missing afterwards: the values stored for missing
    cases enter the mean, and become residuals like any other. *)
Theorem C80_missing_forgotten_refuted : forall (A : arith) f lr, length (ncData A f) = length (ncMissing A f) ->
  exists g, NewGradBoostTarget A f lr = Ok g /\
    length (ncMissing A (gbF A g)) = length (ncMissing A f) /\
    (forall c, c < length (ncMissing A f) -> nth_error (ncMissing A (gbF A g)) c = Some false) /\
    gbMean A g = float_mean A (ncData A f).
Proof.
  intros A f lr L. destruct (new_gradboost A f lr L) as (g & E & _ & Em & (F1 & F2 & F3) & _).
  exists g. split; auto. split; [congruence|]. split; auto. intros c Hc.
  rewrite (nth_error_nth_lt _ _ false) by lia. rewrite F3 by lia. reflexivity.
Qed.
Example C80_ex : (let* g := NewGradBoostTarget F64 (mkNC F64 (map f_of_Z [4; 0]%Z) [false; true]) f1 in
  Ok (gbMean F64 g, ncMissing F64 (gbF F64 g))) = Ok (f_of_Z 2, [false; false]).
Proof. vm_compute. reflexivity. Qed.

(** The feature a class target is made from loses its missing values too: cases whose label
    was missing have the label with the stored number (0 after Append) from then on; the
    labels of the other cases are unchanged. *)
Theorem C80_class_labels_invented_refuted : forall (A : arith) (expit nlog : A -> A) f lr pos, readable f ->
  exists g f', NewGradBoostClassTarget A expit nlog f lr pos = Ok (g, f') /\
    (forall c, c < length (cMissing f) -> nth_error (cMissing f') c = Some false) /\
    (forall c v, nth_error (cMissing f) c = Some true -> nth_error (cData f) c = Some v ->
       cGetStr f c = Ok "NA" /\ cGetStr f' c = get (cmBack (cMap f)) v).
Proof.
  intros A expit nlog f lr pos Hf.
  destruct (new_class A expit nlog f lr pos Hf) as (g & f' & E & _ & _ & _ & _ & _ & _ & Em & Ed & Lm & Hm).
  exists g, f'. split; auto.
  assert (G : forall c, c < length (cMissing f) -> nth_error (cMissing f') c = Some false).
  { intros c Hc. rewrite (nth_error_nth_lt _ _ false) by lia. rewrite Hm by lia. reflexivity. }
  split; auto. intros c v H1 H2. unfold cGetStr. rewrite (get_nth _ _ H1). cbn [bind]. split; auto.
  assert (Hc : c < length (cMissing f)) by (eapply nth_error_some_lt; eauto).
  rewrite (get_nth _ _ (G c Hc)). cbn [bind]. rewrite Ed, Em. rewrite (get_nth _ _ H2). reflexivity.
Qed.
Theorem C80_present_labels_kept_partial : forall (A : arith) (expit nlog : A -> A) f lr pos, readable f ->
  exists g f', NewGradBoostClassTarget A expit nlog f lr pos = Ok (g, f') /\
    (forall c, nth_error (cMissing f) c = Some false ->
       cGetStr f' c = cGetStr f c /\
       (cGetStr f c = Ok pos -> nth_error (ncData A (gcActual A g)) c = Some (nofZ A 1)) /\
       (cGetStr f c <> Ok pos -> nth_error (ncData A (gcActual A g)) c = Some (nofZ A 0))).
Proof.
  intros A expit nlog f lr pos Hf.
  destruct (new_class A expit nlog f lr pos Hf) as (g & f' & E & _ & _ & _ & (F1 & F2 & F3) & _ & V & Em & Ed & Lm & Hm).
  exists g, f'. split; auto. intros c H1.
  assert (Hc : c < length (cMissing f)) by (eapply nth_error_some_lt; eauto).
  destruct (V c Hc) as (V1 & _). split.
  - unfold cGetStr. rewrite (get_nth _ _ H1). rewrite (get_lt (cMissing f') c false) by lia. cbn [bind].
    rewrite Hm by lia. rewrite Ed, Em. reflexivity.
  - rewrite (nth_error_nth_lt _ _ (nofZ A 0)) by lia. rewrite V1. unfold positive.
    destruct Hf as [_ R]. destruct (R c Hc) as (s & ->). split.
    + intros Ep. inversion Ep; subst. rewrite String.eqb_refl. auto.
    + intros Np. destruct (String.eqb_spec s pos); auto. subst. congruence.
Qed.
Example C80_class_ex : cGetStr ex_cat 2 = Ok "NA" /\
  (let* (g, f) := NewGradBoostClassTarget F64 (fun _ => f0) (fun _ => f1) ex_cat f1 "y" in cGetStr f 2) = Ok "y".
Proof. split; vm_compute; reflexivity. Qed.

Print Assumptions C50_residuals.
Print Assumptions C50_accounting.
Print Assumptions C81_scores_and_residuals.
Print Assumptions C80_missing_forgotten_refuted.
Print Assumptions C80_class_labels_invented_refuted.
Print Assumptions C80_present_labels_kept_partial.
