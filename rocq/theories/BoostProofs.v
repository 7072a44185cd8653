(** Boosting rounds: what happens to a single case. *)
From Verif Require Import Go GoLemmas F64 Exact ModelFeature ModelTree TreeSpec ModelImpurity ModelBoost PropTree.
Local Open Scope string_scope.
Local Open Scope nat_scope.
Local Open Scope list_scope.

(** ** Spec: the leaves a case reaches in a sequence of trees *)

(** A tree that can be applied to a matrix with [n] cases. *)
Definition round_ok (n : nat) (r : fmatrix * node) : Prop :=
  let '(fm, t) := r in
  exists f, nth_error (fmData fm) 0 = Some f /\ fLength f = n /\ t <> Nil /\ well_formed t /\ usable fm (seq 0 n) t.

(** The predictions of the leaves that case [c] reaches, tree by tree; nothing for a
    tree in which the case is lost. *)
Definition leaf_words (rounds : list (fmatrix * node)) (c : nat) : list string :=
  flat_map (fun '(fm, t) => match follow fm t c with
                            | Some p => [node_pred (at_path t p)]
                            | None => []
                            end) rounds.

Section Updates.
  Variable A : arith.
  Variable PF : string -> option A.
  Variables (B V : Type).
  Variable step : nat -> A -> B -> res B.
  Variable update : list nat -> A -> B -> res B.
  Hypothesis Hupdate : forall cs x g, update cs x g = foreach cs (fun c => step c x) g.
  Variable n : nat.
  Variable Good : B -> Prop.
  Variable val : B -> nat -> V.
  Variable f : A -> V -> V.
  Hypothesis Hstep : forall g c x, Good g -> c < n ->
    exists g', step c x g = Ok g' /\ Good g' /\ forall d, d < n -> val g' d = if d =? c then f x (val g d) else val g d.

  Lemma update_ok cs x : forall g, Good g -> Forall (fun c => c < n) cs -> NoDup cs ->
    exists g', update cs x g = Ok g' /\ Good g' /\
      forall d, d < n -> val g' d = if existsb (Nat.eqb d) cs then f x (val g d) else val g d.
  Proof.
    intros g Hg Hc Hn. rewrite Hupdate. revert g Hg. induction cs as [|c cs IH]; intros g Hg.
    - exists g. cbn. auto.
    - inversion Hc; subst. inversion Hn; subst. destruct (Hstep g c x Hg) as (g1 & E & G1 & V1); auto.
      cbn [foreach]. rewrite E. cbn [bind]. destruct (IH H2 H4 g1 G1) as (g2 & E2 & G2 & V2).
      exists g2. split; auto. split; auto. intros d Hd. rewrite V2, V1 by auto. cbn [existsb].
      destruct (d =? c) eqn:Edc; cbn [orb]; [|reflexivity].
      apply Nat.eqb_eq in Edc. subst d. replace (existsb (Nat.eqb c) cs) with false; [reflexivity|].
      symmetry. apply not_true_iff_false. intros E3. apply existsb_exists in E3 as (y & Hy & E3).
      apply Nat.eqb_eq in E3. subst. contradiction.
  Qed.

  Lemma over_leaves_cons (arr : list nat) w leaves s preds (g : B) :
    over_leaves A PF update arr (w :: leaves) (s :: preds) g =
    let* cs := slice arr (fst w) (snd w) in
    let* g := update cs (parse0 A PF s) g in
    over_leaves A PF update arr leaves preds g.
  Proof.
    unfold over_leaves. cbn [length for_up]. cbn [get nth_error bind].
    destruct (slice arr (fst w) (snd w)) as [cs| |]; cbn [bind]; auto.
    destruct (update cs (parse0 A PF s) g) as [g'| |]; cbn [bind]; auto.
    generalize (length leaves). intros k.
    assert (H : forall k lo g, for_up k (S lo) (fun i g => let* w := get (w :: leaves) i in
      let* cases := slice arr (fst w) (snd w) in let* s := get (s :: preds) i in update cases (parse0 A PF s) g) g =
      for_up k lo (fun i g => let* w := get leaves i in
      let* cases := slice arr (fst w) (snd w) in let* s := get preds i in update cases (parse0 A PF s) g) g).
    { induction k0 as [|k0 IH]; intros lo g0; cbn [for_up]; auto. unfold get at 1 3 5 7. cbn [nth_error].
      match goal with |- bind ?X _ = bind ?Y _ => change X with Y; destruct Y; cbn [bind]; auto end. }
    apply H.
  Qed.

  Lemma round_steps fm t arr cases : NoDup cases -> Forall (fun c => c < n) cases ->
    forall paths leaves, Forall2 (leaf_at fm t cases arr) paths leaves -> NoDup paths ->
    forall g, Good g ->
    exists g', over_leaves A PF update arr (map lwin leaves) (map lfPred leaves) g = Ok g' /\ Good g' /\
      forall d, d < n -> val g' d =
        match follow fm t d with
        | Some p => if existsb (fun q => if path_dec p q then true else false) paths
                    then if existsb (Nat.eqb d) cases then f (parse0 A PF (node_pred (at_path t p))) (val g d) else val g d
                    else val g d
        | None => val g d
        end.
  Proof.
    intros Nc Hc paths leaves F. induction F as [|p lf paths leaves (H1 & cs & Es & Pc) F IH]; intros Nd g Hg.
    - exists g. cbn. split; auto. split; auto. intros d Hd. destruct (follow fm t d); auto.
    - inversion Nd as [|? ? Np Nd']; subst. cbn [map]. rewrite over_leaves_cons.
      cbn [lwin fst snd]. rewrite Es. cbn [bind].
      destruct (update_ok cs (parse0 A PF (lfPred lf)) g Hg) as (g1 & E1 & G1 & V1).
      { eapply Permutation_Forall; [symmetry; exact Pc|]. rewrite Forall_forall in *. intros c Hi.
        apply filter_In in Hi as [Hi _]. auto. }
      { eapply Permutation_NoDup; [symmetry; exact Pc|]. apply NoDup_filter, Nc. }
      rewrite E1. cbn [bind]. destruct (IH Nd' g1 G1) as (g2 & E2 & G2 & V2). exists g2. split; auto. split; auto.
      intros d Hd. rewrite V2 by auto. rewrite V1 by auto.
      assert (Ex : existsb (Nat.eqb d) cs = existsb (Nat.eqb d) cases && ends_at fm t p d).
      { apply eq_true_iff_eq. rewrite andb_true_iff, !existsb_exists. split.
        - intros (y & Hy & E). apply Nat.eqb_eq in E. subst y. apply (Permutation_in _ Pc) in Hy.
          apply filter_In in Hy as [Hy Hy2]. split; auto. exists d. rewrite Nat.eqb_refl. auto.
        - intros [(y & Hy & E) He]. apply Nat.eqb_eq in E. subst y. exists d. rewrite Nat.eqb_refl. split; auto.
          apply (Permutation_in _ (Permutation_sym Pc)). apply filter_In. auto. }
      rewrite Ex. unfold ends_at. destruct (follow fm t d) as [q|] eqn:Eq; [|rewrite andb_false_r; reflexivity].
      cbn [existsb]. destruct (path_dec q p) as [->|Nq]; cbn [orb].
      + replace (existsb _ paths) with false.
        * rewrite andb_true_r. destruct H1 as (dd & m & Ep & _ & El). rewrite Ep. cbn [node_pred]. rewrite <- El. reflexivity.
        * symmetry. apply not_true_iff_false. intros E. apply existsb_exists in E as (q & Hq & E).
          destruct (path_dec p q); [subst; contradiction|discriminate].
      + rewrite andb_false_r. reflexivity.
  Qed.

  Lemma one_round fm t g : round_ok n (fm, t) -> Good g ->
    exists arr leaves preds g', TreePartition fm t = Ok (arr, (leaves, preds)) /\
      over_leaves A PF update arr leaves preds g = Ok g' /\ Good g' /\
      forall d, d < n -> val g' d = fold_left (fun v s => f (parse0 A PF s) v) (leaf_words [(fm, t)] d) (val g d).
  Proof.
    intros (col & E0 & El & Hn & Hw & Hu) Hg. rewrite <- El in Hu.
    destruct (C17_leaves_partition_the_cases fm t col None E0 Hn Hw Hu)
      as (arr & leaves & cnt & paths & _ & Ep & _ & _ & Nd & F & Hr). rewrite El in F, Hr.
    destruct (round_steps fm t arr (seq 0 n)) with (paths := paths) (leaves := leaves) (g := g) as (g' & E & G & Hv); auto.
    { apply seq_NoDup. }
    { apply Forall_forall. intros c Hc. apply in_seq in Hc. lia. }
    exists arr, (map lwin leaves), (map lfPred leaves), g'. split; auto. split; auto. split; auto.
    intros d Hd. rewrite Hv by auto. unfold leaf_words. cbn [flat_map]. rewrite app_nil_r.
    destruct (follow fm t d) as [p|] eqn:Ef; [|reflexivity]. cbn [fold_left].
    replace (existsb _ paths) with true.
    2:{ symmetry. apply existsb_exists. exists p. split; [apply (Hr d); auto|]. destruct (path_dec p p); congruence. }
    replace (existsb _ (seq 0 n)) with true; [reflexivity|].
    symmetry. apply existsb_exists. exists d. rewrite Nat.eqb_refl. split; auto. apply in_seq. lia.
  Qed.
End Updates.
