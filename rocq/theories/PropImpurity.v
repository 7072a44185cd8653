(** Theorems about impurities: C43 (Gini), C44 (regression), C47 (entropy), C45
    (incremental updates). *)
From Verif Require Import Go GoLemmas F64 F64Order Exact ModelFeature ModelImpurity ImpuritySpec ImpurityProofs.
Local Open Scope nat_scope.
Local Open Scope list_scope.

(** ** Exact values *)

Lemma labels_nonnil data cases : cases <> [] -> labels data cases <> [].
Proof. destruct cases; [congruence|discriminate]. Qed.
Lemma labels_bound data k cases : labelled data k cases -> Forall (fun c => c < k) (labels data cases).
Proof.
  intros H. unfold labels. apply Forall_map. eapply Forall_impl; [|exact H]. cbn. tauto.
Qed.

Lemma gini_loop ls k : ls <> [] ->
  fold_left (fun (e : xr) i => nsub XR e (ndiv XR (num XR (i * i))
                (num XR (Z.of_nat (length ls) * Z.of_nat (length ls)))))
    (map (fun c => Z.of_nat (occurs ls c)) (seq 0 k)) (nadd XR (nofZ XR 0) (num XR 1))
  = Some (gini ls k).
Proof.
  intros H. pose proof (len_pos ls H) as Hp.
  change (nadd XR (nofZ XR 0) (num XR 1)) with (Some (0 + 1)%R).
  rewrite (xr_sub_loop _ (fun i => IZR (i * i) / (INR (length ls) * INR (length ls)))%R).
  - f_equal. unfold gini. rewrite map_map. rewrite Rplus_0_l. f_equal. apply Rsum_ext.
    intros c _. rewrite mult_IZR, IZR_of_nat. unfold share. field. lra.
  - intros a i _. cbn [nsub ndiv XR num nofZ]. rewrite (mult_IZR (Z.of_nat _)), !IZR_of_nat.
    rewrite xdiv_some; [reflexivity|]. apply Rmult_integral_contrapositive. lra.
Qed.

Lemma gini_value data k cases counter : length counter = k -> labelled data k cases -> cases <> [] ->
  GiniWithoutAlocate XR data cases counter
  = Ok (Some (gini (labels data cases) k), counts data k cases).
Proof.
  intros Hk Hl Hne. unfold GiniWithoutAlocate. rewrite CountPerCat_ok by (rewrite Hk; exact Hl).
  rewrite Hk. cbn [bind]. do 2 f_equal.
  pose proof (gini_loop (labels data cases) k (labels_nonnil _ _ Hne)) as G.
  rewrite labels_length in G. exact G.
Qed.

(** ** The weighted average of the parts *)

Definition parts (l r : list nat) (m : option (list nat)) : list (list nat) :=
  l :: r :: (match m with Some (c :: m') => [c :: m'] | _ => [] end).

Lemma split_average (imp : impurity XR) (g : list nat -> R) l r m k :
  l <> [] -> r <> [] ->
  (forall p c, In p (parts l r m) -> length c = length (kL k) -> exists c', imp p c = Ok (Some (g p), c')) ->
  length (kR k) = length (kL k) -> length (kM k) = length (kL k) ->
  exists k', SplitImpurity XR imp l r m k = Ok (Some (weighted_average g (parts l r m)), k').
Proof.
  intros Hl Hr Hi Kr Km. pose proof (len_pos l Hl) as Pl. pose proof (len_pos r Hr) as Pr.
  unfold SplitImpurity.
  destruct (Hi l (kL k)) as [lc ->]; [left; reflexivity|reflexivity|]. cbn [bind].
  destruct (Hi r (kR k)) as [rc ->]; [right; left; reflexivity|assumption|]. cbn [bind].
  unfold weighted_average, parts in *.
  destruct m as [[|c mm]|]; cbn [has_m].
  2: { destruct (Hi (c :: mm) (kM k)) as [mc ->]; [right; right; left; reflexivity|assumption|]. cbn [bind].
    eexists. do 2 f_equal. unfold len. cbn [nadd nmul nofZ XR lift2 ndiv].
    rewrite !IZR_of_nat. pose proof (len_pos (c :: mm) ltac:(discriminate)) as Pm.
    rewrite xdiv_some by lra. cbn [map Rsum]. do 2 f_equal; lra. }
  all: eexists; do 2 f_equal; unfold len; cbn [nadd nmul nofZ XR lift2 ndiv];
    rewrite !IZR_of_nat, xdiv_some by lra; cbn [map Rsum]; do 2 f_equal; lra.
Qed.

Lemma average_le (g : list nat -> R) (P : list nat -> Prop) l r m :
  l <> [] -> r <> [] -> (forall p, In p (parts l r m) -> P p) ->
  (forall a b, P a -> P b -> P (a ++ b)) ->
  (forall a b, P a -> P b -> a <> [] -> b <> [] ->
     (INR (length a) * g a + INR (length b) * g b <= INR (length (a ++ b)) * g (a ++ b))%R) ->
  (weighted_average g (parts l r m) <= g (concat (parts l r m)))%R.
Proof.
  intros Hl Hr HP Happ Hc. pose proof (len_pos l Hl) as Pl. pose proof (len_pos r Hr) as Pr.
  assert (Pl' : P l) by (apply HP; left; reflexivity).
  assert (Pr' : P r) by (apply HP; right; left; reflexivity).
  pose proof (Hc l r Pl' Pr' Hl Hr) as H1.
  assert (Hlr : l ++ r <> []) by (destruct l; [congruence|discriminate]).
  assert (G : forall s w x, (0 < s)%R -> (w <= s * x)%R -> (w / s <= x)%R).
  { intros s w x Hs Hw. apply Rmult_le_reg_r with s; [exact Hs|].
    unfold Rdiv. rewrite Rmult_assoc, Rinv_l by lra. lra. }
  unfold weighted_average, parts in *.
  destruct m as [[|c mm]|]; cbn [map Rsum concat]; rewrite ?app_nil_r in *.
  2: { pose proof (len_pos (c :: mm) ltac:(discriminate)) as Pm.
    pose proof (Hc (l ++ r) (c :: mm) (Happ _ _ Pl' Pr') (HP (c :: mm) ltac:(right; right; left; reflexivity)) Hlr ltac:(discriminate)) as H2.
    rewrite <- app_assoc in H2. rewrite !app_length, !plus_INR in *.
    apply G; lra. }
  all: rewrite !app_length, !plus_INR in *; apply G; lra.
Qed.

(** ** C43 *)

(** The value computed by the code (without rounding) is the Gini index. *)
Theorem C43_gini_is_one_minus_squared_shares : forall data k cases counter,
  length counter = k -> labelled data k cases -> cases <> [] ->
  (exists counter', GiniWithoutAlocate XR data cases counter = Ok (Some (gini (labels data cases) k), counter'))
  /\ Gini XR data k cases = Ok (Some (gini (labels data cases) k)).
Proof.
  intros data k cases counter Hk Hl Hne. split.
  - eexists. apply gini_value; assumption.
  - unfold Gini. rewrite (gini_value data k) by (rewrite ?repeat_length; auto). reflexivity.
Qed.

Theorem C43_gini_range_purity_order : forall data k cases,
  labelled data k cases -> cases <> [] ->
  exists v, Gini XR data k cases = Ok (Some v)
    /\ (0 <= v <= 1 - / INR k)%R
    /\ (v = 0%R <-> pure (labels data cases))
    /\ (forall cases', Permutation cases cases' -> Gini XR data k cases' = Ok (Some v)).
Proof.
  intros data k cases Hl Hne.
  assert (G : forall cs, labelled data k cs -> cs <> [] -> Gini XR data k cs = Ok (Some (gini (labels data cs) k))).
  { intros cs H1 H2. apply (C43_gini_is_one_minus_squared_shares data k cs (repeat 0%Z k)); auto.
    apply repeat_length. }
  exists (gini (labels data cases) k).
  pose proof (labels_nonnil data cases Hne) as Hn. pose proof (labels_bound _ _ _ Hl) as Hb.
  split; [apply G; assumption|]. split; [split; [apply gini_nonneg|apply gini_upper]; assumption|].
  split; [apply gini_zero; assumption|].
  intros cases' P. rewrite G.
  - rewrite (gini_perm _ _ k (labels_perm data _ _ P)). reflexivity.
  - eapply labelled_perm; eassumption.
  - intros E. subst. apply Permutation_sym, Permutation_nil in P. congruence.
Qed.

(** Splitting into left, right and (possibly) missing cases: the code computes the
    average of the Gini indices weighted by size, and it is at most the Gini index
    of all the cases together. *)
Theorem C43_split_never_increases_gini : forall data n l r m k,
  length (kL k) = n -> length (kR k) = n -> length (kM k) = n ->
  l <> [] -> r <> [] -> (forall p, In p (parts l r m) -> labelled data n p) ->
  exists v k',
    SplitImpurity XR (GiniWithoutAlocate XR data) l r m k = Ok (Some v, k')
    /\ v = weighted_average (fun p => gini (labels data p) n) (parts l r m)
    /\ Gini XR data n (concat (parts l r m)) = Ok (Some (gini (labels data (concat (parts l r m))) n))
    /\ (v <= gini (labels data (concat (parts l r m))) n)%R.
Proof.
  intros data n l r m k Kl Kr Km Hl Hr Hp.
  destruct (split_average (GiniWithoutAlocate XR data) (fun p => gini (labels data p) n) l r m k Hl Hr)
    as [k' E].
  - intros p c Hi Hc. eexists. apply gini_value; [congruence|apply Hp; exact Hi|].
    unfold parts in Hi. destruct Hi as [<-|[<-|Hi]]; auto.
    destruct m as [[|x mm]|]; [destruct Hi|destruct Hi as [<-|[]]; discriminate|destruct Hi].
  - congruence.
  - congruence.
  - exists (weighted_average (fun p => gini (labels data p) n) (parts l r m)), k'.
    split; [exact E|]. split; [reflexivity|]. split.
    + apply (C43_gini_is_one_minus_squared_shares data n _ (repeat 0%Z n)).
      * apply repeat_length.
      * unfold labelled. apply Forall_concat. apply Forall_forall. exact Hp.
      * cbn. destruct l; [congruence|discriminate].
    + apply (average_le (fun p => gini (labels data p) n) (labelled data n)); auto.
      * intros a b Ha Hb. apply labelled_app. split; assumption.
      * intros a b _ _ Ha Hb. rewrite labels_app.
        rewrite <- (labels_length data a), <- (labels_length data b), <- (labels_length data (a ++ b)), labels_app.
        apply gini_concave; apply labels_nonnil; assumption.
Qed.

(** ** C47 *)

Definition xlog (x : xr) : xr :=
  match x with Some a => if Rlt_dec 0 a then Some (ln a) else None | None => None end.

Lemma entropy_loop ls k : ls <> [] ->
  fold_left (fun (e : xr) i =>
        if (0 <? i)%Z then
          let p := ndiv XR (num XR i) (num XR (Z.of_nat (length ls))) in
          nsub XR e (nmul XR p (xlog p))
        else e)
    (map (fun c => Z.of_nat (occurs ls c)) (seq 0 k)) (nofZ XR 0)
  = Some (entropy ls k).
Proof.
  intros H. pose proof (len_pos ls H) as Hp.
  change (nofZ XR 0) with (Some 0%R).
  rewrite (xr_sub_loop _ (fun i => plogp (IZR i / INR (length ls)))%R).
  - f_equal. unfold entropy. rewrite map_map.
    rewrite (Rsum_ext _ (fun c => plogp (share ls c))); [lra|].
    intros c _. rewrite IZR_of_nat. reflexivity.
  - intros a i Hi. apply in_map_iff in Hi. destruct Hi as (c & <- & _).
    destruct (0 <? Z.of_nat (occurs ls c))%Z eqn:E.
    + cbn [ndiv XR num nofZ]. rewrite !IZR_of_nat, xdiv_some by lra.
      cbv zeta. assert (Ho : (0 < INR (occurs ls c))%R) by (apply lt_0_INR; lia).
      assert (Hs : (0 < INR (occurs ls c) / INR (length ls))%R) by (apply Rdiv_lt_0_compat; lra).
      unfold xlog. destruct (Rlt_dec 0 _); [|contradiction].
      cbn [nsub nmul XR lift2]. unfold plogp. destruct (Req_EM_T _ 0); [lra|reflexivity].
    + assert (Z.of_nat (occurs ls c) = 0%Z) as -> by lia.
      unfold plogp. destruct (Req_EM_T _ 0) as [_|n]; [f_equal; lra|].
      exfalso. apply n. unfold Rdiv. lra.
Qed.

Lemma entropy_value data k cases counter : length counter = k -> labelled data k cases -> cases <> [] ->
  EntropyImpurity XR xlog data cases counter
  = Ok (Some (entropy (labels data cases) k), counts data k cases).
Proof.
  intros Hk Hl Hne. unfold EntropyImpurity. rewrite CountPerCat_ok by (rewrite Hk; exact Hl).
  rewrite Hk. cbn [bind]. do 2 f_equal.
  pose proof (entropy_loop (labels data cases) k (labels_nonnil _ _ Hne)) as G.
  rewrite labels_length in G. exact G.
Qed.

Theorem C47_entropy_value_range_purity : forall data k cases counter,
  length counter = k -> labelled data k cases -> cases <> [] ->
  exists v counter',
    EntropyImpurity XR xlog data cases counter = Ok (Some v, counter')
    /\ v = entropy (labels data cases) k
    /\ (0 <= v <= ln (INR k))%R
    /\ (v = 0%R <-> pure (labels data cases)).
Proof.
  intros data k cases counter Hk Hl Hne.
  pose proof (labels_nonnil data cases Hne) as Hn. pose proof (labels_bound _ _ _ Hl) as Hb.
  exists (entropy (labels data cases) k), (counts data k cases).
  split; [apply entropy_value; assumption|]. split; [reflexivity|].
  split; [split; [apply entropy_nonneg|apply entropy_upper]; assumption|].
  apply entropy_zero; assumption.
Qed.

Theorem C47_split_never_increases_entropy : forall data n l r m k,
  length (kL k) = n -> length (kR k) = n -> length (kM k) = n ->
  l <> [] -> r <> [] -> (forall p, In p (parts l r m) -> labelled data n p) ->
  exists v k',
    SplitImpurity XR (EntropyImpurity XR xlog data) l r m k = Ok (Some v, k')
    /\ v = weighted_average (fun p => entropy (labels data p) n) (parts l r m)
    /\ (v <= entropy (labels data (concat (parts l r m))) n)%R.
Proof.
  intros data n l r m k Kl Kr Km Hl Hr Hp.
  destruct (split_average (EntropyImpurity XR xlog data) (fun p => entropy (labels data p) n) l r m k Hl Hr)
    as [k' E].
  - intros p c Hi Hc. eexists. apply entropy_value; [congruence|apply Hp; exact Hi|].
    unfold parts in Hi. destruct Hi as [<-|[<-|Hi]]; auto.
    destruct m as [[|x mm]|]; [destruct Hi|destruct Hi as [<-|[]]; discriminate|destruct Hi].
  - congruence.
  - congruence.
  - exists (weighted_average (fun p => entropy (labels data p) n) (parts l r m)), k'.
    split; [exact E|]. split; [reflexivity|].
    apply (average_le (fun p => entropy (labels data p) n) (labelled data n)); auto.
    + intros a b Ha Hb. apply labelled_app. split; assumption.
    + intros a b Pa Pb Ha Hb. rewrite labels_app.
      rewrite <- (labels_length data a), <- (labels_length data b), <- (labels_length data (a ++ b)), labels_app.
      apply entropy_concave; try (apply labels_nonnil; assumption); apply labels_bound; assumption.
Qed.

(** ** C44 *)

Definition numeric (xs : list R) : list xr := map Some xs.
Definition inside (xs : list R) (cases : list nat) : Prop := Forall (fun i => i < length xs) cases.

Lemma numeric_get xs i : i < length xs -> get (numeric xs) i = Ok (Some (nth i xs 0%R)).
Proof.
  intros H. apply get_nth. unfold numeric. rewrite nth_error_map.
  rewrite (nth_error_nth' xs 0%R H). reflexivity.
Qed.

Lemma sums_value xs cases : inside xs cases ->
  SumAndSumSquares XR (numeric xs) cases
  = Ok (Some (Rsum (values xs cases)), Some (Rsum (map (fun v => v * v)%R (values xs cases)))).
Proof.
  intros H. unfold SumAndSumSquares.
  assert (G : forall cs a b, inside xs cs ->
    foreach cs (fun i '((s, q) : xr * xr) =>
      let* x := get (numeric xs) i in
      Ok (nadd XR s x, nadd XR q (nmul XR x x))) (Some a, Some b)
    = Ok (Some (a + Rsum (values xs cs))%R, Some (b + Rsum (map (fun v => v * v)%R (values xs cs)))%R)).
  { induction cs as [|i cs IH]; intros a b Hi; cbn [foreach values map Rsum].
    - f_equal; f_equal; f_equal; lra.
    - inversion Hi as [|? ? Hi1 Hi2]; subst. rewrite numeric_get by assumption. cbn [bind nadd nmul XR lift2].
      rewrite IH by assumption. unfold values. f_equal; f_equal; f_equal; lra. }
  change (nofZ XR 0) with (Some 0%R). rewrite G by assumption. f_equal; f_equal; f_equal; lra.
Qed.

Lemma values_length xs cases : length (values xs cases) = length cases.
Proof. apply map_length. Qed.
Lemma values_nonnil xs cases : cases <> [] -> values xs cases <> [].
Proof. destruct cases; [congruence|discriminate]. Qed.
Lemma values_app xs a b : values xs (a ++ b) = values xs a ++ values xs b.
Proof. apply map_app. Qed.

Lemma sse_term xs cases : inside xs cases -> cases <> [] ->
  nsub XR (Some (Rsum (map (fun v => v * v)%R (values xs cases))))
     (ndiv XR (nmul XR (Some (Rsum (values xs cases))) (Some (Rsum (values xs cases)))) (len XR cases))
  = Some (sse (values xs cases)).
Proof.
  intros H Hne. pose proof (len_pos cases Hne) as Hp.
  unfold len. cbn [nsub ndiv nmul nofZ XR lift2]. rewrite IZR_of_nat, xdiv_some by lra.
  cbn [lift2]. f_equal. rewrite sse_alt by (apply values_nonnil; assumption).
  rewrite values_length. reflexivity.
Qed.

Lemma num_impurity_value xs cases : inside xs cases -> cases <> [] ->
  NumImpurity XR (numeric xs) cases = Ok (Some (sse (values xs cases))).
Proof.
  intros H Hne. unfold NumImpurity. rewrite sums_value by assumption. cbn [bind].
  rewrite sse_term by assumption. reflexivity.
Qed.

Theorem C44_squared_deviation_properties : forall xs cases, inside xs cases -> cases <> [] ->
  exists v, NumImpurity XR (numeric xs) cases = Ok (Some v)
    /\ v = sse (values xs cases)
    /\ (0 <= v)%R
    /\ (v = 0%R <-> constant_list (values xs cases))
    /\ (forall cases', Permutation cases cases' -> NumImpurity XR (numeric xs) cases' = Ok (Some v)).
Proof.
  intros xs cases H Hne. eexists. split; [apply num_impurity_value; assumption|].
  split; [reflexivity|]. split; [apply sse_nonneg|].
  split; [apply sse_zero, values_nonnil, Hne|].
  intros cases' P. rewrite num_impurity_value.
  - rewrite (sse_perm (values xs cases) (values xs cases')); [reflexivity|]. apply Permutation_map, P.
  - eapply Permutation_Forall; eassumption.
  - intros E. subst. apply Permutation_sym, Permutation_nil in P. congruence.
Qed.

Lemma sse_average_le xs l r m : l <> [] -> r <> [] ->
  (weighted_average (fun p => sse (values xs p)) (parts l r m) <= sse (values xs (concat (parts l r m))))%R.
Proof.
  intros Hl Hr.
  apply (average_le (fun p => sse (values xs p)) (fun _ => True)); auto.
  intros a b _ _ Ha Hb. pose proof (len_pos a Ha). pose proof (len_pos b Hb).
  rewrite values_app. pose proof (sse_split _ _ (values_nonnil xs a Ha) (values_nonnil xs b Hb)).
  pose proof (sse_nonneg (values xs a)). pose proof (sse_nonneg (values xs b)).
  rewrite app_length, plus_INR.
  assert (H4 : ((INR (length a) + INR (length b)) * (sse (values xs a) + sse (values xs b))
           <= (INR (length a) + INR (length b)) * sse (values xs a ++ values xs b))%R)
    by (apply Rmult_le_compat_l; lra).
  assert (0 <= INR (length a) * sse (values xs b))%R by (apply Rmult_le_pos; lra).
  assert (0 <= INR (length b) * sse (values xs a))%R by (apply Rmult_le_pos; lra).
  lra.
Qed.

Lemma num_split_value xs l r m a : l <> [] -> r <> [] -> (forall p, In p (parts l r m) -> inside xs p) ->
  exists a', NumSplitImpurity XR (numeric xs) l r m a
     = Ok (Some (weighted_average (fun p => sse (values xs p)) (parts l r m)), a')
   /\ sLs XR a' = Some (Rsum (values xs l)) /\ sLq XR a' = Some (Rsum (map (fun v => v * v)%R (values xs l)))
   /\ sRs XR a' = Some (Rsum (values xs r)) /\ sRq XR a' = Some (Rsum (map (fun v => v * v)%R (values xs r)))
   /\ match has_m m with
      | Some mm => sMs XR a' = Some (Rsum (values xs mm))
                   /\ sMq XR a' = Some (Rsum (map (fun v => v * v)%R (values xs mm)))
      | None => True
      end.
Proof.
  intros Hl Hr Hp. pose proof (len_pos l Hl) as Pl. pose proof (len_pos r Hr) as Pr.
  assert (Il : inside xs l) by (apply Hp; left; reflexivity).
  assert (Ir : inside xs r) by (apply Hp; right; left; reflexivity).
  unfold NumSplitImpurity. rewrite (sums_value xs l Il), (sums_value xs r Ir). cbn [bind].
  rewrite (sse_term xs l Il Hl), (sse_term xs r Ir Hr).
  unfold weighted_average, parts in *.
  destruct m as [[|c mm]|]; cbn [has_m].
  2: { assert (Im : inside xs (c :: mm)) by (apply Hp; right; right; left; reflexivity).
    rewrite (sums_value xs (c :: mm) Im). cbn [bind]. rewrite (sse_term xs (c :: mm) Im) by discriminate.
    pose proof (len_pos (c :: mm) ltac:(discriminate)) as Pm.
    eexists. split; [do 2 f_equal; unfold len; cbn [nadd nmul nofZ XR lift2 ndiv];
    rewrite !IZR_of_nat, xdiv_some by lra; cbn [map Rsum]; do 2 f_equal; lra|cbn; repeat split]. }
  all: eexists; (split; [do 2 f_equal; unfold len; cbn [nadd nmul nofZ XR lift2 ndiv];
    rewrite !IZR_of_nat, xdiv_some by lra; cbn [map Rsum]; do 2 f_equal; lra|cbn; repeat split]).
Qed.

Theorem C44_split_never_exceeds_parent : forall xs l r m a, l <> [] -> r <> [] ->
  (forall p, In p (parts l r m) -> inside xs p) ->
  exists v a' parent,
    NumSplitImpurity XR (numeric xs) l r m a = Ok (Some v, a')
    /\ v = weighted_average (fun p => sse (values xs p)) (parts l r m)
    /\ NumImpurity XR (numeric xs) (concat (parts l r m)) = Ok (Some parent)
    /\ (0 <= v <= parent)%R.
Proof.
  intros xs l r m a Hl Hr Hp.
  destruct (num_split_value xs l r m a Hl Hr Hp) as (a' & E & _).
  exists (weighted_average (fun p => sse (values xs p)) (parts l r m)), a', (sse (values xs (concat (parts l r m)))).
  split; [exact E|]. split; [reflexivity|]. split.
  - apply num_impurity_value.
    + unfold inside. apply Forall_concat, Forall_forall. exact Hp.
    + cbn. destruct l; [congruence|discriminate].
  - split; [|apply sse_average_le; assumption].
    unfold weighted_average. apply Rmult_le_pos.
    + apply Rsum_nonneg. intros p _. apply Rmult_le_pos; [apply pos_INR|apply sse_nonneg].
    + left. apply Rinv_0_lt_compat. cbn [map Rsum parts].
      pose proof (len_pos l Hl). pose proof (len_pos r Hr).
      assert (0 <= Rsum (map (fun p => INR (length p)) (match m with Some (c :: m') => [c :: m'] | _ => [] end)))%R
        by (apply Rsum_nonneg; intros; apply pos_INR).
      lra.
Qed.

(** ** Concrete cases *)

(** Two of each class: Gini index one half, entropy ln 2; the split that
    separates the classes has impurity 0. *)
Example ex_gini_half : Gini XR [0; 1; 1; 0] 2 [0; 1; 2; 3] = Ok (Some (1 / 2)%R).
Proof.
  destruct (C43_gini_is_one_minus_squared_shares [0; 1; 1; 0] 2 [0; 1; 2; 3] [0; 0]%Z) as [_ ->];
    [reflexivity|repeat constructor; cbn; lia|discriminate|].
  do 2 f_equal. unfold gini, share. cbn. lra.
Qed.
Example ex_gini_split : exists k',
  SplitImpurity XR (GiniWithoutAlocate XR [0; 1; 1; 0]) [0; 3] [1; 2] None (mkK [0; 0]%Z [0; 0]%Z [0; 0]%Z)
  = Ok (Some 0%R, k').
Proof.
  destruct (C43_split_never_increases_gini [0; 1; 1; 0] 2 [0; 3] [1; 2] None (mkK [0; 0]%Z [0; 0]%Z [0; 0]%Z))
    as (v & k' & E & Ev & _); try reflexivity; try discriminate.
  - intros p [<-|[<-|[]]]; repeat constructor; cbn; lia.
  - exists k'. rewrite E, Ev. do 3 f_equal. unfold weighted_average, gini, share. cbn. lra.
Qed.
Example ex_entropy : exists c, EntropyImpurity XR xlog [0; 1; 1; 0] [0; 1; 2; 3] [0; 0]%Z = Ok (Some (ln 2), c).
Proof.
  destruct (C47_entropy_value_range_purity [0; 1; 1; 0] 2 [0; 1; 2; 3] [0; 0]%Z) as (v & c & E & Ev & _);
    [reflexivity|repeat constructor; cbn; lia|discriminate|].
  exists c. rewrite E, Ev. do 3 f_equal. unfold entropy. cbn [seq map Rsum].
  replace (share (labels [0; 1; 1; 0] [0; 1; 2; 3]) 0) with (/ 2)%R by (unfold share; cbn; lra).
  replace (share (labels [0; 1; 1; 0] [0; 1; 2; 3]) 1) with (/ 2)%R by (unfold share; cbn; lra).
  unfold plogp. destruct (Req_EM_T (/ 2) 0); [lra|]. rewrite ln_Rinv by lra. lra.
Qed.
(** Values 1, 3, 10 and 12: squared deviations 1 + 1 in each half, 85 together. *)
Example ex_sse : NumImpurity XR (numeric [1; 3; 10; 12]%R) [0; 1; 2; 3] = Ok (Some 85%R)
  /\ exists a', NumSplitImpurity XR (numeric [1; 3; 10; 12]%R) [0; 1] [2; 3] None
       (mkSums XR (Some 0) (Some 0) (Some 0) (Some 0) (Some 0) (Some 0))%R = Ok (Some 2%R, a').
Proof.
  split.
  - rewrite num_impurity_value; [|repeat constructor; cbn; lia|discriminate].
    do 2 f_equal. unfold sse, mean. cbn. lra.
  - destruct (C44_split_never_exceeds_parent [1; 3; 10; 12]%R [0; 1] [2; 3] None
      (mkSums XR (Some 0) (Some 0) (Some 0) (Some 0) (Some 0) (Some 0))%R)
      as (v & a' & p & E & Ev & _); try discriminate.
    + intros q [<-|[<-|[]]]; repeat constructor; cbn; lia.
    + exists a'. rewrite E, Ev. do 3 f_equal. unfold weighted_average, sse, mean. cbn. lra.
Qed.

Print Assumptions C43_gini_is_one_minus_squared_shares.
Print Assumptions C43_gini_range_purity_order.
Print Assumptions C43_split_never_increases_gini.
Print Assumptions C44_squared_deviation_properties.
Print Assumptions C44_split_never_exceeds_parent.
Print Assumptions C47_entropy_value_range_purity.
Print Assumptions C47_split_never_increases_entropy.
