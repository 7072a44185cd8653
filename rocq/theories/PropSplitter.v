(** C35-C37: the search over features (FeatureMatrix.BestSplitter). *)
From Verif Require Import Go GoLemmas F64 F64Order ModelFeature ModelSplit SplitSpec ModelSample ModelSearch SearchSpec
  SearchProofs GrowSpec TotalSearch ModelTargets TargetProofs ModelGrow SplitterProofs Dependable.
From Verif Require PropSearch PropCatSearch.
Import PropCatSearch.
Local Open Scope string_scope.
Local Open Scope nat_scope.
Local Open Scope list_scope.

Lemma nth_suffix {B} (l l' : list B) n : length l = length l' ->
  (forall k, n <= k -> nth_error l k = nth_error l' k) -> skipn n l = skipn n l'.
Proof.
  revert l l'. induction n as [|n IH]; intros l l' Hl H.
  - cbn. revert l' Hl H. induction l as [|a l IH]; intros [|b l'] Hl H; cbn in Hl; try lia; auto.
    pose proof (H 0 ltac:(lia)) as H0. cbn in H0. injection H0 as ->. f_equal. apply IH; [lia|].
    intros k _. apply (H (S k)). lia.
  - destruct l as [|a l], l' as [|b l']; cbn in *; try lia; auto.
    apply IH; [lia|]. intros k Hk. apply (H (S k)). lia.
Qed.

(** C35: whatever the searches answer (also when they panic for other inputs), if
    BestSplitter returns, the candidates are rearranged, the constants already
    known stay at the end in their order, and the chosen feature is a candidate. *)
Theorem C35_candidates_rearranged :
  forall (A : arith) (St : Type) (T : target A St) rnd (K : Type) kCopyFrom kShuffleCases kTarget p
    cases cans oob nb al k s,
  pTry p <= length cans -> nb <= length cans ->
  BestSplitter A St T rnd K kCopyFrom kShuffleCases kTarget p cases cans oob nb al k = Ok s ->
  Permutation cans (bCans s) /\
  skipn (length cans - nb) (bCans s) = skipn (length cans - nb) cans /\
  nb <= bConsts s /\ bConsts s <= length cans /\
  (bCode s <> CNil -> In (bFi s) cans).
Proof.
  intros A St T rnd K kC kS kT p cases cans oob nb al k s Ht Hn E.
  destruct (splitter_sorted A St T rnd K kC kS kT p cans nb Ht cases oob al k Hn s E) as (j & [Hp Hta Hm Hr Hd Hc Hf]).
  split; auto. split.
  - apply nth_suffix; auto. symmetry. apply (Permutation_length Hp).
  - split; auto. split; [lia|auto].
Qed.

(** C36: with at most as many tries as candidates, BestSplitter returns. *)
Theorem C36_no_panic_partial :
  forall (A : arith) (St : Type) (T : target A St) rnd (K : Type) kCopyFrom kShuffleCases kTarget
    (ok : nat -> Prop) (ready : St -> Prop) (kok : K -> Prop),
  dependable T ok ready -> sane A ->
  forall p cases cans oob nb al k,
  pTry p <= length cans -> nb <= length cans -> 1 <= pLeaf p ->
  (pVet p = true -> vettable A St K kCopyFrom kShuffleCases kTarget ok ready kok /\ kok k) ->
  Forall ok cases -> roomy al (length cases) -> ready (aTgt al) ->
  (pEvalOob p = true -> Forall ok oob /\ roomy al (length oob)) ->
  (forall i, In i cans -> exists f, nth_error (pData p) i = Some f /\ searchable f cases /\
     (pEvalOob p = true -> searchable f oob)) ->
  exists s, BestSplitter A St T rnd K kCopyFrom kShuffleCases kTarget p cases cans oob nb al k = Ok s /\
    (* the lists of the caller are rearranged, the scratch space stays usable *)
    Permutation cases (bCases s) /\ Permutation oob (bOob s) /\ keeps ready al (bAl s) /\
    (* and a split can be applied *)
    (bCode s <> CNil -> exists f, nth_error (pData p) (bFi s) = Some f /\ code_fits f (bCode s) /\
       (faithful f cases -> legal f (bCode s) (pLeaf p) cases)).
Proof.
  intros A St T rnd K kC kS kT ok ready kok Dep Hs p cases cans oob nb al k H1 H2 H3 H4 H5 H6 H7 H8 H9.
  destruct (BestSplitter_total A St T rnd K kC kS kT p ok ready kok Dep Hs cans nb cases oob al k)
    as (parent & tg & s & _ & E & _ & [F1 F2 F3 F4 F5 F6] & _); auto.
  exists s. split; auto. split; auto. split; auto. split; auto.
  intros N. destruct F5 as [[_ H]|[_ H]]; [congruence|auto].
Qed.

(** C37: the result is the best of the evaluated candidates. *)
Theorem C37_best_of_evaluated :
  forall (A : arith) (St : Type) (T : target A St) rnd (K : Type) kCopyFrom kShuffleCases kTarget
    (ok : nat -> Prop) (ready : St -> Prop),
  dependable T ok ready -> sane A ->
  forall p cases cans oob nb al k,
  pVet p = false -> pEvalOob p = false ->
  pTry p <= length cans -> nb <= length cans -> 1 <= pLeaf p ->
  Forall ok cases -> roomy al (length cases) -> ready (aTgt al) ->
  (forall i, In i cans -> exists f, nth_error (pData p) i = Some f /\ searchable f cases) ->
  exists parent tg s, tImp T cases (aTgt al) = Ok (parent, tg) /\
    BestSplitter A St T rnd K kCopyFrom kShuffleCases kTarget p cases cans oob nb al k = Ok s /\
    exists front rest news,
      bCans s = front ++ rest ++ news ++ skipn (length cans - nb) cans /\
      length front = bLast s /\ length news + nb = bConsts s /\ bDrawn s <= bConsts s /\
      (* the candidates in front were evaluated, had a value to split at, and are not better *)
      (forall i, In i front -> exists r, evaluated A St T rnd p ready parent cases i r /\ fConst r = false /\
         nltb A (bDec s) (fDec r) = false) /\
      (* the new constants were evaluated and found constant, and are not better *)
      (forall i, In i news -> exists r, evaluated A St T rnd p ready parent cases i r /\ fConst r = true /\
         nltb A (bDec s) (fDec r) = false) /\
      (* the result is one of them, above the smallest decrease that counts; or there is none *)
      ((bDec s = least A /\ bCode s = CNil) \/
       (nltb A (least A) (bDec s) = true /\ In (bFi s) front /\
        exists r, evaluated A St T rnd p ready parent cases (bFi s) r /\ bCode s = fCode r /\ bDec s = fDec r)) /\
      (* when the node is not pure already: enough candidates were drawn, or all are constant *)
      (settled A parent = false ->
         (front = [] /\ rest = []) \/
         (pTry p <= length front + bDrawn s /\ (pForce p = true -> front <> []))) /\
      (settled A parent = true -> front = [] /\ news = [] /\ bCode s = CNil).
Proof.
  intros A St T rnd K kC kS kT ok ready Dep Hs p cases cans oob nb al k V O H1 H2 H3 H4 H5 H6 H7.
  destruct (BestSplitter_total A St T rnd K kC kS kT p ok ready (fun _ => True) Dep Hs cans nb cases oob al k)
    as (parent & tg & s & Et & E & (j & [Hp Hta Hm Hr Hd Hc Hf]) & [F1 F2 F3 F4 F5 F6] & Fin); auto; try congruence.
  { intros i Hi. destruct (H7 i Hi) as (f & E1 & E2). exists f. split; auto. split; auto. congruence. }
  destruct (F6 V O) as [B1 B2 B3].
  exists parent, tg, s. split; auto. split; auto.
  set (L := length cans) in *.
  pose proof (Permutation_length Hp) as Lc. fold L in Lc.
  exists (firstn (bLast s) (bCans s)), (firstn (L - bConsts s - bLast s) (skipn (bLast s) (bCans s))),
    (firstn (bConsts s - nb) (skipn (L - bConsts s) (bCans s))).
  assert (Sk : forall a b (l : list nat), skipn a (skipn b l) = skipn (b + a) l).
  { intros a b. induction b; intros l; cbn; auto. destruct l; cbn; auto. apply skipn_nil. }
  assert (Nin : forall a n i (l : list nat), In i (firstn n (skipn a l)) -> exists q, a <= q /\ q < a + n /\ nth_error l q = Some i).
  { intros a n i l Hi. apply In_nth_error in Hi as (q & Hq).
    assert (Lq : q < length (firstn n (skipn a l))) by (apply nth_error_Some; congruence).
    rewrite firstn_length in Lq.
    exists (a + q). split; [lia|]. split; [lia|].
    assert (E2 : nth_error (skipn a l) q = Some i).
    { rewrite <- (firstn_skipn n (skipn a l)). rewrite nth_error_app1; auto. rewrite firstn_length. lia. }
    clear -E2. revert l E2. induction a; intros l E2; cbn in *; auto. destruct l; cbn in *; [destruct q; discriminate|auto]. }
  split.
  { rewrite <- (firstn_skipn (bLast s) (bCans s)) at 1. f_equal.
    rewrite <- (firstn_skipn (L - bConsts s - bLast s) (skipn (bLast s) (bCans s))) at 1. f_equal.
    rewrite Sk. replace (bLast s + (L - bConsts s - bLast s)) with (L - bConsts s) by lia.
    rewrite <- (firstn_skipn (bConsts s - nb) (skipn (L - bConsts s) (bCans s))) at 1. f_equal.
    rewrite Sk. replace (L - bConsts s + (bConsts s - nb)) with (L - nb) by lia.
    apply nth_suffix; auto. }
  assert (L1 : length (firstn (bLast s) (bCans s)) = bLast s) by (rewrite firstn_length; lia).
  assert (L2 : length (firstn (bConsts s - nb) (skipn (L - bConsts s) (bCans s))) = bConsts s - nb).
  { rewrite firstn_length, skipn_length. lia. }
  split; auto. split; [lia|]. split; auto.
  split; [|split; [|split; [|split]]].
  - intros i Hi. destruct (Nin 0 (bLast s) i (bCans s)) as (q & _ & Hq & Eq); [exact Hi|].
    destruct (B1 q) as (i' & r & E1 & E2 & E3 & E4); [lia|]. exists r. assert (i' = i) by congruence. subst. auto.
  - intros i Hi. apply Nin in Hi as (q & Hq1 & Hq2 & Eq).
    destruct (B2 q) as (i' & r & E1 & E2 & E3 & E4); [fold L; lia|fold L; lia|].
    exists r. assert (i' = i) by congruence. subst. auto.
  - destruct B3 as [B3|(B3 & q & r & Hq & Eq & Ev & _ & E1 & E2)]; auto. right. split; auto. split; [|eauto].
    rewrite <- (firstn_skipn (bLast s) (bCans s)), nth_error_app1 in Eq by lia. eapply nth_error_In; eauto.
  - intros Sf. rewrite Sf in Fin. destruct Fin as [Fin|[Fin1 Fin2]].
    + left. fold L in Fin. assert (bLast s = 0) by lia. split; apply length_zero_iff_nil; [lia|].
      rewrite firstn_length. lia.
    + right. split; [lia|]. intros F. specialize (Fin2 F). intros E0. rewrite E0 in L1. cbn in L1. lia.
  - intros St'. rewrite St' in Fin. destruct Fin as (Fc & Fl & Fk).
    split; [apply length_zero_iff_nil; lia|]. split; auto. apply length_zero_iff_nil. lia.
Qed.

(** ** Non-trivial cases, and the refuted parts. *)

(** Sixteen cases, the first eight in the bag. *)
Definition fclass : list nat := [0; 0; 0; 0; 1; 1; 1; 1; 0; 0; 0; 0; 1; 1; 1; 1].
Definition TF := gini_target F64 fclass.
Definition feats (fs : list (list nat)) : list feature := map (fun d => FCat (cats ["a"; "b"] d false)) fs.
Definition ps (fs : list (list nat)) (try : nat) (force vet oob : bool) : params :=
  mkP (feats fs) try 1 force vet oob false 0 false.
Definition perfect : list nat := fclass.
Definition flat : list nat := repeat 0 16.
Definition noise : list nat := [0; 0; 0; 1; 0; 1; 1; 1; 0; 0; 0; 0; 1; 1; 1; 1].
Definition better : list nat := [0; 0; 0; 0; 1; 1; 1; 1; 0; 0; 0; 0; 0; 1; 1; 1].
Definition runF (p : params) (cans oob : list nat) (nb : nat) : res (bstate F64 cst unit) :=
  BestSplitter F64 cst TF (fun _ => 0) unit (fun k => k) (fun _ _ k => Ok k) (fun _ => TF) p
    (seq 0 8) cans oob nb (fresh 16) tt.
(** feature, code, decrease, candidates, constants, evaluated, constants drawn *)
Definition seen (r : res (bstate F64 cst unit)) : option (nat * coded * f64 * (list nat * nat * nat * nat)) :=
  match r with Ok s => Some (bFi s, bCode s, bDec s, (bCans s, bConsts s, bLast s, bDrawn s)) | _ => None end.
Definition panics {B} (r : res B) : bool := match r with Panic => true | _ => false end.


Lemma cats_searchable names d cases : Forall (fun c => c < length d) cases ->
  Forall (fun v => v < length names) d -> searchable (FCat (cats names d false)) cases.
Proof.
  intros H Hd. split.
  - intros c E. cbn in E. unfold cmissing in E. cbn in E. exfalso.
    destruct (nth_in_or_default c (map (fun _ : nat => false) d) false) as [Hi|E2]; [|congruence].
    apply in_map_iff in Hi as (x & E2 & _). congruence.
  - split; auto. eapply Forall_impl; [|exact H]. intros c Hc. cbn. rewrite map_length.
    split; auto. split; auto. rewrite Forall_forall in Hd. apply Hd. apply nth_In. auto.
Qed.
Lemma upto_cases n k m : n + k <= m -> Forall (fun c => c < m) (seq n k).
Proof. intros H. apply Forall_forall. intros c Hc. apply in_seq in Hc. lia. Qed.

Lemma seen_ok r a b c d : seen r = Some (a, b, c, d) ->
  exists s, r = Ok s /\ bFi s = a /\ bDec s = c /\ (bCans s, bConsts s, bLast s, bDrawn s) = d.
Proof. destruct r as [s| |]; cbn; try discriminate. intros [= <- <- <- <-]. exists s. auto. Qed.
Lemma panics_ok {B} (r : res B) : panics r = true -> r = Panic.
Proof. destruct r; cbn; congruence. Qed.

(** Candidates 1 (constant), 0 (noise), 2 (the classes), 3 (known to be constant). *)
Example ex_splitter_hyps : dependable TF (in_data fclass 2) (cst_ready 2) /\ sane F64 /\
  Forall (in_data fclass 2) (seq 0 8) /\ roomy (fresh 16) (length (seq 0 8)) /\ cst_ready 2 (aTgt (fresh 16)) /\
  (forall i, In i [1; 0; 2; 3] -> exists f, nth_error (feats [noise; flat; perfect; flat]) i = Some f /\
     searchable f (seq 0 8) /\ searchable f (seq 8 8)).
Proof.
  split; [apply gini_dependable|]. split; [apply sane_F64|].
  split; [unfold in_data; repeat constructor; cbn; lia|].
  split; [split; vm_compute; lia|].
  split; [repeat split; vm_compute; auto; lia|].
  intros i Hi. cbn in Hi. destruct Hi as [<-|[<-|[<-|[<-|[]]]]]; eexists; (split; [reflexivity|]); split; (apply cats_searchable; [apply upto_cases; cbn; lia|repeat constructor]).
Qed.
Example ex_splitter : seen (runF (ps [noise; flat; perfect; flat] 3 true false false) [1; 0; 2; 3] [] 1) =
  Some (2, CInt 1, half, ([2; 0; 1; 3], 2, 2, 1)).
Proof. vm_compute. reflexivity. Qed.

(** C36 fails as stated: growforest does not limit mTry to the number of features,
    and after all candidates were evaluated the next try reads past the list. *)
Theorem C36_no_panic_refuted :
  exists p cans, pTry p = 2 /\ cans = [0] /\ 1 <= pLeaf p /\ pVet p = false /\ pEvalOob p = false /\
    Forall (in_data fclass 2) (seq 0 8) /\ roomy (fresh 16) (length (seq 0 8)) /\ cst_ready 2 (aTgt (fresh 16)) /\
    (forall i, In i cans -> exists f, nth_error (pData p) i = Some f /\ searchable f (seq 0 8)) /\
    runF p cans [] 0 = Panic.
Proof.
  exists (ps [perfect] 2 false false false), [0].
  do 2 (split; [reflexivity|]). split; [cbn; lia|]. do 2 (split; [reflexivity|]).
  destruct ex_splitter_hyps as (_ & _ & H1 & H2 & H3 & _). do 3 (split; [assumption|]).
  split.
  - intros i [<-|[]]. eexists. split; [reflexivity|]. apply cats_searchable; [apply upto_cases; cbn; lia|repeat constructor].
  - apply panics_ok. vm_compute. reflexivity.
Qed.

(** With evaloob the result need not be the best by the score that is compared:
    a candidate is looked at on the out-of-bag cases only when its decrease in the
    bag is above the best out-of-bag decrease so far. *)
Theorem C37_oob_refuted :
  exists s s1,
    runF (ps [better; noise] 2 false false true) [0; 1] (seq 8 8) 0 = Ok s /\
    runF (ps [better; noise] 1 false false true) [1] (seq 8 8) 0 = Ok s1 /\
    bFi s = 0 /\ bLast s = 2 /\ bFi s1 = 1 /\ nltb F64 (bDec s) (bDec s1) = true.
Proof.
  assert (H1 : seen (runF (ps [better; noise] 2 false false true) [0; 1] (seq 8 8) 0) =
    Some (0, CInt 1, S754_finite false 5404319552844595 (-54), ([0; 1], 0, 2, 0))) by (vm_compute; reflexivity).
  assert (H2 : seen (runF (ps [better; noise] 1 false false true) [1] (seq 8 8) 0) =
    Some (1, CInt 1, half, ([1], 0, 1, 0))) by (vm_compute; reflexivity).
  apply seen_ok in H1 as (s & E & E1 & E2 & E3). apply seen_ok in H2 as (s1 & G & G1 & G2 & G3).
  exists s, s1. split; [exact E|]. split; [exact G|]. split; [exact E1|].
  split; [congruence|]. split; [exact G1|]. rewrite E2, G2. vm_compute. reflexivity.
Qed.

Print Assumptions C35_candidates_rearranged.
Print Assumptions C36_no_panic_partial.
Print Assumptions C36_no_panic_refuted.
Print Assumptions C37_best_of_evaluated.
Print Assumptions C37_oob_refuted.
