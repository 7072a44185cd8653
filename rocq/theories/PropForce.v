(** C151: what -force does. *)
From Verif Require Import Go GoLemmas F64 ModelFeature ModelSample ModelSplit ModelTree TreeSpec
  ModelBallot ModelSearch GrowSpec ModelTargets ModelGrow ModelJungle PropByName RowsProofs PropRows PropGrow2.
From Verif Require PropSearch PropLeak BlindProofs.
Local Open Scope string_scope.
Local Open Scope nat_scope.
Local Open Scope list_scope.

(** ** C151.  The claim in full: with -force BestSplitter goes on drawing until it has tried a
    feature that is not constant on the cases, or all candidates are known to be constant; it
    changes nothing when one of the first mTry features drawn is not constant, and nothing at all
    when mTry is at least the number of candidates.  In nDrawnConstants + lastSample BestSplitter
    counts its draws. *)
Definition forced (b : bool) (p : params) : params :=
  mkP (pData p) (pTry p) (pLeaf p) b (pVet p) (pEvalOob p) (pExtra p) (pMaxDepth p) (pSplitMissing p).

Section Force.
  Variable A : arith.
  Variable St : Type.
  Variable T : target A St.
  Variable predict : list nat -> res string.
  Variable rnd : nat -> nat.
  Variable K : Type.
  Variable kCopyFrom : K -> K.
  Variable kShuffleCases : (nat -> nat) -> list nat -> K -> res K.
  Variable kTarget : K -> target A St.
  Variable p : params.
  Local Notation bstate := (bstate A St K).
  Local Notation draw_candidate := (draw_candidate A St rnd K).
  Local Notation try_candidate := (try_candidate A St T rnd K kShuffleCases kTarget).
  Local Notation BestSplitter := (BestSplitter A St T rnd K kCopyFrom kShuffleCases kTarget).
  Local Notation splitter_loop := (splitter_loop A St T rnd K kShuffleCases kTarget).

  (** j draws were made, of which those of known constants were different. *)
  Definition counted (N : nat) (x : nat * bstate) : Prop :=
    bDrawn (snd x) + bLast (snd x) = fst x /\ bDrawn (snd x) <= bConsts (snd x) /\ length (bCans (snd x)) = N.

  Lemma draw_counts (s s' : bstate) e : draw_candidate s = Ok (s', e) ->
    length (bCans s') = length (bCans s) /\ bLast s' = bLast s /\ bConsts s' = bConsts s /\
    (if e then bDrawn s' = bDrawn s else bDrawn s' = S (bDrawn s) /\ bDrawn s < bConsts s).
  Proof.
    unfold ModelGrow.draw_candidate. destruct (bDrawn s + bLast s <? length (bCans s)) eqn:El; [|intros [= <- <-]; auto].
    apply Nat.ltb_lt in El. intros E. apply bind_ok in E as (k & Ek & E).
    assert (Hk : k < length (bCans s) - bDrawn s - bLast s).
    { unfold intn in Ek. destruct (Nat.eqb_spec (length (bCans s) - bDrawn s - bLast s) 0); [discriminate|]. injection Ek as <-. apply Nat.mod_upper_bound. auto. }
    destruct (length (bCans s) - bConsts s <=? bLast s + k) eqn:Ec.
    - apply Nat.leb_le in Ec. injection E as <- <-. cbn. repeat split; auto. lia.
    - apply bind_ok in E as (cs & Es & E). injection E as <- <-. cbn. repeat split; auto. eapply swapl_length; eauto.
  Qed.
  Lemma try_counts q imp (s s' : bstate) : try_candidate q imp s = Ok s' ->
    length (bCans s') = length (bCans s) /\
    (bDrawn s' = S (bDrawn s) /\ bConsts s' = S (bConsts s) /\ bLast s' = bLast s \/
     bDrawn s' = bDrawn s /\ bConsts s' = bConsts s /\ bLast s' = S (bLast s)).
  Proof.
    intros Hx. unfold ModelGrow.try_candidate in Hx.
    apply bind_ok in Hx as (i & Ei & Hx). apply bind_ok in Hx as (f & _ & Hx). apply bind_ok in Hx as (r & _ & Hx).
    apply bind_ok in Hx as ([[[cs nc] dc] last] & Ec & Hx). apply bind_ok in Hx as ([[inner oob] al] & _ & Hx).
    apply bind_ok in Hx as ([[[[inner2 cases] oob2] al2] k] & _ & Hx). injection Hx as <-.
    destruct (fConst r).
    - apply bind_ok in Ec as (c2 & Es & Ec). injection Ec as <- <- <- <-. pose proof (swapl_length _ _ _ Es). destruct (nltb A (bDec s) inner2); cbn; auto.
    - injection Ec as <- <- <- <-. destruct (nltb A (bDec s) inner2); cbn; auto.
  Qed.

  (** One pass of the loop. *)
  Definition turn_of (q : params) (imp : A) (x : nat * bstate) : res (flow (nat * bstate) bstate) :=
    let '(j, s) := x in
    let* (s, evaluate) := draw_candidate s in
    if evaluate then let* s := try_candidate q imp s in Ok (Next (S j, s)) else Ok (Next (S j, s)).
  Definition body_of (q : params) (imp : A) (x : nat * bstate) : res (flow (nat * bstate) bstate) :=
    let '(j, s) := x in
    if (pForce q && (pTry q <=? j) && (j <=? bDrawn s)) || (j <? pTry q) then
      if length (bCans s) <=? bConsts s then Ok (Done s) else turn_of q imp (j, s)
    else Ok (Done s).
  Lemma loop_is q imp s : splitter_loop q imp s = loop (pTry q + length (bCans s) + 2) (body_of q imp) (0, s).
  Proof. reflexivity. Qed.
  Lemma turn_counts N q imp x y : counted N x -> turn_of q imp x = Ok y -> exists x', y = Next x' /\ counted N x' /\ fst x' = S (fst x).
  Proof.
    destruct x as [j s]. intros (H1 & H2 & H3) E. cbn [fst snd] in *. unfold turn_of in E. apply bind_ok in E as ([s1 e] & Ed & E).
    destruct (draw_counts _ _ _ Ed) as (D1 & D2 & D3 & D4). destruct e.
    - apply bind_ok in E as (s2 & Et & E). destruct (try_counts _ _ _ _ Et) as (T1 & T2). injection E as <-. eexists. split; [reflexivity|].
      split; [|reflexivity]. unfold counted. cbn [fst snd]. lia.
    - injection E as <-. eexists. split; [reflexivity|]. split; [|reflexivity]. unfold counted. cbn [fst snd]. lia.
  Qed.
  Lemma turn_force b imp x : turn_of (forced b p) imp x = turn_of p imp x.
  Proof. destruct x. reflexivity. Qed.

  (** How the loop ends with -force. *)
  Definition ends_well (N : nat) (s : bstate) : Prop := N <= bConsts s \/ (1 <= bLast s /\ pTry p <= bDrawn s + bLast s).
  Lemma forced_ends imp s : counted (length (bCans s)) (0, s) -> ifok (splitter_loop (forced true p) imp s) (ends_well (length (bCans s))).
  Proof.
    intros H0. rewrite loop_is. apply (loop_partial (counted (length (bCans s)))); [|exact H0]. intros [j s1] (H1 & H2 & H3).
    cbn [fst snd] in *. intros x Hx. cbn [body_of forced pForce pTry andb] in Hx.
    destruct ((pTry p <=? j) && (j <=? bDrawn s1) || (j <? pTry p)) eqn:Ej.
    - destruct (Nat.leb_spec (length (bCans s1)) (bConsts s1)) as [Hc|Hc]; [injection Hx as <-; left; lia|].
      destruct (turn_counts (length (bCans s)) (forced true p) imp (j, s1) x) as (x' & -> & C & _); [repeat split; assumption|exact Hx|exact C].
    - injection Hx as <-. right. apply orb_false_iff in Ej as [Ea Eb]. apply Nat.ltb_ge in Eb. rewrite (proj2 (Nat.leb_le _ _) Eb) in Ea. cbn in Ea.
      apply Nat.leb_gt in Ea. lia.
  Qed.
  (** How it ends without, and what -force adds. *)
  Lemma unforced_ends N imp : forall fuel x b, counted N x -> fst x <= pTry p -> loop fuel (body_of (forced false p) imp) x = Ok b ->
    loop fuel (body_of (forced true p) imp) x = Ok b \/ (bLast b = 0 /\ bDrawn b = pTry p /\ bConsts b < N).
  Proof.
    induction fuel as [|fuel IH]; intros [j s] b H Hj E; [discriminate|]. cbn [loop] in *. cbn [fst] in Hj.
    pose proof H as (H1 & H2 & H3). cbn [fst snd] in *. cbn [body_of forced pForce pTry andb orb] in E |- *.
    destruct (Nat.ltb_spec j (pTry p)) as [Hl|Hl].
    - rewrite orb_true_r. destruct (length (bCans s) <=? bConsts s); [left; exact E|]. rewrite !turn_force in *.
      destruct (turn_of p imp (j, s)) as [y| |] eqn:Et; [|discriminate..]. cbn [bind] in *.
      destruct (turn_counts N _ _ _ _ H Et) as (x' & -> & C & F). cbn [fst] in F. apply IH; [exact C|lia|exact E].
    - cbn [bind] in E. injection E as <-. rewrite (proj2 (Nat.leb_le _ _) Hl). cbn [andb]. rewrite orb_false_r.
      destruct (Nat.leb_spec j (bDrawn s)) as [Hd|Hd]; [|left; reflexivity].
      destruct (Nat.leb_spec (length (bCans s)) (bConsts s)) as [Hc|Hc]; [left; reflexivity|right; lia].
  Qed.
  Lemma all_same imp s : counted (length (bCans s)) (0, s) -> length (bCans s) <= pTry p ->
    splitter_loop (forced true p) imp s = splitter_loop (forced false p) imp s.
  Proof.
    intros H0 Hn. rewrite !loop_is. cbn [forced pTry]. apply (loop_ext (counted (length (bCans s)))); [| |exact H0].
    - intros [j s1] (H1 & H2 & H3). cbn [fst snd] in *. cbn [body_of forced pForce pTry andb orb].
      destruct (Nat.ltb_spec j (pTry p)) as [Hl|Hl]; [rewrite orb_true_r, !turn_force; reflexivity|].
      rewrite (proj2 (Nat.leb_le _ _) Hl). cbn [andb]. rewrite orb_false_r. destruct (Nat.leb_spec j (bDrawn s1)) as [Hd|Hd]; [|reflexivity].
      destruct (Nat.leb_spec (length (bCans s1)) (bConsts s1)) as [Hc|Hc]; [reflexivity|lia].
    - intros [j s1] x' H E. cbn [body_of] in E. destruct (_ || _); [|discriminate]. destruct (_ <=? _); [discriminate|].
      destruct (turn_counts _ _ _ _ _ H E) as (x2 & E2 & C & _). injection E2 as <-. exact C.
  Qed.

  Definition start_state (cases cans oob : list nat) (ncb : nat) (al : allocs St) (k : K) (tg : St) : bstate :=
    mkBS A St K cans cases oob ncb 0 0 0 CNil (minImp A) (set_tgt St al tg) (if pVet p then kCopyFrom k else k).
  Lemma best_is b cases cans oob ncb al k : BestSplitter (forced b p) cases cans oob ncb al k =
    let* (imp, tg) := tImp T cases (aTgt al) in
    if nleb A imp (minImp A) && nleb A (nofZ A 0) imp then Ok (start_state cases cans oob ncb al k tg)
    else splitter_loop (forced b p) imp (start_state cases cans oob ncb al k tg).
  Proof. reflexivity. Qed.
  Lemma start_counted cases cans oob ncb al k tg : counted (length cans) (0, start_state cases cans oob ncb al k tg).
  Proof. repeat split; cbn; lia. Qed.

  Lemma best_same_force cases cans oob ncb al k : length cans <= pTry p ->
    BestSplitter (forced true p) cases cans oob ncb al k = BestSplitter (forced false p) cases cans oob ncb al k.
  Proof.
    intros Hn. rewrite !best_is. apply bind_ext. intros [imp tg] _. destruct (_ && _); [reflexivity|]. apply all_same; [apply start_counted|exact Hn].
  Qed.
  Lemma grow_force fuel : forall n cases depth ncb g, length (gCans g) <= pTry p ->
    grow_node A St T predict rnd K kCopyFrom kShuffleCases kTarget fuel (forced true p) n cases depth ncb g =
    grow_node A St T predict rnd K kCopyFrom kShuffleCases kTarget fuel (forced false p) n cases depth ncb g /\
    ifok (grow_node A St T predict rnd K kCopyFrom kShuffleCases kTarget fuel (forced false p) n cases depth ncb g)
      (fun x => length (gCans (snd x)) = length (gCans g)).
  Proof.
    induction fuel as [|fuel IH]; intros n cases depth ncb g Hg; cbn [grow_node]; [split; [reflexivity|discriminate]|].
    destruct n as [|d l r m]; [split; [reflexivity|discriminate]|].
    assert (V : grow_visit A St T predict rnd K kCopyFrom kShuffleCases kTarget (forced true p) d l r m cases depth ncb g =
      grow_visit A St T predict rnd K kCopyFrom kShuffleCases kTarget (forced false p) d l r m cases depth ncb g).
    { unfold grow_visit. cbn [forced pMaxDepth pLeaf pData pSplitMissing]. rewrite (best_same_force _ _ _ _ _ _ Hg). reflexivity. }
    assert (L : ifok (grow_visit A St T predict rnd K kCopyFrom kShuffleCases kTarget (forced false p) d l r m cases depth ncb g)
      (fun x => length (gCans (snd x)) = length (gCans g))).
    { intros x Ev. unfold grow_visit in Ev. destruct (_ && _).
      2:{ apply bind_ok in Ev as (q & _ & Ev). injection Ev as <-. reflexivity. }
      apply bind_ok in Ev as (b & Eb & Ev). apply (BestSplitter_cans _ _ _ _ _ _ _ _ _ (gCans g) _ _ _ _ _ _ (Permutation_refl _)) in Eb as [B1 _].
      apply Permutation_length in B1. destruct (isCNil (bCode b)).
      - apply bind_ok in Ev as (q & _ & Ev). injection Ev as <-. cbn. auto.
      - apply bind_ok in Ev as ([imp du] & _ & Ev). apply bind_ok in Ev as (f & _ & Ev). apply bind_ok in Ev as (spl & _ & Ev). injection Ev as <-. cbn. auto. }
    rewrite V. destruct (grow_visit A St T predict rnd K kCopyFrom kShuffleCases kTarget (forced false p) d l r m cases depth ncb g) as [[v s1]| |]; cbn [bind]; [|split; [reflexivity|discriminate]..].
    specialize (L _ eq_refl). cbn [snd] in L. clear V.
    destruct (isCNil (gvSplit v)); [split; [reflexivity|]; intros x [= <-]; exact L|]. cbn [forced pData].
    destruct (get (pData p) (gvFi v)) as [f| |]; cbn [bind]; [|split; [reflexivity|discriminate]..].
    destruct (fSplitPoints f (gvSplit v) (gvCases v)) as [[[cs li] ri]| |]; cbn [bind]; [|split; [reflexivity|discriminate]..].
    destruct (slice cs 0 li) as [lc| |]; cbn [bind]; [|split; [reflexivity|discriminate]..].
    destruct (IH (gvL v) lc (S depth) (gvConsts v) s1 ltac:(lia)) as [E1 I1]. rewrite E1.
    destruct (grow_node A St T predict rnd K kCopyFrom kShuffleCases kTarget fuel (forced false p) (gvL v) lc (S depth) (gvConsts v) s1) as [[l' s2]| |]; cbn [bind]; [|split; [reflexivity|discriminate]..].
    specialize (I1 _ eq_refl). cbn [snd] in I1. clear E1.
    destruct (slice cs ri (length cs)) as [rc| |]; cbn [bind]; [|split; [reflexivity|discriminate]..].
    destruct (IH (gvR v) rc (S depth) (gvConsts v) s2 ltac:(lia)) as [E2 I2]. rewrite E2.
    destruct (grow_node A St T predict rnd K kCopyFrom kShuffleCases kTarget fuel (forced false p) (gvR v) rc (S depth) (gvConsts v) s2) as [[r' s3]| |]; cbn [bind]; [|split; [reflexivity|discriminate]..].
    specialize (I2 _ eq_refl). cbn [snd] in I2. clear E2.
    destruct (negb (li =? ri) && negb (isNil (gvM v))).
    - destruct (slice cs li ri) as [mc| |]; cbn [bind]; [|split; [reflexivity|discriminate]..].
      destruct (IH (gvM v) mc (S depth) (gvConsts v) s3 ltac:(lia)) as [E3 I3]. rewrite E3.
      destruct (grow_node A St T predict rnd K kCopyFrom kShuffleCases kTarget fuel (forced false p) (gvM v) mc (S depth) (gvConsts v) s3) as [[m' s4]| |]; cbn [bind]; [|split; [reflexivity|discriminate]..].
      specialize (I3 _ eq_refl). cbn [snd] in I3. split; [reflexivity|]. intros x [= <-]. cbn [snd]. lia.
    - cbn [bind]. split; [reflexivity|]. intros x [= <-]. cbn [snd]. lia.
  Qed.

  (** *** Jungles *)
  Local Notation jstate := (jstate A St K).
  Local Notation jvisit := (jvisit A St T predict rnd K kCopyFrom kShuffleCases kTarget).
  Definition jcans (N : nat) (s : jstate) : Prop := length (gCans (sG s)) = N.
  Lemma jleaf_cans N e inner s : jcans N s -> ifok (jleaf A St predict K e inner s) (jcans N).
  Proof.
    intros H x Hx. unfold jleaf in Hx. apply bind_ok in Hx as (n & _ & Hx). apply bind_ok in Hx as (q & _ & Hx). apply bind_ok in Hx as (h & Eh & Hx).
    injection Hx as <-. exact H.
  Qed.
  Lemma jsplit_cans N q e depth b s : jcans N s -> ifok (jsplit A St K q e depth b s) (jcans N).
  Proof.
    intros H x Hx. unfold jsplit in Hx. apply bind_ok in Hx as ([imp du] & Ebk & Hx). apply bind_ok in Hx as (f & Ef & Hx).
    apply bind_ok in Hx as (spl & Es & Hx). apply bind_ok in Hx as ([[cs li] ri] & _ & Hx). apply bind_ok in Hx as (n & En & Hx).
    apply bind_ok in Hx as (h & Eh & Hx). injection Hx as <-. exact H.
  Qed.
  Lemma jvisit_force N depth i s : N <= pTry p -> jcans N s ->
    jvisit (forced true p) depth i s = jvisit (forced false p) depth i s /\ ifok (jvisit (forced true p) depth i s) (jcans N).
  Proof.
    intros HN Hs. unfold ModelJungle.jvisit. cbn [forced pMaxDepth pLeaf].
    destruct (get (sNodes s) i) as [e| |]; cbn [bind]; [|split; [reflexivity|discriminate]..].
    destruct (eDead e); [split; [reflexivity|intros x [= <-]; exact Hs]|].
    destruct (slice (sCases s) (eStart e) (eEnd e)) as [inner| |]; cbn [bind]; [|split; [reflexivity|discriminate]..].
    destruct (((depth <? pMaxDepth p) || (pMaxDepth p <=? 0)) && (2 * pLeaf p <=? length inner)); [|split; [reflexivity|apply jleaf_cans, Hs]].
    rewrite best_same_force by (unfold jcans in Hs; lia).
    pose proof (BestSplitter_cans A St T rnd K kCopyFrom kShuffleCases kTarget (forced false p) (gCans (sG s)) inner (gCans (sG s)) (gOob (sG s)) (eConsts e) (gAl (sG s)) (gK (sG s)) (Permutation_refl _)) as B.
    destruct (BestSplitter (forced false p) inner (gCans (sG s)) (gOob (sG s)) (eConsts e) (gAl (sG s)) (gK (sG s))) as [b| |];
      cbn [bind]; [|split; [reflexivity|discriminate]..].
    destruct (B _ eq_refl) as [B1 _]. apply Permutation_length in B1.
    assert (Hs' : jcans N (mkS A St K (sHeap s) (sNodes s) (putwin (sCases s) (eStart e) (bCases b)) (mkG A St K (bCans b) (bOob b) (bAl b) (bK b) (gImp (sG s)) (gDepth (sG s))))).
    { unfold jcans in *. cbn. lia. }
    destruct (isCNil (bCode b)); (split; [reflexivity|]); [apply jleaf_cans, Hs'|apply jsplit_cans, Hs'].
  Qed.
  Lemma merging_cans N last s : jcans N s -> ifok (merging A St T K last s) (jcans N).
  Proof.
    intros Hs x Hx. unfold merging in Hx. eapply (BlindProofs.loop_ifok (jcans N) (jcans N)); [exact Hx|exact Hs|]. clear. intros s o Hs Ho.
    apply bind_ok in Ho as ([ch s1] & Em & Ho).
    assert (H1 : jcans N s1).
    { unfold merge_pass in Em. apply (BlindProofs.for_up_ifok (fun x : bool * jstate => jcans N (snd x))) in Em; [exact Em|exact Hs|]. clear. intros i [c s] [c' s'] Hs E.
      cbn [snd] in *. apply bind_ok in E as (e & _ & E). destruct (eDead e); [injection E as <- <-; exact Hs|]. apply bind_ok in E as ([cb tg] & _ & E).
      destruct cb as [j|]; [|injection E as <- <-; exact Hs]. apply bind_ok in E as (s2 & E2 & E). injection E as <- <-.
      unfold merge in E2. apply bind_ok in E2 as (ni & _ & E2). apply bind_ok in E2 as (nj & _ & E2). apply bind_ok in E2 as (ns & _ & E2).
      destruct (eParent nj) as [q|]; [|discriminate]. apply bind_ok in E2 as (pa & _ & E2). apply bind_ok in E2 as (h & _ & E2). injection E2 as <-. exact Hs. }
    destruct ch; injection Ho as <-; exact H1.
  Qed.

  (** With -force: all candidates are constant, or one was tried that is not; unless the
      cases are pure enough to stop at once. *)
Theorem C151_goes_on : forall cases cans oob ncb al k b,
    BestSplitter (forced true p) cases cans oob ncb al k = Ok b ->
    (exists imp tg, tImp T cases (aTgt al) = Ok (imp, tg) /\ nleb A imp (minImp A) = true /\ nleb A (nofZ A 0) imp = true) \/
    length cans <= bConsts b \/ (1 <= bLast b /\ pTry p <= bDrawn b + bLast b).
  Proof.
    intros cases cans oob ncb al k b E. rewrite best_is in E. apply bind_ok in E as ([imp tg] & Ei & E).
    destruct (nleb A imp (minImp A) && nleb A (nofZ A 0) imp) eqn:Ep.
    - left. apply andb_true_iff in Ep as [E1 E2]. eauto.
    - right. apply (forced_ends _ _ (start_counted _ _ _ _ _ _ _) _ E).
  Qed.
  (** -force only adds when mTry constants were drawn and a candidate is left. *)
Theorem C151_adds_nothing : forall cases cans oob ncb al k b,
    BestSplitter (forced false p) cases cans oob ncb al k = Ok b ->
    BestSplitter (forced true p) cases cans oob ncb al k = Ok b \/ (bLast b = 0 /\ bDrawn b = pTry p /\ bConsts b < length cans).
  Proof.
    intros cases cans oob ncb al k b E. rewrite best_is in *. apply bind_ok in E as ([imp tg] & Ei & E). rewrite Ei. cbn [bind].
    destruct (nleb A imp (minImp A) && nleb A (nofZ A 0) imp); [left; exact E|]. rewrite loop_is in *.
    apply (unforced_ends (length cans) imp _ _ _ (start_counted _ _ _ _ _ _ _)); [cbn; lia|exact E].
  Qed.
  (** When mTry covers the candidates, whole trees are the same. *)
Theorem C151_all_candidates : forall fuel n cases g, length (gCans g) <= pTry p ->
    Grow A St T predict rnd K kCopyFrom kShuffleCases kTarget fuel (forced true p) n cases g =
    Grow A St T predict rnd K kCopyFrom kShuffleCases kTarget fuel (forced false p) n cases g.
  Proof. intros fuel n cases g H. apply grow_force, H. Qed.
  (** And whole jungles. *)
Theorem C151_jungle : forall fuel cases g, length (gCans g) <= pTry p ->
    GrowJungle A St T predict rnd K kCopyFrom kShuffleCases kTarget (forced true p) fuel cases g =
    GrowJungle A St T predict rnd K kCopyFrom kShuffleCases kTarget (forced false p) fuel cases g.
  Proof.
    intros fuel cases g H. unfold GrowJungle, levels. apply (loop_ext (fun x : nat * nat * jstate => jcans (length (gCans g)) (snd x))); [| |reflexivity].
    - intros [[first depth] s] Hs. cbn [snd] in Hs.
      destruct (PropLeak.for_up_both (jcans (length (gCans g))) _ _ (length (sNodes s) - first) (fun i s Hi => jvisit_force _ depth i s H Hi) first s Hs) as [E _]. rewrite E. reflexivity.
    - intros [[first depth] s] [[f2 d2] s2] Hs Hx. cbn [snd] in *. apply bind_ok in Hx as (s1 & E1 & Hx).
      apply (proj2 (PropLeak.for_up_both (jcans (length (gCans g))) _ _ (length (sNodes s) - first) (fun i s Hi => jvisit_force _ depth i s H Hi) first s Hs)) in E1.
      destruct (length (sNodes s1) =? length (sNodes s)); [discriminate|]. apply bind_ok in Hx as (s3 & E3 & Hx). apply (merging_cans _ _ _ E1) in E3. injection Hx as <- <- <-. exact E3.
  Qed.
End Force.
Print Assumptions C151_goes_on.
Print Assumptions C151_adds_nothing.
Print Assumptions C151_all_candidates.
Print Assumptions C151_jungle.

(** A constant feature before the band of classes x, y, x, mTry 1 and draws that come upon the
    constant first: without -force a single leaf, with -force the two splits. *)
Definition flat_p (b : bool) (mtry : nat) : params :=
  mkP [FNum (PropSearch.plain (map f_of_Z (repeat 7%Z 9))); FNum (PropSearch.plain band)] mtry 1 b false false false 0 false.
Definition flat_best (b : bool) (mtry : nat) : option (nat * nat * nat * bool) :=
  match BestSplitter F64 cst (gini_target F64 band_class) (fun _ => 0) unit (fun k => k) (fun _ _ k => Ok k)
    (fun _ => gini_target F64 band_class) (flat_p b mtry) (seq 0 9) [0; 1] [] 0 (PropSearch.fresh 9) tt with
  | Ok s => Some (bDrawn s, bConsts s, bLast s, isCNil (bCode s)) | _ => None end.
Definition flat_tree (b : bool) (mtry : nat) : option nat :=
  option_map (fun n => length (nodes_of n)) (tree_of (gini_grow band_class 10 (flat_p b mtry) newNode (seq 0 9) (start 9 2))).
Example C151_ex_best : flat_p true 1 = forced true (flat_p false 1) /\
  flat_best false 1 = Some (1, 1, 0, true) /\ flat_best true 1 = Some (1, 1, 1, false) /\ flat_best false 2 = flat_best true 2 /\ flat_best true 2 = Some (1, 1, 1, false).
Proof. split; [reflexivity|]. vm_compute. auto. Qed.
Example C151_ex_tree : flat_tree false 1 = Some 1 /\ flat_tree true 1 = Some 5 /\ flat_tree false 2 = Some 5 /\ flat_tree true 2 = Some 5 /\ length (gCans (start 9 2)) <= pTry (flat_p false 2).
Proof. vm_compute. auto. Qed.
