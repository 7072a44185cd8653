(** Growing a tree from the same cases in another order. *)
From Verif Require Import Go GoLemmas F64 ModelFeature ModelSplit SplitSpec SplitProofs ModelSearch SearchSpec ModelTree TreeSpec ModelGrow CatSearchProofs
  BlindProofs OrderProofs OrderSearch OrderlessTargets OrderlessSearch.
Local Open Scope nat_scope.
Local Open Scope list_scope.

(** The parts of a split do not depend on the order of the cases, but for their own order. *)
Lemma three_way_same isL isM l l' r r' : Permutation l l' -> three_way isL isM l r -> three_way isL isM l' r' ->
  Permutation (srL r) (srL r') /\ Permutation (srM r) (srM r') /\ Permutation (srR r) (srR r').
Proof.
  intros P [_ _ L M R] [_ _ L' M' R'].
  refine (conj _ (conj _ _)).
  - exact (Permutation_trans L (Permutation_trans (Permutation_filter _ P) (Permutation_sym L'))).
  - exact (Permutation_trans M (Permutation_trans (Permutation_filter _ P) (Permutation_sym M'))).
  - exact (Permutation_trans R (Permutation_trans (Permutation_filter _ P) (Permutation_sym R'))).
Qed.
Lemma fSplit_same f code l l' : code_fits f code -> flag_sound f -> Forall (has_case f) l -> Permutation l l' ->
  exists r r', fSplit f code l = Ok r /\ fSplit f code l' = Ok r' /\
    fSplitPoints f code l = Ok (srL r ++ srM r ++ srR r, length (srL r), length (srL r) + length (srM r)) /\
    fSplitPoints f code l' = Ok (srL r' ++ srM r' ++ srR r', length (srL r'), length (srL r') + length (srM r')) /\
    srCases r = srL r ++ srM r ++ srR r /\ srCases r' = srL r' ++ srM r' ++ srR r' /\
    Permutation l (srCases r) /\ Permutation l' (srCases r') /\
    Permutation (srL r) (srL r') /\ Permutation (srM r) (srM r') /\ Permutation (srR r) (srR r').
Proof.
  intros Hc Hf Hh P. assert (Hh' : Forall (has_case f) l') by (eapply Permutation_Forall; eauto).
  destruct (fSplit_ok f code l Hc Hf Hh) as (cs & ll & lr & r & E1 & E2 & T & <- & -> & ->).
  destruct (fSplit_ok f code l' Hc Hf Hh') as (cs' & ll' & lr' & r' & E1' & E2' & T' & <- & -> & ->).
  destruct (three_way_same _ _ _ _ _ _ P T T') as (PL & PM & PR). destruct T as [T1 T2 _ _ _]. destruct T' as [T1' T2' _ _ _].
  exists r, r'. rewrite E1, E1', T1, T1'. rewrite T1 in T2. rewrite T1' in T2'. repeat (split; auto).
Qed.

Section Growth.
  Variable A : arith.
  Variable St : Type.
  Variable T : target A St.
  Variable predict : list nat -> res string.
  Variable rnd : nat -> nat.
  Variable K : Type.
  Variable kCopyFrom : K -> K.
  Variable kShuffleCases : (nat -> nat) -> list nat -> K -> res K.
  Variable kTarget : K -> target A St.
  Variable p : params.
  Variable N : nat.
  Variables all oobs : list nat.
  Hypothesis Hord : ordered A.
  Hypothesis Hmin : nltb A (minImp A) (nofZ A 0) = false.
  Hypothesis HT : orderless T.
  Hypothesis Hpred : forall l l' s, Permutation l l' -> predict l = Ok s -> predict l' = Ok s.
  Hypothesis Hvet : pVet p = false.
  Hypothesis Hleaf : 1 <= pLeaf p.
  Hypothesis Hcols : Forall (fun f => flag_sound f /\ column_ok all f) (pData p).
  Hypothesis Hoobs : pEvalOob p = true -> Forall (fun f => Forall (has_case f) oobs) (pData p).

  Definition bsame (cases : list nat) (s s' : bstate A St K) : Prop :=
    bCans s = bCans s' /\ Permutation cases (bCases s) /\ Permutation cases (bCases s') /\ Permutation oobs (bOob s) /\ Permutation oobs (bOob s') /\
    bConsts s = bConsts s' /\ bDrawn s = bDrawn s' /\ bLast s = bLast s' /\ bFi s = bFi s' /\ bCode s = bCode s' /\ bDec s = bDec s' /\ bK s = bK s' /\
    alsame St N (bAl s) (bAl s') /\
    ((bDec s = minImp A /\ bCode s = CNil) \/ (nltb A (minImp A) (bDec s) = true /\ exists f, nth_error (pData p) (bFi s) = Some f /\ code_fits f (bCode s))).

  Lemma alsame_tgt al al' tg : alsame St N al al' -> alsame St N (set_tgt St al tg) (set_tgt St al' tg).
  Proof. intros (L1 & L2 & L3 & L4 & Et & Ed). unfold alsame, set_tgt. cbn. auto 10. Qed.

  Lemma draw_same cases s s' : bsame cases s s' ->
    follows (fun x x' => bsame cases (fst x) (fst x') /\ snd x = snd x') (draw_candidate A St rnd K s) (draw_candidate A St rnd K s').
  Proof.
    intros Hb. pose proof Hb as (E1 & P1 & P1' & Q1 & Q1' & E4 & E5 & E6 & E7 & E8 & E9 & E10 & (L1 & L2 & L3 & L4 & Et & Ed) & Hc).
    unfold draw_candidate. rewrite <- E1, <- E4, <- E5, <- E6, <- Ed.
    destruct (bDrawn s + bLast s <? length (bCans s)).
    - apply (follows_bind eq); [apply follows_refl|]. intros k ? <-. destruct (length (bCans s) - bConsts s <=? bLast s + k).
      + apply follows_ok. split; [|reflexivity]. unfold bsame, alsame. cbn. repeat (split; auto).
      + apply (follows_bind eq); [apply follows_refl|]. intros cans ? <-. apply follows_ok. split; [|reflexivity].
        unfold bsame, alsame. cbn. repeat (split; auto).
    - apply follows_ok. split; [exact Hb|reflexivity].
  Qed.

  Lemma try_same cases parent s s' : incl cases all -> length cases <= N -> bsame cases s s' ->
    follows (bsame cases) (try_candidate A St T rnd K kShuffleCases kTarget p parent s) (try_candidate A St T rnd K kShuffleCases kTarget p parent s').
  Proof.
    intros Hi HN Hb. pose proof Hb as (E1 & P1 & P1' & Q1 & Q1' & E4 & E5 & E6 & E7 & E8 & E9 & E10 & Ha & Hc).
    unfold try_candidate. rewrite <- E1, <- E4, <- E5, <- E6, <- E7, <- E8, <- E9, <- E10.
    apply (follows_bind eq); [apply follows_refl|]. intros i ? <-.
    apply (follows_bind (fun f f' => f = f' /\ nth_error (pData p) i = Some f)).
    { intros f E. exists f. repeat split; auto. apply get_inv. exact E. }
    intros f ? (<- & Nf). pose proof Hcols as HC. rewrite Forall_forall in HC. destruct (HC f (nth_error_In _ _ Nf)) as [Fs Fc].
    assert (Ib : incl (bCases s) all) by (intros c Hin; apply Hi; eapply Permutation_in; [symmetry; exact P1|exact Hin]).
    assert (Lb : length (bCases s) <= N) by (rewrite <- (Permutation_length P1); exact HN).
    assert (Pb : Permutation (bCases s) (bCases s')) by exact (Permutation_trans (Permutation_sym P1) P1').
    eapply follows_bind; [apply (BestSplit_same A St T rnd Hord HT Hmin N f _ _ parent (pLeaf p) (pExtra p) _ _ Hleaf Lb Pb (column_incl _ _ _ Ib Fc) Ha)|].
    intros r r' (R1 & R2 & R3 & R4 & R5 & R6 & R7). rewrite <- R1, <- R2, <- R3.
    apply (follows_bind eq); [apply follows_refl|]. intros [[[cans nc] dc] last] ? <-.
    assert (Hlt : forall x, nltb A (bDec s) x = true -> nltb A (minImp A) x = true).
    { intros x Hx. destruct Hc as [(Hd & _)|(Hc & _)]; [rewrite Hd in Hx; exact Hx|]. eapply ordered_trans; [exact Hord|exact Hc|exact Hx]. }
    apply (follows_bind (fun x x' => let '(inner, oob, al) := x in let '(inner', oob', al') := x' in
       inner = inner' /\ Permutation oobs oob /\ Permutation oobs oob' /\ alsame St N al al' /\ (nltb A (bDec s) inner = true -> nltb A (bDec s) (fDec r) = true))).
    { unfold eval_oob. destruct (pEvalOob p && nltb A (bDec s) (fDec r)) eqn:Ev; [|apply follows_ok; auto 10].
      apply andb_true_iff in Ev as [Eo Ev].
      assert (Hh : Forall (has_case f) (bOob s)).
      { specialize (Hoobs Eo). rewrite Forall_forall in Hoobs. eapply Permutation_Forall; [exact Q1|]. apply Hoobs. eapply nth_error_In; eauto. }
      assert (Po : Permutation (bOob s) (bOob s')) by exact (Permutation_trans (Permutation_sym Q1) Q1').
      destruct (fSplit_same f (fCode r) (bOob s) (bOob s') (R7 (Hlt _ Ev)) Fs Hh Po) as (sp & sp' & -> & -> & _ & _ & _ & _ & S1 & S1' & SL & SM & SR). cbn [bind].
      pose proof R6 as (_ & _ & _ & _ & Et & _). rewrite <- Et.
      apply (follows_bind eq).
      { intros x E. exists x. split; [|reflexivity]. refine (ol_imp T HT _ _ _ _ _ E). exact (Permutation_trans (Permutation_sym S1) (Permutation_trans Po S1')). }
      intros [imp tg] ? <-.
      apply (follows_bind eq).
      { intros x E. exists x. split; [|reflexivity]. refine (ol_split T HT _ _ _ _ (Some _) (Some _) _ _ SL SR SM E). }
      intros [simp tg1] ? <-. apply follows_ok. split; [reflexivity|]. split; [exact (Permutation_trans Q1 S1)|]. split; [exact (Permutation_trans Q1' S1')|].
      split; [apply alsame_tgt; exact R6|auto]. }
    intros [[inner oob] al] [[inner' oob'] al'] (<- & O1 & O1' & Hal & Hin).
    unfold vet_split. rewrite Hvet. cbn [andb bind].
    assert (Pr : Permutation cases (fCases r)) by exact (Permutation_trans P1 R4).
    assert (Pr' : Permutation cases (fCases r')) by exact (Permutation_trans P1 R5).
    apply follows_ok. destruct (nltb A (bDec s) inner) eqn:El.
    - unfold bsame. cbn. repeat (split; auto). right. split; [apply Hlt; exact El|]. exists f. split; [exact Nf|]. apply R7, Hlt, Hin. reflexivity.
    - unfold bsame. cbn. repeat (split; auto).
  Qed.

  Lemma splitter_same cases cases' cans oob oob' nb al al' k : incl cases all -> length cases <= N -> Permutation cases cases' ->
    Permutation oobs oob -> Permutation oobs oob' -> alsame St N al al' ->
    follows (bsame cases) (BestSplitter A St T rnd K kCopyFrom kShuffleCases kTarget p cases cans oob nb al k)
      (BestSplitter A St T rnd K kCopyFrom kShuffleCases kTarget p cases' cans oob' nb al' k).
  Proof.
    intros Hi HN HP O1 O2 Ha. pose proof Ha as (L1 & L2 & L3 & L4 & Et & Ed).
    unfold BestSplitter. rewrite <- Et. apply (follows_bind eq).
    { intros x E. exists x. split; [|reflexivity]. exact (ol_imp T HT _ _ _ _ HP E). }
    intros [pimp tg] ? <-.
    assert (B0 : forall k, bsame cases (mkBS A St K cans cases oob nb 0 0 0 CNil (minImp A) (set_tgt St al tg) k)
                         (mkBS A St K cans cases' oob' nb 0 0 0 CNil (minImp A) (set_tgt St al' tg) k)).
    { intros k0. unfold bsame, alsame, set_tgt. cbn. repeat (split; auto). }
    destruct (nleb A pimp (minImp A) && nleb A (nofZ A 0) pimp); [apply follows_ok; apply B0|].
    unfold splitter_loop. cbn [bCans].
    apply (follows_loop (fun x x' : nat * bstate A St K => fst x = fst x' /\ bsame cases (snd x) (snd x')) (bsame cases)); [split; [reflexivity|apply B0]|].
    intros [j s] [j' s'] [Ej Hb]. cbn [fst snd] in *. subst j'. pose proof Hb as (E1 & _ & _ & _ & _ & E4 & E5 & _). rewrite <- E1, <- E4, <- E5.
    destruct ((pForce p && (pTry p <=? j) && (j <=? bDrawn s)) || (j <? pTry p)); [|apply follows_ok; exact Hb].
    destruct (length (bCans s) <=? bConsts s); [apply follows_ok; exact Hb|].
    eapply follows_bind; [apply draw_same; exact Hb|]. intros [s1 e] [s1' e'] [H1 He]. cbn [fst snd] in *. subst e'. destruct e.
    - eapply follows_bind; [apply try_same; [exact Hi|exact HN|exact H1]|]. intros s2 s2' H2. apply follows_ok. split; auto.
    - apply follows_ok. split; auto.
  Qed.

  Definition gsame (g g' : gstate A St K) : Prop :=
    gCans g = gCans g' /\ Permutation oobs (gOob g) /\ Permutation oobs (gOob g') /\ alsame St N (gAl g) (gAl g') /\ gK g = gK g' /\ gImp g = gImp g' /\ gDepth g = gDepth g'.
  Definition vsame (cases : list nat) (x x' : visited * gstate A St K) : Prop :=
    let '(v, g) := x in let '(v', g') := x' in
    gsame g g' /\ gvD v = gvD v' /\ gvL v = gvL v' /\ gvR v = gvR v' /\ gvM v = gvM v' /\ gvFi v = gvFi v' /\ gvSplit v = gvSplit v' /\ gvConsts v = gvConsts v' /\
    Permutation cases (gvCases v) /\ Permutation cases (gvCases v') /\
    (gvSplit v = CNil \/ exists f, nth_error (pData p) (gvFi v) = Some f /\ code_fits f (gvSplit v)).
  Notation grow := (grow_node A St T predict rnd K kCopyFrom kShuffleCases kTarget).

  Lemma predict_same l l' : Permutation l l' -> follows eq (predict l) (predict l').
  Proof. intros P s E. exists s. split; [eapply Hpred; eauto|reflexivity]. Qed.

  Lemma grow_same fuel : forall root cases cases' depth nb g g', incl cases all -> length cases <= N -> Permutation cases cases' -> gsame g g' ->
    follows (fun x x' => fst x = fst x' /\ gsame (snd x) (snd x')) (grow fuel p root cases depth nb g) (grow fuel p root cases' depth nb g').
  Proof.
    induction fuel as [|fuel IH]; intros root cases cases' depth nb g g' Hi HN HP Hg; [intros x E; discriminate|].
    pose proof Hg as (G1 & G2 & G2' & G3 & G4 & G5 & G6).
    cbn [grow_node]. destruct root as [|d l r m]; [apply follows_panic|].
    apply (follows_bind (vsame cases)).
    { unfold grow_visit. rewrite <- (Permutation_length HP), <- G1, <- G4, <- G5, <- G6.
      destruct (((depth <? pMaxDepth p) || (pMaxDepth p <=? 0)) && (2 * pLeaf p <=? length cases)).
      2:{ apply (follows_bind eq); [apply predict_same; exact HP|]. intros pr ? <-. apply follows_ok. unfold vsame. cbn. repeat (split; auto). }
      eapply follows_bind; [apply splitter_same; [exact Hi|exact HN|exact HP|exact G2|exact G2'|exact G3]|].
      intros b b' (E1 & P1 & P1' & Q1 & Q1' & E4 & E5 & E6 & E7 & E8 & E9 & E10 & Ha & Hc). cbn zeta. rewrite <- E1, <- E4, <- E7, <- E8, <- E9, <- E10.
      destruct (isCNil (bCode b)) eqn:En.
      { apply (follows_bind eq); [apply predict_same; exact (Permutation_trans (Permutation_sym P1) P1')|]. intros pr ? <-. apply follows_ok.
        unfold vsame, gsame. cbn. repeat (split; auto). }
      cbn [gImp gDepth gCans gOob gAl gK]. apply (follows_bind eq); [apply follows_refl|]. intros [imp du] ? <-.
      apply (follows_bind eq); [apply follows_refl|]. intros f ? <-.
      apply (follows_bind eq); [apply follows_refl|]. intros spl ? <-. apply follows_ok. unfold vsame, gsame. cbn. repeat (split; auto).
      destruct Hc as [(_ & Hc)|(_ & Hc)]; auto. }
    intros [v h] [v' h'] (Hh & <- & <- & <- & <- & <- & <- & <- & P1 & P1' & Hc). destruct (isCNil (gvSplit v)) eqn:En; [apply follows_ok; cbn; auto|].
    destruct Hc as [Hc|(f & Nf & Cf)]; [rewrite Hc in En; discriminate|]. rewrite (get_nth _ _ Nf). cbn [bind].
    pose proof Hcols as HC. rewrite Forall_forall in HC. destruct (HC f (nth_error_In _ _ Nf)) as [Fs [Fh _]].
    assert (Iv : incl (gvCases v) all) by (intros c Hin; apply Hi; eapply Permutation_in; [symmetry; exact P1|exact Hin]).
    assert (Hh1 : Forall (has_case f) (gvCases v)) by (rewrite Forall_forall in *; intros c Hin; apply Fh, Iv, Hin).
    destruct (fSplit_same f (gvSplit v) (gvCases v) (gvCases v') Cf Fs Hh1 (Permutation_trans (Permutation_sym P1) P1'))
      as (sp & sp' & _ & _ & -> & -> & Ec & Ec' & S1 & S1' & SL & SM & SR). cbn [bind].
    set (lc := srL sp) in *. set (mc := srM sp) in *. set (rc := srR sp) in *. set (lc' := srL sp') in *. set (mc' := srM sp') in *. set (rc' := srR sp') in *.
    rewrite Ec in S1.
    assert (Inc : forall x, In x (lc ++ mc ++ rc) -> In x all) by (intros x Hx; apply Iv; eapply Permutation_in; [symmetry; exact S1|exact Hx]).
    assert (Len : length (lc ++ mc ++ rc) <= N) by (rewrite <- (Permutation_length S1), <- (Permutation_length P1); exact HN).
    rewrite !app_length in Len.
    assert (IL : incl lc all) by (intros x Hx; apply Inc; rewrite !in_app_iff; auto).
    assert (IM : incl mc all) by (intros x Hx; apply Inc; rewrite !in_app_iff; auto).
    assert (IR : incl rc all) by (intros x Hx; apply Inc; rewrite !in_app_iff; auto).
    assert (Sl : forall lc mc rc : list nat, slice (lc ++ mc ++ rc) 0 (length lc) = Ok lc /\
      slice (lc ++ mc ++ rc) (length lc + length mc) (length (lc ++ mc ++ rc)) = Ok rc /\ slice (lc ++ mc ++ rc) (length lc) (length lc + length mc) = Ok mc).
    { clear. intros lc mc rc. refine (conj _ (conj _ _)).
      - change (lc ++ mc ++ rc) with ([] ++ lc ++ (mc ++ rc)). apply slice_app; cbn; lia.
      - replace (lc ++ mc ++ rc) with ((lc ++ mc) ++ rc ++ []) by (rewrite app_nil_r, app_assoc; auto). apply slice_app; rewrite !app_length; cbn; lia.
      - apply slice_app; lia. }
    destruct (Sl lc mc rc) as (X1 & X2 & X3). destruct (Sl lc' mc' rc') as (Y1 & Y2 & Y3). rewrite X1, Y1. cbn [bind].
    eapply follows_bind; [apply (IH (gvL v) lc lc' (S depth) (gvConsts v) h h'); [exact IL|lia|exact SL|exact Hh]|]. intros [nl hl] [nl' hl'] (TL & GL). cbn [fst snd] in *. subst nl'.
    rewrite X2, Y2. cbn [bind].
    eapply follows_bind; [apply (IH (gvR v) rc rc' (S depth) (gvConsts v) hl hl'); [exact IR|lia|exact SR|exact GL]|]. intros [nr hr] [nr' hr'] (TR & GR). cbn [fst snd] in *. subst nr'.
    apply (follows_bind (fun x x' => fst x = fst x' /\ gsame (snd x) (snd x'))).
    { rewrite <- (Permutation_length SL), <- (Permutation_length SM) in *.
      destruct (negb (length lc =? length lc + length mc) && negb (isNil (gvM v))) eqn:Em; [|apply follows_ok; auto].
      rewrite X3, Y3. cbn [bind]. apply IH; [exact IM|lia|exact SM|exact GR]. }
    intros [nm hm] [nm' hm'] (TM & GM). cbn [fst snd] in *. subst nm'. apply follows_ok. auto.
  Qed.
End Growth.
