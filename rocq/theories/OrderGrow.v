(** Growing trees from two data sets whose numerical columns order the cases alike. *)
From Verif Require Import Go GoLemmas F64 ModelFeature ModelSplit SplitSpec SplitProofs ModelSearch SearchSpec ModelTree TreeSpec ModelGrow CatSearchProofs
  PropByName RowsProofs BlindProofs OrderProofs OrderSearch.
Local Open Scope nat_scope.
Local Open Scope list_scope.

(** ** Trees that differ in their thresholds only *)
Definition code_alike (c c' : coded) : Prop := match c, c' with CNum _, CNum _ => True | _, _ => c = c' end.
Definition nd_alike (d d' : nd) : Prop :=
  dFeat d = dFeat d' /\ dPred d = dPred d' /\ code_alike (dCode d) (dCode d') /\
  match dSpl d, dSpl d' with None, None => True | Some s, Some s' => spl_alike s s' | _, _ => False end.
Fixpoint twins (n n' : node) : Prop :=
  match n, n' with
  | Nil, Nil => True
  | Node d l r m, Node d' l' r' m' => nd_alike d d' /\ twins l l' /\ twins r r' /\ twins m m'
  | _, _ => False
  end.

Lemma cuts_code f f' cs c c' : cuts_alike f f' cs c c' -> code_alike c c'.
Proof. intros [[-> ->]|H]; [reflexivity|]. destruct f, f'; try contradiction; [|destruct H as [-> _]; destruct c'; reflexivity]. destruct c, c'; try contradiction. exact I. Qed.
Lemma cuts_turn f f' cs c c' i : order_alike cs f f' -> cuts_alike f f' cs c c' -> In i cs ->
  fmissing f i = fmissing f' i /\ (fmissing f i = false -> coded_left f c i = coded_left f' c' i).
Proof.
  intros Ho Hc Hi. destruct f as [f|f], f' as [f'|f']; try contradiction; cbn [order_alike] in Ho.
  2:{ subst f'. split; [reflexivity|]. intros _. destruct Hc as [[-> ->]|[-> _]]; reflexivity. }
  destruct Ho as ((_ & H1 & H2) & _). split; [cbn; unfold nmissing; rewrite H2; reflexivity|]. intros Em.
  destruct Hc as [[-> ->]|H]; [reflexivity|]. destruct c, c'; try contradiction. cbn. apply (H i). apply filter_In. split; [exact Hi|].
  unfold known. cbn in Em. unfold nmissing in Em. rewrite Em. rewrite andb_false_r. reflexivity.
Qed.
Lemma turn_coded fm d c f : isCNil (dCode d) = false -> nth_error (fmData fm) (dFeat d) = Some f ->
  turn fm d c = Some (if fmissing f c then DM else if coded_left f (dCode d) c then DL else DR).
Proof.
  intros Hc Hf. unfold turn, test_of. assert (column fm (dFeat d) = f) as ->.
  { unfold column. apply nth_error_nth. exact Hf. }
  destruct (dCode d); [reflexivity..|discriminate].
Qed.
Lemma F2_at {B C} (R : B -> C -> Prop) l l' i x : Forall2 R l l' -> nth_error l i = Some x -> exists x', nth_error l' i = Some x' /\ R x x'.
Proof. intros H. revert i. induction H as [|a b l l' Hab H IH]; intros [|i] E; cbn in *; try discriminate; [injection E as ->; eauto|auto]. Qed.

Section Growth.
  Variable A : arith.
  Variable St : Type.
  Variable T : target A St.
  Variable predict : list nat -> res string.
  Variable rnd : nat -> nat.
  Variable K : Type.
  Variable kCopyFrom : K -> K.
  Variable kShuffleCases : (nat -> nat) -> list nat -> K -> res K.
  Variable kTarget : K -> target A St.
  Variables p p' : params.
  Variable N : nat.
  Variable all : list nat.
  Hypothesis Hord : ordered A.
  Hypothesis Hp : same_params p p'.
  Hypothesis Hoob : pEvalOob p = false.
  Hypothesis Hleaf : 1 <= pLeaf p.
  Hypothesis Hdata : Forall2 (order_alike all) (pData p) (pData p').
  Hypothesis Hcols : Forall (fun f => flag_sound f /\ Forall (has_case f) all) (pData p).

  Definition chosen (cases : list nat) (fi : nat) (c c' : coded) : Prop :=
    exists f f', nth_error (pData p) fi = Some f /\ nth_error (pData p') fi = Some f' /\ cuts_alike f f' cases c c'.
  Definition brel (cases : list nat) (s s' : bstate A St K) : Prop :=
    bCans s = bCans s' /\ bCases s = bCases s' /\ bOob s = bOob s' /\ bConsts s = bConsts s' /\ bDrawn s = bDrawn s' /\ bLast s = bLast s' /\
    bFi s = bFi s' /\ bDec s = bDec s' /\ bK s = bK s' /\ alrel St N (bAl s) (bAl s') /\ Permutation cases (bCases s) /\
    ((bDec s = minImp A /\ bCode s = CNil /\ bCode s' = CNil) \/ (nltb A (minImp A) (bDec s) = true /\ chosen cases (bFi s) (bCode s) (bCode s'))).

  Lemma draw_follows cases s s' : brel cases s s' ->
    follows (fun x x' => brel cases (fst x) (fst x') /\ snd x = snd x') (draw_candidate A St rnd K s) (draw_candidate A St rnd K s').
  Proof.
    intros Hb. pose proof Hb as (E1 & E2 & E3 & E4 & E5 & E6 & E7 & E8 & E9 & (L1 & L2 & Ec & Et & Ed) & P & Hc). unfold draw_candidate. rewrite <- E1, <- E4, <- E5, <- E6, <- Ed.
    destruct (bDrawn s + bLast s <? length (bCans s)).
    - apply (follows_bind eq); [apply follows_refl|]. intros k ? <-. destruct (length (bCans s) - bConsts s <=? bLast s + k).
      + apply follows_ok. split; [|reflexivity]. unfold brel, alrel. cbn. rewrite <- Ec, <- Et, E3. repeat (split; auto).
      + apply (follows_bind eq); [apply follows_refl|]. intros cans ? <-. apply follows_ok. split; [|reflexivity].
        unfold brel, alrel. cbn. rewrite <- Ec, <- Et, E3. repeat (split; auto).
    - apply follows_ok. split; [exact Hb|reflexivity].
  Qed.

  Lemma try_follows cases parent s s' : incl cases all -> length cases <= N -> brel cases s s' ->
    follows (brel cases) (try_candidate A St T rnd K kShuffleCases kTarget p parent s) (try_candidate A St T rnd K kShuffleCases kTarget p' parent s').
  Proof.
    intros Hi HN Hb. pose proof Hb as (E1 & E2 & E3 & E4 & E5 & E6 & E7 & E8 & E9 & Ha & P & Hc).
    pose proof Hp as (P1 & P2 & P3 & P4 & P5 & P6 & P7 & P8).
    unfold try_candidate. rewrite <- E1, <- E2, <- E3, <- E4, <- E5, <- E6, <- E7, <- E8, <- E9, <- P2, <- P6.
    apply (follows_bind eq); [apply follows_refl|]. intros i ? <-.
    apply (follows_bind (fun f f' => nth_error (pData p) i = Some f /\ nth_error (pData p') i = Some f' /\ order_alike all f f')).
    { intros f E. apply get_inv in E. destruct (F2_at _ _ _ _ _ Hdata E) as (f' & E' & Hf). exists f'. split; [apply get_nth; exact E'|auto]. }
    intros f f' (Nf & Nf' & Ho).
    assert (Ib : incl (bCases s) all) by (intros c Hin; apply Hi; eapply Permutation_in; [apply Permutation_sym; exact P|exact Hin]).
    assert (Lb : length (bCases s) <= N) by (rewrite <- (Permutation_length P); exact HN).
    pose proof (order_alike_incl _ _ _ _ Ib Ho) as Hob.
    assert (HB : forall T0 al al' , alrel St N al al' -> forall cs, Permutation (bCases s) cs -> 
      follows (fun r r' => frel A St N (cuts_alike f f' (bCases s)) r r' /\ Permutation cs (fCases r))
        (BestSplit A St T0 rnd f cs parent (pLeaf p) (pExtra p) al) (BestSplit A St T0 rnd f' cs parent (pLeaf p) (pExtra p) al')).
    { intros T0 al al' Hal cs Pc. intros r E.
      assert (Hoc : order_alike cs f f') by (eapply order_alike_incl; [|exact Hob]; intros c Hin; eapply Permutation_in; [apply Permutation_sym; exact Pc|exact Hin]).
      assert (Lc : length cs <= N) by (rewrite <- (Permutation_length Pc); exact Lb).
      destruct (BestSplit_follows A St T0 rnd Hord N f f' cs parent (pLeaf p) (pExtra p) al al' Hleaf Lc Hoc Hal r E) as (r' & E' & Hr).
      exists r'. split; [exact E'|]. split.
      - destruct Hr as (R1 & R2 & R3 & R4 & R5). refine (conj R1 (conj R2 (conj R3 (conj R4 _)))). intros Hlt. eapply cuts_incl; [|apply R5; exact Hlt].
        intros c Hin. eapply Permutation_in; [exact Pc|exact Hin].
      - eapply BestSplit_perm; [|destruct Hal as (L & _); etransitivity; [exact Lc|exact L]|exact E].
        destruct f as [f|f]; [|exact I]. destruct f' as [f'|f']; [|contradiction]. apply Hoc. }
    eapply follows_bind; [apply (HB T _ _ Ha (bCases s)); apply Permutation_refl|]. intros r r' ((R1 & R2 & R3 & R4 & R5) & Pr).
    rewrite <- R1, <- R2, <- R3. apply (follows_bind eq); [apply follows_refl|]. intros [[[cans nc] dc] last] ? <-.
    unfold eval_oob. rewrite <- P5, Hoob. cbn [andb bind].
    apply (follows_bind (fun x x' => let '(inner, cs, oob, al, k) := x in let '(inner', cs', oob', al', k') := x' in
       inner = inner' /\ cs = cs' /\ oob = oob' /\ alrel St N al al' /\ k = k' /\ Permutation (bCases s) cs /\
       (nltb A (bDec s) inner = true -> nltb A (bDec s) (fDec r) = true))).
    { unfold vet_split. rewrite <- P4, <- P5, <- P2, <- P6, Hoob. destruct (pVet p && nltb A (bDec s) (fDec r)) eqn:Ev.
      - apply andb_true_iff in Ev as [_ Ev]. pose proof R4 as (L1 & L2 & Ec & Et & Ed). rewrite <- Ec, <- Et, <- Ed.
        apply (follows_bind eq); [apply follows_refl|]. intros k ? <-.
        eapply follows_bind; [apply (HB (kTarget k)); [|exact Pr]; unfold alrel; cbn; auto|]. intros q q' ((Q1 & Q2 & Q3 & Q4 & Q5) & Pq).
        apply follows_ok. rewrite Q1, Q3. rewrite Q3 in Pq. repeat (split; auto). etransitivity; [exact Pr|exact Pq].
      - apply follows_ok. repeat (split; auto). }
    intros [[[[inner cs] oob] al] k] [[[[inner' cs'] oob'] al'] k'] (<- & <- & <- & Hal & <- & Pcs & Hin).
    assert (Pc : Permutation cases cs) by (etransitivity; [exact P|exact Pcs]).
    apply follows_ok. destruct (nltb A (bDec s) inner) eqn:El.
    - unfold brel. cbn. repeat (split; auto). right.
      assert (Hlt : forall x, nltb A (bDec s) x = true -> nltb A (minImp A) x = true).
      { intros x Hx. destruct Hc as [(Hd & _)|(Hc & _)]; [rewrite Hd in Hx; exact Hx|]. eapply ordered_trans; [exact Hord|exact Hc|exact Hx]. }
      split; [apply Hlt; exact El|]. exists f, f'. repeat (split; auto). eapply cuts_incl; [|apply R5; apply Hlt; apply Hin; reflexivity].
      intros c Hcc. eapply Permutation_in; [exact P|exact Hcc].
    - unfold brel. cbn. repeat (split; auto).
  Qed.

  Lemma splitter_follows cases cans oob nb al al' k : incl cases all -> length cases <= N -> alrel St N al al' ->
    follows (brel cases) (BestSplitter A St T rnd K kCopyFrom kShuffleCases kTarget p cases cans oob nb al k)
      (BestSplitter A St T rnd K kCopyFrom kShuffleCases kTarget p' cases cans oob nb al' k).
  Proof.
    intros Hi HN Ha. pose proof Hp as (P1 & P2 & P3 & P4 & P5 & P6 & P7 & P8). pose proof Ha as (L1 & L2 & Ec & Et & Ed).
    unfold BestSplitter. rewrite <- P4, <- Et. apply (follows_bind eq); [apply follows_refl|]. intros [pimp tg] ? <-.
    assert (B0 : forall k, brel cases (mkBS A St K cans cases oob nb 0 0 0 CNil (minImp A) (set_tgt St al tg) k)
                         (mkBS A St K cans cases oob nb 0 0 0 CNil (minImp A) (set_tgt St al' tg) k)).
    { intros k0. unfold brel, alrel, set_tgt. cbn. repeat (split; auto). }
    destruct (nleb A pimp (minImp A) && nleb A (nofZ A 0) pimp); [apply follows_ok; apply B0|].
    unfold splitter_loop. rewrite <- P1, <- P3. cbn [bCans].
    apply (follows_loop (fun x x' : nat * bstate A St K => fst x = fst x' /\ brel cases (snd x) (snd x')) (brel cases)); [split; [reflexivity|apply B0]|].
    intros [j s] [j' s'] [Ej Hb]. cbn [fst snd] in *. subst j'. pose proof Hb as (E1 & _ & _ & E4 & E5 & _). rewrite <- E1, <- E4, <- E5.
    destruct ((pForce p && (pTry p <=? j) && (j <=? bDrawn s)) || (j <? pTry p)); [|apply follows_ok; exact Hb].
    destruct (length (bCans s) <=? bConsts s); [apply follows_ok; exact Hb|].
    eapply follows_bind; [apply draw_follows; exact Hb|]. intros [s1 e] [s1' e'] [H1 He]. cbn [fst snd] in *. subst e'. destruct e.
    - eapply follows_bind; [apply try_follows; [exact Hi|exact HN|exact H1]|]. intros s2 s2' H2. apply follows_ok. split; auto.
    - apply follows_ok. split; auto.
  Qed.

  Definition grel (g g' : gstate A St K) : Prop :=
    gCans g = gCans g' /\ gOob g = gOob g' /\ alrel St N (gAl g) (gAl g') /\ gK g = gK g' /\ gImp g = gImp g' /\ gDepth g = gDepth g'.
  Notation grow q := (grow_node A St T predict rnd K kCopyFrom kShuffleCases kTarget q).
  Variables fm fm' : fmatrix.
  Hypothesis Hfm : fmData fm = pData p.
  Hypothesis Hfm' : fmData fm' = pData p'.
  Definition tree_rel (cases : list nat) (x x' : node * gstate A St K) : Prop :=
    twins (fst x) (fst x') /\ grel (snd x) (snd x') /\ forall c, In c cases -> follow fm (fst x) c = follow fm' (fst x') c.

  (** What the closure of Grow did in both: a leaf, or splits of the same column that cut alike. *)
  Definition vrel (cases : list nat) (x x' : visited * gstate A St K) : Prop :=
    let '(v, g) := x in let '(v', g') := x' in
    grel g g' /\
    ((gvSplit v = CNil /\ gvSplit v' = CNil /\ exists pr, 
      (gvD v, gvL v, gvR v, gvM v) = (mkNd CNil 0 pr None, Nil, Nil, Nil) /\ (gvD v', gvL v', gvR v', gvM v') = (mkNd CNil 0 pr None, Nil, Nil, Nil)) \/
     (exists f f' spl spl', nth_error (pData p) (gvFi v) = Some f /\ nth_error (pData p') (gvFi v) = Some f' /\
        cuts_alike f f' cases (gvSplit v) (gvSplit v') /\ isCNil (gvSplit v) = false /\ isCNil (gvSplit v') = false /\
        spl_alike spl spl' /\ gvFi v = gvFi v' /\ gvConsts v = gvConsts v' /\ gvCases v = gvCases v' /\ Permutation cases (gvCases v) /\
        (gvD v, gvL v, gvR v, gvM v) = (mkNd (gvSplit v) (gvFi v) EmptyString (Some spl), newNode, newNode, if pSplitMissing p then newNode else Nil) /\
        (gvD v', gvL v', gvR v', gvM v') = (mkNd (gvSplit v') (gvFi v) EmptyString (Some spl'), newNode, newNode, if pSplitMissing p then newNode else Nil))).

  Lemma grow_follows fuel fuel' : fuel = fuel' -> forall cases depth nb g g', incl cases all -> length cases <= N -> grel g g' ->
    follows (tree_rel cases) (grow fuel p newNode cases depth nb g) (grow fuel' p' newNode cases depth nb g').
  Proof.
    intros <-. induction fuel as [|fuel IH]; intros cases depth nb g g' Hi HN Hg; [intros x E; discriminate|].
    pose proof Hp as (P1 & P2 & P3 & P4 & P5 & P6 & P7 & P8). pose proof Hg as (G1 & G2 & G3 & G4 & G5 & G6).
    cbn [grow_node newNode].
    apply (follows_bind (vrel cases)).
    { unfold grow_visit. rewrite <- P7, <- P2, <- P8, <- G1, <- G2, <- G4, <- G5, <- G6. cbn [dFeat isNil orb].
      destruct (((depth <? pMaxDepth p) || (pMaxDepth p <=? 0)) && (2 * pLeaf p <=? length cases)).
      2:{ apply (follows_bind eq); [apply follows_refl|]. intros pr ? <-. apply follows_ok. split; [exact Hg|]. left. cbn. eauto. }
      eapply follows_bind; [apply splitter_follows; [exact Hi|exact HN|exact G3]|].
      intros b b' (E1 & E2 & E3 & E4 & E5 & E6 & E7 & E8 & E9 & Ha & P & Hc). cbn zeta. rewrite <- E1, <- E2, <- E3, <- E4, <- E7, <- E8, <- E9.
      assert (Hn : isCNil (bCode b) = isCNil (bCode b')).
      { destruct Hc as [(_ & -> & ->)|(_ & f & f' & _ & _ & Hc)]; [reflexivity|]. eapply cuts_nil; exact Hc. }
      rewrite <- Hn. destruct (isCNil (bCode b)) eqn:En.
      { apply (follows_bind eq); [apply follows_refl|]. intros pr ? <-. apply follows_ok. split; [unfold grel; cbn; auto 10|]. left. cbn. eauto. }
      cbn [gImp gDepth gCans gOob gAl gK]. apply (follows_bind eq); [apply follows_refl|]. intros [imp du] ? <-.
      destruct Hc as [(_ & Hc & _)|(_ & f & f' & Nf & Nf' & Hc)]; [rewrite Hc in En; discriminate|].
      rewrite (get_nth _ _ Nf), (get_nth _ _ Nf'). cbn [bind].
      assert (Ho : order_alike cases f f').
      { destruct (F2_at _ _ _ _ _ Hdata Nf) as (f2 & E & H). rewrite Nf' in E. injection E as <-. eapply order_alike_incl; [exact Hi|exact H]. }
      eapply follows_bind; [eapply cuts_decode; [exact Ho|exact Hc]|]. intros spl spl' Hs. apply follows_ok. split; [unfold grel; cbn; auto 10|]. right.
      cbn. exists f, f', spl, spl'. repeat (split; auto). }
    intros [v h] [v' h'] [Hh [(-> & -> & pr & D & D')|(f & f' & spl & spl' & Nf & Nf' & Hc & En & En' & Hs & <- & <- & <- & P & D & D')]].
    { injection D as -> -> -> ->. injection D' as -> -> -> ->. cbn. apply follows_ok. split; [|split; [exact Hh|reflexivity]]. cbn. unfold nd_alike. cbn. auto. }
    rewrite En, En', (get_nth _ _ Nf), (get_nth _ _ Nf'). cbn [bind].
    assert (Ho : order_alike cases f f').
    { destruct (F2_at _ _ _ _ _ Hdata Nf) as (f2 & E & H). rewrite Nf' in E. injection E as <-. eapply order_alike_incl; [exact Hi|exact H]. }
    assert (Iv : incl (gvCases v) cases) by (intros c Hin; eapply Permutation_in; [apply Permutation_sym; exact P|exact Hin]).
    rewrite <- (cuts_points f f' (gvCases v) (gvSplit v) (gvSplit v')); [|eapply order_alike_incl; [exact Iv|exact Ho]|eapply cuts_incl; [exact Iv|exact Hc]|exact En].
    assert (Hf : flag_sound f /\ Forall (has_case f) (gvCases v)).
    { rewrite Forall_forall in Hcols. destruct (Hcols f (nth_error_In _ _ Nf)) as [F1 F2]. split; [exact F1|]. rewrite Forall_forall in *. intros c Hin. apply F2, Hi, Iv, Hin. }
    destruct Hf as [F1 F2]. pose proof (cuts_fits _ _ _ _ _ Hc En) as Cf.
    destruct (fSplit_ok f (gvSplit v) (gvCases v) Cf F1 F2) as (cs & ll & lr & r & -> & _ & [T1 T2 T3 T4 T5] & Ec0 & El0 & Er0). subst cs ll lr. cbn [bind]. rewrite T1.
    rewrite T1 in T2.
    set (lc := srL r) in *. set (mc := srM r) in *. set (rc := srR r) in *.
    assert (Ev : forall c, In c cases -> In c (gvCases v)) by (intros c Hin; eapply Permutation_in; [exact P|exact Hin]).
    assert (Inc : forall x, In x (lc ++ mc ++ rc) -> In x cases) by (intros x Hx; apply Iv; eapply Permutation_in; [apply Permutation_sym; exact T2|exact Hx]).
    assert (Len : length (lc ++ mc ++ rc) <= N) by (rewrite <- (Permutation_length T2), <- (Permutation_length P); exact HN).
    rewrite !app_length in Len.
    assert (IL : incl lc all) by (intros x Hx; apply Hi, Inc; rewrite !in_app_iff; auto).
    assert (IM : incl mc all) by (intros x Hx; apply Hi, Inc; rewrite !in_app_iff; auto).
    assert (IR : incl rc all) by (intros x Hx; apply Hi, Inc; rewrite !in_app_iff; auto).
    injection D as -> -> -> ->. injection D' as -> -> -> ->.
    assert (S1 : slice (lc ++ mc ++ rc) 0 (length lc) = Ok lc).
    { change (lc ++ mc ++ rc) with ([] ++ lc ++ (mc ++ rc)). apply slice_app; cbn; lia. }
    assert (S2 : slice (lc ++ mc ++ rc) (length lc + length mc) (length (lc ++ mc ++ rc)) = Ok rc).
    { replace (lc ++ mc ++ rc) with ((lc ++ mc) ++ rc ++ []) by (rewrite app_nil_r, app_assoc; auto). apply slice_app; rewrite !app_length; cbn; lia. }
    assert (S3 : slice (lc ++ mc ++ rc) (length lc) (length lc + length mc) = Ok mc) by (apply slice_app; lia).
    rewrite S1, S2. cbn [bind].
    eapply follows_bind; [apply (IH lc (S depth) (gvConsts v) h h'); [exact IL|lia|exact Hh]|]. intros [nl hl] [nl' hl'] (TL & GL & FL). cbn [fst snd] in *.
    eapply follows_bind; [apply (IH rc (S depth) (gvConsts v) hl hl'); [exact IR|lia|exact GL]|]. intros [nr hr] [nr' hr'] (TR & GR & FR). cbn [fst snd] in *.
    apply (follows_bind (fun x x' => twins (fst x) (fst x') /\ grel (snd x) (snd x') /\ forall c, In c mc -> follow fm (fst x) c = follow fm' (fst x') c)).
    { destruct (negb (length lc =? length lc + length mc) && negb (isNil (if pSplitMissing p then newNode else Nil))) eqn:Em.
      - apply andb_true_iff in Em as [_ Em]. rewrite S3. cbn [bind]. destruct (pSplitMissing p); [|discriminate]. apply IH; [exact IM|lia|exact GR].
      - apply follows_ok. cbn [fst snd]. split; [|split; [exact GR|]].
        + destruct (pSplitMissing p); [|exact I]. cbn. unfold nd_alike. cbn. auto.
        + intros c _. destruct (pSplitMissing p); reflexivity. }
    intros [nm hm] [nm' hm'] (TM & GM & FM). cbn [fst snd] in *. apply follows_ok. split; [|split; [exact GM|]].
    - cbn [fst twins]. split; [|auto]. unfold nd_alike. cbn. split; [reflexivity|]. split; [reflexivity|]. split; [eapply cuts_code; exact Hc|exact Hs].
    - intros c Hin. cbn [fst follow]. rewrite (turn_coded fm _ c f), (turn_coded fm' _ c f'); cbn [dCode dFeat]; auto; [|rewrite Hfm'; exact Nf'|rewrite Hfm; exact Nf].
      destruct (cuts_turn _ _ _ _ _ c Ho Hc Hin) as [U1 U2]. rewrite <- U1. apply Ev in Hin. destruct (fmissing f c) eqn:Ef.
      + rewrite FM; [reflexivity|]. eapply Permutation_in; [apply Permutation_sym; exact T4|]. apply filter_In. auto.
      + rewrite <- U2 by reflexivity. destruct (coded_left f (gvSplit v) c) eqn:El.
        * rewrite FL; [reflexivity|]. eapply Permutation_in; [apply Permutation_sym; exact T3|]. apply filter_In. rewrite Ef, El. auto.
        * rewrite FR; [reflexivity|]. eapply Permutation_in; [apply Permutation_sym; exact T5|]. apply filter_In. rewrite Ef, El. auto.
  Qed.
End Growth.
