(** The loop of FeatureMatrix.BestSplitter: invariants for C35-C37. *)
From Verif Require Import Go GoLemmas F64 F64Order F64Round ModelFeature ModelSplit SplitSpec SplitProofs ModelSample
  ModelSearch SearchSpec SearchProofs GrowSpec TotalSearch ModelGrow.
Local Open Scope nat_scope.
Local Open Scope list_scope.

Arguments bCans {A St K} _. Arguments bCases {A St K} _. Arguments bOob {A St K} _.
Arguments bConsts {A St K} _. Arguments bDrawn {A St K} _. Arguments bLast {A St K} _.
Arguments bFi {A St K} _. Arguments bCode {A St K} _. Arguments bDec {A St K} _.
Arguments bAl {A St K} _. Arguments bK {A St K} _.

(** Facts about lists of cases that do not depend on their order. *)
Lemma perm_filter {B} (g : B -> bool) l l' : Permutation l l' -> Permutation (filter g l) (filter g l').
Proof.
  induction 1; cbn; auto.
  - destruct (g x); auto.
  - destruct (g x), (g y); auto. apply perm_swap.
  - etransitivity; eauto.
Qed.
Lemma present_perm f l l' : Permutation l l' -> Permutation (present f l) (present f l').
Proof. apply perm_filter. Qed.
Lemma searchable_perm f l l' : Permutation l l' -> searchable f l -> searchable f l'.
Proof.
  intros P (Hf & Hc & Hn). split; auto. split; [eapply Permutation_Forall; eauto|].
  destruct f as [g|g]; auto. intros c Hi. apply Hn. eapply Permutation_in; [symmetry; apply present_perm; exact P|exact Hi].
Qed.
Lemma faithful_perm f l l' : Permutation l l' -> faithful f l -> faithful f l'.
Proof.
  intros P H. pose proof (Permutation_sym (present_perm f l l' P)) as Q.
  destruct f as [g|g]; auto. destruct H as [H1 H2]. split.
  - intros c Hi. apply H1. eapply Permutation_in; eauto.
  - intros c d Hi Hd. apply H2; eapply Permutation_in; eauto.
Qed.
Lemma legal_perm f code leaf l l' : Permutation l l' -> legal f code leaf l -> legal f code leaf l'.
Proof.
  intros P [H1 [H2 H3]]. pose proof (present_perm f l l' P) as Q. split; auto. unfold admissible, side, other in *.
  rewrite <- (Permutation_length (perm_filter (coded_left f code) _ _ Q)).
  rewrite <- (Permutation_length (perm_filter (fun c => negb (coded_left f code c)) _ _ Q)). auto.
Qed.

Section Splitter.
  Variable A : arith.
  Variable St : Type.
  Variable T : target A St.
  Variable rnd : nat -> nat.
  Variable K : Type.
  Variable kCopyFrom : K -> K.
  Variable kShuffleCases : (nat -> nat) -> list nat -> K -> res K.
  Variable kTarget : K -> target A St.
  Notation bstate := (bstate A St K).
  Variable p : params.

  (** One pass of the loop. *)
  Definition turnover (parent : A) : nat * bstate -> res (flow (nat * bstate) bstate) :=
    fun '((j, s) : nat * bstate) =>
      if (pForce p && (pTry p <=? j) && (j <=? bDrawn s)) || (j <? pTry p) then
        if length (bCans s) <=? bConsts s then Ok (Done s)
        else
          let* (s, evaluate) := draw_candidate A St rnd K s in
          if evaluate then
            let* s := try_candidate A St T rnd K kShuffleCases kTarget p parent s in
            Ok (Next (S j, s))
          else Ok (Next (S j, s))
      else Ok (Done s).

  (** *** The candidate list, whatever the searches answer *)
  Section Candidates.
    Variable cans0 : list nat.
    Variable nb : nat.
    Let lcans := length cans0.

    Record sorted_out (j : nat) (s : bstate) : Prop := {
      so_perm : Permutation cans0 (bCans s);
      so_tail : forall k, lcans - nb <= k -> nth_error (bCans s) k = nth_error cans0 k;
      so_more : nb <= bConsts s;
      so_room : bLast s + bConsts s <= lcans;
      so_drawn : bDrawn s <= bConsts s;
      so_count : j = bDrawn s + bLast s;
      so_fi : bCode s <> CNil -> In (bFi s) cans0
    }.

    (** Why the loop ended. *)
    Definition finished (s : bstate) : Prop :=
      bConsts s = lcans \/ (pTry p <= bDrawn s + bLast s /\ (pForce p = true -> 1 <= bLast s)).

    (** What a draw does: a known constant is drawn, or one of the candidates not
        evaluated yet is moved to the position [bLast]. *)
    Definition drew (s s' : bstate) (ev : bool) : Prop :=
      bCases s' = bCases s /\ bOob s' = bOob s /\ bConsts s' = bConsts s /\ bLast s' = bLast s /\
      bFi s' = bFi s /\ bCode s' = bCode s /\ bDec s' = bDec s /\ bK s' = bK s /\
      aVals (bAl s') = aVals (bAl s) /\ aCat (bAl s') = aCat (bAl s) /\ aTgt (bAl s') = aTgt (bAl s) /\
      Permutation (bCans s) (bCans s') /\
      (forall k, k < bLast s \/ lcans - bConsts s <= k -> nth_error (bCans s') k = nth_error (bCans s) k) /\
      if ev then bDrawn s' = bDrawn s /\ bLast s < lcans - bConsts s
      else bDrawn s' = S (bDrawn s) /\ bDrawn s < bConsts s.

    Lemma draw_total j s : sorted_out j s -> bConsts s < lcans ->
      bDrawn s + bLast s < lcans ->
      exists s' ev, draw_candidate A St rnd K s = Ok (s', ev) /\ drew s s' ev.
    Proof.
      intros [Hp Ht Hm Hr Hd Hc _] Hlt Hb. pose proof (Permutation_length Hp) as Lc. fold lcans in Lc.
      unfold draw_candidate. rewrite <- Lc.
      replace (bDrawn s + bLast s <? lcans) with true by (symmetry; apply Nat.ltb_lt; auto).
      unfold intn. replace (lcans - bDrawn s - bLast s =? 0) with false by (symmetry; apply Nat.eqb_neq; lia).
      cbn [bind]. set (k := rnd (aDraw (bAl s)) mod (lcans - bDrawn s - bLast s)).
      assert (Hk : k < lcans - bDrawn s - bLast s) by (apply Nat.mod_upper_bound; lia). clearbody k.
      destruct (Nat.leb_spec (lcans - bConsts s) (bLast s + k)) as [H|H].
      - do 2 eexists. split; [reflexivity|]. unfold drew; cbn. do 11 (split; [reflexivity|]).
        split; [reflexivity|]. split; [auto|]. split; [auto|]. lia.
      - destruct (@swapl_ok nat (bCans s) (bLast s + k) (bLast s)) as (c' & E); [lia|lia|].
        rewrite E. cbn [bind]. do 2 eexists. split; [reflexivity|]. unfold drew; cbn [bCases bOob bConsts bLast bFi bCode bDec bK bAl bCans bDrawn aVals aCat aTgt].
        do 11 (split; [reflexivity|]). split; [apply (swapl_perm _ _ _ E)|]. split; [|split; [auto|lia]].
        intros q Hq. rewrite (swapl_nth _ _ _ q E).
        destruct (Nat.eqb_spec q (bLast s + k)); [lia|]. destruct (Nat.eqb_spec q (bLast s)); [lia|auto].
    Qed.

    (** The evaluation, in pieces. *)
    Lemma try_inv parent s s' :
      try_candidate A St T rnd K kShuffleCases kTarget p parent s = Ok s' ->
      exists i f r cans inner,
        get (bCans s) (bLast s) = Ok i /\ get (pData p) i = Ok f /\
        BestSplit A St T rnd f (bCases s) parent (pLeaf p) (pExtra p) (bAl s) = Ok r /\
        (if fConst r then
           swapl (bCans s) (length (bCans s) - S (bConsts s)) (bLast s) = Ok cans /\
           bConsts s' = S (bConsts s) /\ bDrawn s' = S (bDrawn s) /\ bLast s' = bLast s
         else cans = bCans s /\ bConsts s' = bConsts s /\ bDrawn s' = bDrawn s /\ bLast s' = S (bLast s)) /\
        bCans s' = cans /\
        (nltb A (bDec s) inner = true /\ bFi s' = i /\ bCode s' = fCode r /\ bDec s' = inner \/
         nltb A (bDec s) inner = false /\ bFi s' = bFi s /\ bCode s' = bCode s /\ bDec s' = bDec s).
    Proof.
      unfold try_candidate. intros E.
      apply bind_ok in E as (i & Ei & E). apply bind_ok in E as (f & Ef & E). apply bind_ok in E as (r & Er & E).
      apply bind_ok in E as ([[[cans nc] dc] la] & Ec & E).
      apply bind_ok in E as ([[in1 oob1] al1] & _ & E).
      apply bind_ok in E as ([[[[in2 cs2] oob2] al2] k2] & _ & E).
      exists i, f, r, cans, in2. do 3 (split; [assumption|]).
      assert (C : bCans s' = cans /\ bConsts s' = nc /\ bDrawn s' = dc /\ bLast s' = la).
      { destruct (nltb A (bDec s) in2); inversion E; subst s'; cbn; auto. }
      destruct C as (C1 & C2 & C3 & C4).
      split; [|split; [assumption|]].
      - rewrite C2, C3, C4. destruct (fConst r).
        + apply bind_ok in Ec as (c & Es & Ec). inversion Ec; subst. auto.
        + inversion Ec; subst. auto.
      - destruct (nltb A (bDec s) in2); inversion E; subst s'; cbn; auto.
    Qed.

    Lemma try_sorted j s s0 parent : sorted_out j s0 -> drew s0 s true ->
      ifok (try_candidate A St T rnd K kShuffleCases kTarget p parent s) (fun s' => sorted_out (S j) s').
    Proof.
      intros [Hp Ht Hm Hr Hd Hc Hfi] (_ & _ & D1 & D2 & D3 & D4 & _ & _ & _ & _ & _ & Dp & Dn & Dd & Dl) s' E.
      apply try_inv in E as (i & f & r & cans & inner & Ei & Ef & Er & Hk & Ecans & Hb).
      apply get_inv in Ei.
      assert (Hp' : Permutation cans0 (bCans s)) by (etransitivity; eauto).
      assert (Hin : In i cans0).
      { eapply Permutation_in; [symmetry; exact Hp'|]. eapply nth_error_In; eauto. }
      assert (Lc : length (bCans s) = lcans) by (symmetry; apply (Permutation_length Hp')).
      assert (Ht' : forall k, lcans - nb <= k -> nth_error (bCans s) k = nth_error cans0 k).
      { intros k Hk'. rewrite Dn by lia. auto. }
      destruct (fConst r).
      - destruct Hk as (Es & K1 & K2 & K3). constructor; rewrite ?K1, ?K2, ?K3, ?Ecans; try lia.
        + etransitivity; [exact Hp'|]. apply (swapl_perm _ _ _ Es).
        + intros k Hk. rewrite (swapl_nth _ _ _ k Es).
          destruct (Nat.eqb_spec k (length (bCans s) - S (bConsts s))); [lia|].
          destruct (Nat.eqb_spec k (bLast s)); [lia|auto].
        + intros N. destruct Hb as [(_ & -> & _)|(_ & -> & H2 & _)]; auto. rewrite D3. apply Hfi. congruence.
      - destruct Hk as (-> & K1 & K2 & K3). constructor; rewrite ?K1, ?K2, ?K3, ?Ecans; auto; try lia.
        + intros N. destruct Hb as [(_ & -> & _)|(_ & -> & H2 & _)]; auto. rewrite D3. apply Hfi. congruence.
    Qed.

    Lemma drew_sorted j s s' : sorted_out j s -> drew s s' false -> sorted_out (S j) s'.
    Proof.
      intros [Hp Ht Hm Hr Hd Hc Hfi] (_ & _ & D1 & D2 & D3 & D4 & _ & _ & _ & _ & _ & Dp & Dn & Dd & Dl).
      constructor; try lia.
      - etransitivity; eauto.
      - intros k Hk. rewrite Dn by lia. auto.
      - rewrite D3, D4. auto.
    Qed.

    Hypothesis Htry : pTry p <= lcans.

    Lemma goes_on j s : sorted_out j s -> bConsts s < lcans ->
      (pForce p && (pTry p <=? j) && (j <=? bDrawn s)) || (j <? pTry p) = true -> bDrawn s + bLast s < lcans.
    Proof.
      intros [_ _ _ _ Hd Hc _] Hlt G. apply orb_true_iff in G as [G|G].
      - apply andb_true_iff in G as [_ G]. apply Nat.leb_le in G. lia.
      - apply Nat.ltb_lt in G. lia.
    Qed.

    Lemma turnover_sorted parent j s : sorted_out j s ->
      ifok (turnover parent (j, s)) (fun x =>
        match x with
        | Next (j', s') => j' = S j /\ sorted_out j' s'
        | Done s' => sorted_out j s' /\ finished s'
        end).
    Proof.
      intros Hs x E. cbn [turnover] in E. pose proof Hs as [Hp Ht Hm Hr Hd Hc Hfi].
      pose proof (Permutation_length Hp) as Lc. fold lcans in Lc.
      destruct ((pForce p && (pTry p <=? j) && (j <=? bDrawn s)) || (j <? pTry p)) eqn:G.
      - destruct (Nat.leb_spec (length (bCans s)) (bConsts s)) as [L|L].
        { inversion E; subst x. split; auto. left. lia. }
        destruct (draw_total j s Hs) as (s1 & ev & Ed & Dr); [lia|eapply goes_on; eauto; lia|].
        rewrite Ed in E. cbn [bind] in E. destruct ev.
        + apply bind_ok in E as (s2 & E2 & E). inversion E; subst x. split; auto.
          eapply try_sorted; eauto.
        + inversion E; subst x. split; auto. eapply drew_sorted; eauto.
      - inversion E; subst x. split; auto. right. apply orb_false_iff in G as [G1 G2].
        apply Nat.ltb_ge in G2. split; [lia|]. intros F. rewrite F in G1. cbn [andb] in G1.
        replace (pTry p <=? j) with true in G1 by (symmetry; apply Nat.leb_le; auto).
        cbn [andb] in G1. apply Nat.leb_gt in G1. lia.
    Qed.

    Lemma splitter_sorted cases oob al k : nb <= lcans ->
      ifok (BestSplitter A St T rnd K kCopyFrom kShuffleCases kTarget p cases cans0 oob nb al k)
        (fun s => exists j, sorted_out j s).
    Proof.
      intros Hnb s E. unfold BestSplitter in E. apply bind_ok in E as ([parent tg] & _ & E).
      set (s0 := mkBS A St K cans0 cases oob nb 0 0 0 CNil (minImp A) (set_tgt St al tg)
                   (if pVet p then kCopyFrom k else k)) in E.
      assert (S0 : sorted_out 0 s0) by (constructor; cbn; auto; try lia; congruence).
      destruct (nleb A parent (minImp A) && nleb A (nofZ A 0) parent).
      { inversion E; subst s. eauto. }
      pose proof (@loop_partial (nat * bstate) bstate (fun '((j, s) : nat * bstate) => sorted_out j s)
        (fun s => exists j, sorted_out j s) (turnover parent)) as L.
      eapply L; [| |exact E].
      - intros [j s'] Hs x Ex. pose proof (turnover_sorted parent j s' Hs x Ex) as H.
        destruct x as [[j' s2]|s2]; [apply H|]. exists j. apply H.
      - exact S0.
    Qed.
  End Candidates.

  (** *** No panic, and what is found *)
  Variables (ok : nat -> Prop) (ready : St -> Prop) (kok : K -> Prop).
  Hypothesis Dep : dependable T ok ready.
  Hypothesis Hsane : sane A.
  Let Hord : ordered A := proj1 Hsane.

  (** The contrast target of vetting can be copied into, shuffled and searched. *)
  Record vettable : Prop := {
    v_copy : forall k, kok k -> kok (kCopyFrom k);
    v_shuffle : forall draws cs k, Forall ok cs -> kok k -> exists k', kShuffleCases draws cs k = Ok k' /\ kok k';
    v_target : forall k, kok k -> dependable (kTarget k) ok ready
  }.

  (** The result of the search over one feature on the cases of the node, in any order. *)
  Definition evaluated (parent : A) (cases : list nat) (i : nat) (r : found A St) : Prop :=
    exists f cs al, nth_error (pData p) i = Some f /\ Permutation cases cs /\
      roomy al (length cs) /\ ready (aTgt al) /\
      BestSplit A St T rnd f cs parent (pLeaf p) (pExtra p) al = Ok r.

  Section Answers.
    Variables (cans0 : list nat) (nb : nat) (cases oob : list nat) (al0 : allocs St) (parent : A).
    Let lcans := length cans0.
    Hypothesis Htry : pTry p <= lcans.
    Hypothesis Hleaf : 1 <= pLeaf p.
    Hypothesis Hvet : pVet p = true -> vettable.
    Hypothesis Hcases : Forall ok cases.
    Hypothesis Hroom : roomy al0 (length cases).
    Hypothesis Hoob : pEvalOob p = true -> Forall ok oob /\ roomy al0 (length oob).
    Hypothesis Hdata : forall i, In i cans0 -> exists f, nth_error (pData p) i = Some f /\ searchable f cases /\
      (pEvalOob p = true -> searchable f oob).

    Definition chosen (s : bstate) : Prop :=
      (bDec s = least A /\ bCode s = CNil) \/
      (nltb A (least A) (bDec s) = true /\
       exists f, nth_error (pData p) (bFi s) = Some f /\ code_fits f (bCode s) /\
         (faithful f cases -> legal f (bCode s) (pLeaf p) cases)).

    (** Which candidates were evaluated, with which results. *)
    Record best_so_far (s : bstate) : Prop := {
      bs_front : forall k, k < bLast s -> exists i r, nth_error (bCans s) k = Some i /\
        evaluated parent cases i r /\ fConst r = false /\ nltb A (bDec s) (fDec r) = false;
      bs_consts : forall k, lcans - bConsts s <= k -> k < lcans - nb -> exists i r,
        nth_error (bCans s) k = Some i /\
        evaluated parent cases i r /\ fConst r = true /\ nltb A (bDec s) (fDec r) = false;
      bs_best : (bDec s = least A /\ bCode s = CNil) \/
        (nltb A (least A) (bDec s) = true /\ exists k r, k < bLast s /\ nth_error (bCans s) k = Some (bFi s) /\
           evaluated parent cases (bFi s) r /\ fConst r = false /\ bCode s = fCode r /\ bDec s = fDec r)
    }.

    Record fit (s : bstate) : Prop := {
      ft_cases : Permutation cases (bCases s);
      ft_oob : Permutation oob (bOob s);
      ft_al : keeps ready al0 (bAl s);
      ft_k : pVet p = true -> kok (bK s);
      ft_chosen : chosen s;
      ft_best : pVet p = false -> pEvalOob p = false -> best_so_far s
    }.

    Lemma drew_fit j s s' ev : sorted_out cans0 nb j s -> drew cans0 s s' ev -> fit s -> fit s'.
    Proof.
      intros [Hp _ _ Hr _ _ _] (D0 & D00 & D1 & D2 & D3 & D4 & D5 & D6 & A1 & A2 & A3 & Dp & Dn & _) [F1 F2 F3 F4 F5 F6].
      constructor.
      - rewrite D0. auto.
      - rewrite D00. auto.
      - unfold keeps in *. rewrite A1, A2, A3. auto.
      - rewrite D6. auto.
      - unfold chosen in *. rewrite D3, D4, D5. auto.
      - intros V O. destruct (F6 V O) as [B1 B2 B3]. fold lcans in Hr, Dn. constructor; rewrite ?D1, ?D2, ?D3, ?D4, ?D5.
        + intros k Hk. rewrite Dn by lia. auto.
        + intros k H1 H2. rewrite Dn by lia. auto.
        + destruct B3 as [B3|(B3 & k & r & Hk & En & H)]; auto. right. split; auto. exists k, r.
          rewrite Dn by lia. auto.
    Qed.

    Lemma chosen_lb s : chosen s -> bDec s = least A \/ nltb A (least A) (bDec s) = true.
    Proof. intros [[H _]|[H _]]; auto. Qed.

    (** The four steps of an evaluation. *)
    Lemma oob_total f code dec inner oo al : (nltb A (least A) inner = true -> code_fits f code) ->
      (dec = least A \/ nltb A (least A) dec = true) ->
      Permutation oob oo -> (pEvalOob p = true -> searchable f oob) -> keeps ready al0 al ->
      exists inner' oo' al', eval_oob A St T p f code dec inner oo al = Ok (inner', oo', al') /\
        Permutation oob oo' /\ keeps ready al0 al' /\ (pEvalOob p = false -> inner' = inner) /\
        (nltb A dec inner' = true -> nltb A dec inner = true).
    Proof.
      intros Hc Hd Po Hs Hk. unfold eval_oob. destruct (pEvalOob p) eqn:Eo; cbn [andb].
      2:{ do 3 eexists. split; [reflexivity|]. auto. }
      destruct (nltb A dec inner) eqn:L; cbn [andb].
      2:{ do 3 eexists. split; [reflexivity|]. split; [auto|]. split; [auto|]. split; [auto|]. congruence. }
      assert (Cf : code_fits f code) by (apply Hc; eapply (above_least A Hsane); eauto).
      destruct (Hs eq_refl) as (Hf & Hh & _). destruct (Hoob eq_refl) as [Ho Hro].
      assert (Hh' : Forall (has_case f) oo) by (eapply Permutation_Forall; eauto).
      destruct (fSplit_ok f code oo Cf Hf Hh') as (cs & ll & lr & r & _ & -> & [T1 T2 T3 T4 T5] & _).
      cbn [bind].
      assert (Ho' : Forall ok (srCases r)).
      { eapply Permutation_Forall; [exact T2|]. eapply Permutation_Forall; eauto. }
      destruct Hk as (K1 & K2 & K3).
      destruct (d_imp _ _ _ Dep (srCases r) (aTgt al)) as (v & s1 & -> & R1); auto. cbn [bind].
      rewrite T1 in Ho'. rewrite !Forall_app in Ho'. destruct Ho' as (OL & OM & OR).
      destruct (d_split _ _ _ Dep (srL r) (srR r) (Some (srM r)) s1) as (v2 & s2 & -> & R2); auto.
      { intros k' E. inversion E; subst; auto. }
      cbn [bind]. do 3 eexists. split; [reflexivity|]. split; [etransitivity; eauto|].
      split; [repeat split; auto|]. split; [discriminate|auto].
    Qed.

    Lemma vet_total f dec inner cs oo al k : searchable f cases -> (pEvalOob p = true -> searchable f oob) ->
      Permutation cases cs -> Permutation oob oo -> keeps ready al0 al -> (pVet p = true -> kok k) ->
      exists inner' cs' oo' al' k',
        vet_split A St rnd K kShuffleCases kTarget p f parent dec inner cs oo al k = Ok (inner', cs', oo', al', k') /\
        Permutation cases cs' /\ Permutation oob oo' /\ keeps ready al0 al' /\ (pVet p = true -> kok k') /\
        (pVet p = false -> inner' = inner) /\
        (nltb A dec inner' = true -> nltb A dec inner = true).
    Proof.
      intros Hs Hso Pc Po Hk Hkk. unfold vet_split. destruct (pVet p) eqn:Ev; cbn [andb].
      2:{ do 5 eexists. split; [reflexivity|]. do 3 (split; [auto|]). split; [discriminate|]. auto. }
      destruct (nltb A dec inner) eqn:L; cbn [andb].
      2:{ do 5 eexists. split; [reflexivity|]. do 3 (split; [auto|]). split; [auto|]. split; [auto|]. congruence. }
      specialize (Hvet eq_refl). specialize (Hkk eq_refl).
      set (pt := if pEvalOob p then oo else cs).
      assert (Hpt : Forall ok pt /\ searchable f pt /\ roomy al0 (length pt)).
      { unfold pt. destruct (pEvalOob p).
        - destruct (Hoob eq_refl) as [H1 H2]. split; [eapply Permutation_Forall; eauto|].
          split; [eapply searchable_perm; eauto|]. rewrite <- (Permutation_length Po). auto.
        - split; [eapply Permutation_Forall; eauto|].
          split; [eapply searchable_perm; eauto|]. rewrite <- (Permutation_length Pc). auto. }
      destruct Hpt as (O1 & O2 & O3).
      destruct (v_shuffle Hvet (fun j => rnd (aDraw al + j)) pt k O1 Hkk) as (k' & -> & Hk'). cbn [bind].
      destruct Hk as (K1 & K2 & K3).
      destruct (BestSplit_promise A St (kTarget k') ok ready (v_target Hvet k' Hk') Hsane rnd f pt parent (pLeaf p)
        (pExtra p) (mkAl (aVals al) (aCat al) (aTgt al) (aDraw al + length pt))) as (r & -> & Pr & (Q1 & Q2 & Q3) & _); auto.
      { split; cbn; [rewrite K1|rewrite K2]; apply O3. }
      cbn [bind aVals aCat] in *.
      unfold pt in Pr. destruct (pEvalOob p); do 5 eexists; (split; [reflexivity|]).
      - split; auto. split; [etransitivity; eauto|]. split; [split; [congruence|split; [congruence|auto]]|].
        split; auto. split; [discriminate|auto].
      - split; [etransitivity; eauto|]. split; auto. split; [split; [congruence|split; [congruence|auto]]|].
        split; auto. split; [discriminate|auto].
    Qed.

    Lemma try_fit j s0 s : sorted_out cans0 nb j s0 -> drew cans0 s0 s true -> fit s ->
      exists s', try_candidate A St T rnd K kShuffleCases kTarget p parent s = Ok s' /\ fit s'.
    Proof.
      intros [Hp Ht Hm Hr Hd Hc Hfi] (_ & _ & D1 & D2 & _ & _ & _ & _ & _ & _ & _ & Dp & Dn & Dd & Dl) [F1 F2 F3 F4 F5 F6].
      fold lcans in Hr, Dl, Ht, Dn.
      assert (Hp' : Permutation cans0 (bCans s)) by (etransitivity; eauto).
      assert (Lc : length (bCans s) = lcans) by (symmetry; apply (Permutation_length Hp')).
      unfold try_candidate.
      destruct (@get_ok nat (bCans s) (bLast s)) as (i & -> & Ei); [lia|]. cbn [bind].
      assert (Hin : In i cans0).
      { eapply Permutation_in; [symmetry; exact Hp'|]. eapply nth_error_In; eauto. }
      destruct (Hdata i Hin) as (f & Ef & Hs & Hso). rewrite (get_nth _ _ Ef). cbn [bind].
      pose proof F3 as (K1 & K2 & K3).
      destruct (BestSplit_promise A St T ok ready Dep Hsane rnd f (bCases s) parent (pLeaf p) (pExtra p) (bAl s))
        as (r & Er & Pr & (Q1 & Q2 & Q3) & R1 & R2 & R3 & R4); auto.
      { eapply Permutation_Forall; eauto. }
      { eapply searchable_perm; eauto. }
      { rewrite <- (Permutation_length F1). unfold roomy. rewrite K1, K2. exact Hroom. }
      rewrite Er. cbn [bind].
      assert (Ev : evaluated parent cases i r).
      { exists f, (bCases s), (bAl s). split; auto. split; auto. split; auto.
        rewrite <- (Permutation_length F1). unfold roomy. rewrite K1, K2. exact Hroom. }
      assert (Cn : exists cans nc dc la,
        (if fConst r then
           let* cans := swapl (bCans s) (length (bCans s) - S (bConsts s)) (bLast s) in
           Ok (cans, S (bConsts s), S (bDrawn s), bLast s)
         else Ok (bCans s, bConsts s, bDrawn s, S (bLast s))) = Ok (cans, nc, dc, la) /\
        (forall k, k < bLast s -> nth_error cans k = nth_error (bCans s) k) /\
        (forall k, lcans - bConsts s <= k -> nth_error cans k = nth_error (bCans s) k) /\
        if fConst r then nc = S (bConsts s) /\ la = bLast s /\ nth_error cans (lcans - nc) = Some i
        else nc = bConsts s /\ la = S (bLast s) /\ nth_error cans (bLast s) = Some i).
      { destruct (fConst r).
        - cbv zeta. destruct (@swapl_ok nat (bCans s) (length (bCans s) - S (bConsts s)) (bLast s)) as (c & Es); [lia|lia|].
          rewrite Es. cbn [bind]. do 4 eexists. split; [reflexivity|].
          assert (N : forall k, nth_error c k = if k =? length (bCans s) - S (bConsts s) then nth_error (bCans s) (bLast s)
             else if k =? bLast s then nth_error (bCans s) (length (bCans s) - S (bConsts s)) else nth_error (bCans s) k).
          { intros k. apply (swapl_nth _ _ _ k Es). }
          split; [|split; [|split; [reflexivity|split; [reflexivity|]]]].
          + intros k Hk. rewrite N. destruct (Nat.eqb_spec k (length (bCans s) - S (bConsts s))); [lia|].
            destruct (Nat.eqb_spec k (bLast s)); [lia|auto].
          + intros k Hk. rewrite N. destruct (Nat.eqb_spec k (length (bCans s) - S (bConsts s))); [lia|].
            destruct (Nat.eqb_spec k (bLast s)); [lia|auto].
          + rewrite N, Lc, Nat.eqb_refl. exact Ei.
        - do 4 eexists. split; [reflexivity|]. auto. }
      destruct Cn as (cans & nc & dc & la & -> & N1 & N2 & N3). cbn [bind].
      pose proof (chosen_lb s F5) as Lb.
      destruct (oob_total f (fCode r) (bDec s) (fDec r) (bOob s) (fAl r)) as (in1 & oo1 & al1 & -> & P1 & KA1 & I1 & J1); auto.
      { split; [congruence|split; [congruence|auto]]. }
      cbn [bind].
      destruct (vet_total f (bDec s) in1 (fCases r) oo1 al1 (bK s)) as (in2 & cs2 & oo2 & al2 & k2 & -> & P2 & P3 & KA2 & Kk & I2 & J2); auto.
      { etransitivity; eauto. }
      cbn [bind]. eexists. split; [reflexivity|].
      destruct (nltb A (bDec s) in2) eqn:L.
      - assert (L1 : nltb A (bDec s) (fDec r) = true) by auto.
        assert (L0 : nltb A (least A) (fDec r) = true) by (eapply (above_least A Hsane); eauto).
        assert (L2 : nltb A (least A) in2 = true) by (eapply (above_least A Hsane); eauto).
        assert (NC : fConst r = false).
        { destruct (fConst r); auto. rewrite R3 in L0 by auto. discriminate. }
        constructor; cbn [bCases bOob bAl bK bDec bCode bFi bCans bConsts bLast]; auto.
        + right. split; auto. exists f. split; auto. split; auto.
          intros Fa. eapply legal_perm; [symmetry; exact F1|]. apply R2; auto. eapply faithful_perm; eauto.
        + intros V O. destruct (F6 V O) as [B1 B2 B3]. rewrite NC in N3. destruct N3 as (-> & -> & Ni).
          rewrite (I2 V), (I1 O) in *.
          constructor; cbn [bCases bOob bAl bK bDec bCode bFi bCans bConsts bLast].
          * intros k Hk. destruct (Nat.eq_dec k (bLast s)) as [->|Nk].
            { exists i, r. split; auto. split; auto. split; auto. apply (proj1 Hord). }
            destruct (B1 k) as (i' & r' & E1 & E2 & E3 & E4); [lia|]. exists i', r'. rewrite N1 by lia. split; auto. split; auto. split; auto.
            eapply (proj2 Hord); eauto.
          * intros k Hk1 Hk2. destruct (B2 k Hk1 Hk2) as (i' & r' & E1 & E2 & E3 & E4). exists i', r'.
            rewrite N2 by lia. split; auto. split; auto. split; auto. eapply (proj2 Hord); eauto.
          * right. split; auto. exists (bLast s), r. split; [lia|]. auto.
      - constructor; cbn [bCases bOob bAl bK bDec bCode bFi bCans bConsts bLast]; auto.
        + intros V O. destruct (F6 V O) as [B1 B2 B3]. rewrite (I2 V), (I1 O) in *.
          constructor; cbn [bCases bOob bAl bK bDec bCode bFi bCans bConsts bLast].
          * intros k Hk. destruct (fConst r) eqn:Ec; destruct N3 as (-> & -> & Ni).
            { rewrite N1 by lia. auto. }
            destruct (Nat.eq_dec k (bLast s)) as [->|Nk].
            { exists i, r. auto. }
            rewrite N1 by lia. apply B1. lia.
          * intros k Hk1 Hk2. destruct (fConst r) eqn:Ec; destruct N3 as (-> & -> & Ni).
            { destruct (Nat.eq_dec k (lcans - S (bConsts s))) as [->|Nk].
              - exists i, r. auto.
              - rewrite N2 by lia. apply B2; lia. }
            rewrite N2 by lia. auto.
          * destruct B3 as [B3|(B3 & k & r' & Hk & En & H)]; auto. right. split; auto. exists k, r'.
            rewrite N1 by lia. destruct (fConst r); destruct N3 as (-> & -> & Ni); split; auto; lia.
    Qed.

    Lemma turnover_fit j s : sorted_out cans0 nb j s -> fit s ->
      yields (turnover parent (j, s)) (fun x =>
        match x with
        | Next (j', s') => j' = S j /\ sorted_out cans0 nb j' s' /\ fit s' /\ j < pTry p + lcans + 1
        | Done s' => sorted_out cans0 nb j s' /\ finished cans0 s' /\ fit s'
        end).
    Proof.
      intros Hs Hf.
      assert (Y : yields (turnover parent (j, s)) (fun x =>
        match x with Next (_, s') => fit s' /\ j < pTry p + lcans + 1 | Done s' => fit s' end)).
      { pose proof Hs as [Hp _ _ Hr Hd Hc _]. fold lcans in Hr.
        pose proof (Permutation_length Hp) as Lc. fold lcans in Lc.
        unfold turnover.
        destruct ((pForce p && (pTry p <=? j) && (j <=? bDrawn s)) || (j <? pTry p)) eqn:G.
        - destruct (Nat.leb_spec (length (bCans s)) (bConsts s)) as [L|L].
          { apply yields_ok. auto. }
          assert (Go : bDrawn s + bLast s < lcans).
          { eapply (goes_on cans0 nb Htry j s); eauto. fold lcans. lia. }
          destruct (draw_total cans0 nb j s Hs) as (s1 & ev & -> & Dr); [fold lcans; lia|exact Go|].
          cbn [bind]. assert (Hf1 : fit s1) by (eapply drew_fit; eauto).
          destruct ev.
          + destruct (try_fit j s s1 Hs Dr Hf1) as (s2 & -> & Hf2). cbn [bind].
            apply yields_ok. split; auto. lia.
          + apply yields_ok. split; auto. lia.
        - apply yields_ok. auto. }
      destruct Y as (x & E & H). exists x. split; auto.
      pose proof (turnover_sorted cans0 nb Htry parent j s Hs x E) as H'.
      destruct x as [[j' s']|s'].
      - destruct H' as [-> H']. destruct H. auto.
      - destruct H'. auto.
    Qed.

    Lemma loop_fit s : sorted_out cans0 nb 0 s -> fit s ->
      yields (splitter_loop A St T rnd K kShuffleCases kTarget p parent s)
        (fun s' => (exists j, sorted_out cans0 nb j s') /\ finished cans0 s' /\ fit s').
    Proof.
      intros Hs Hf.
      pose proof (Permutation_length (so_perm _ _ _ _ Hs)) as Lc.
      assert (Y : yields (loop (pTry p + length (bCans s) + 2) (turnover parent) (0, s))
        (fun s' => (exists j, sorted_out cans0 nb j s') /\ finished cans0 s' /\ fit s')).
      { apply (@loop_total (nat * bstate) bstate
          (fun '((j, s) : nat * bstate) => sorted_out cans0 nb j s /\ fit s)
          (fun '((j, s) : nat * bstate) => pTry p + lcans + 1 - j)).
        - intros [j s'] [H1 H2]. eapply yields_weaken; [apply turnover_fit; auto|].
          intros [[j' s2]|s2].
          + intros (-> & S1 & F1 & Lt). split; auto. lia.
          + intros (S1 & F1 & F2). split; eauto.
        - auto.
        - rewrite <- Lc. fold lcans. lia. }
      exact Y.
    Qed.
  End Answers.

  (** A search in a node whose impurity is negligible ends at once. *)
  Definition settled (parent : A) : bool := nleb A parent (least A) && nleb A (nofZ A 0) parent.

  Lemma BestSplitter_total cans nb cases oob al k :
    pTry p <= length cans -> nb <= length cans -> 1 <= pLeaf p ->
    (pVet p = true -> vettable /\ kok k) ->
    Forall ok cases -> roomy al (length cases) -> ready (aTgt al) ->
    (pEvalOob p = true -> Forall ok oob /\ roomy al (length oob)) ->
    (forall i, In i cans -> exists f, nth_error (pData p) i = Some f /\ searchable f cases /\
       (pEvalOob p = true -> searchable f oob)) ->
    exists parent tg s, tImp T cases (aTgt al) = Ok (parent, tg) /\
      BestSplitter A St T rnd K kCopyFrom kShuffleCases kTarget p cases cans oob nb al k = Ok s /\
      (exists j, sorted_out cans nb j s) /\ fit cans nb cases oob al parent s /\
      (if settled parent then bCode s = CNil /\ bLast s = 0 /\ bConsts s = nb else finished cans s).
  Proof.
    intros Ht Hnb Hleaf Hv Hok Hroom Hr Hoob Hd.
    destruct (d_imp _ _ _ Dep cases (aTgt al) Hok Hr) as (parent & tg & E & R).
    exists parent, tg. unfold BestSplitter. rewrite E. cbn [bind].
    set (s0 := mkBS A St K cans cases oob nb 0 0 0 CNil (minImp A) (set_tgt St al tg)
                   (if pVet p then kCopyFrom k else k)).
    assert (S0 : sorted_out cans nb 0 s0) by (constructor; cbn; auto; try lia; congruence).
    assert (F0 : fit cans nb cases oob al parent s0).
    { constructor; cbn; auto.
      - repeat split; auto.
      - intros V. rewrite V. destruct (Hv V) as [V1 V2]. apply V1; auto.
      - left. auto.
      - intros _ _. constructor; cbn; auto; intros; lia. }
    change (minImp A) with (least A). fold (settled parent). destruct (settled parent).
    - exists s0. split; auto. split; auto. split; eauto.
    - destruct (loop_fit cans nb cases oob al parent Ht Hleaf) with (s := s0) as (s & Es & H1 & H2 & H3); auto.
      { intros V. apply Hv; auto. }
      exists s. split; auto.
  Qed.
End Splitter.
