(** C145: what growforest is told not to use has no influence on the forest. *)
From Verif Require Import Go GoLemmas F64 ModelFeature ModelSample ModelImpurity ModelSplit ModelSearch ModelTargets ModelBallot ModelTree ModelGrow ModelJungle ModelJungleUsed
  ModelText ModelMatrix MatrixSpec ModelCommands ModelList FeatureSpec SplitterProofs GrowProofs RowsProofs PropByName PropRows PropMatrix PropCommands PropList PropOrderless PropApplied PropLockstep PropLeftover.
From Verif Require PropSearch PropCatSearch.
Local Open Scope string_scope.
Local Open Scope nat_scope.
Local Open Scope list_scope.

(** ** C145.  The claim in full: the features that are not candidates (the target, the ones of the
    -blacklist file, the ones -blockRE or -includeRE takes out) appear in no split of any tree a
    goroutine of growforest grows; they get no importance and no depth; their values have no
    influence on the trees, the importances, the depths or the random draws; and what the trees
    answer for other data does not depend on these columns. *)

(** A node that is a leaf, or that splits on a candidate and names it. *)
Definition allowed (data : list feature) (cans : list nat) (d : nd) : Prop :=
  (dCode d = CNil /\ dSpl d = None) \/
  (isCNil (dCode d) = false /\ In (dFeat d) cans /\
   exists f s, nth_error data (dFeat d) = Some f /\ dSpl d = Some s /\ sFeature s = fName f).
(** The importance and the depth of a feature are what they were. *)
Definition nothing_booked {A : arith} {St K : Type} (i : nat) (g g' : gstate A St K) : Prop :=
  option_map (fun l => nth_error l i) (gImp g') = option_map (fun l => nth_error l i) (gImp g) /\
  option_map (fun l => nth_error l i) (gDepth g') = option_map (fun l => nth_error l i) (gDepth g).

Lemma decoded_name f c s : fDecodeSplit f c = Ok s -> sFeature s = fName f.
Proof. destruct f; cbn; [unfold nDecodeSplit; destruct c; try discriminate|]; intros H; inversion H; reflexivity. Qed.
Lemma nothing_refl {A St K} i (g : gstate A St K) : nothing_booked i g g.
Proof. split; reflexivity. Qed.
Lemma nothing_trans {A St K} i (a b c : gstate A St K) : nothing_booked i a b -> nothing_booked i b c -> nothing_booked i a c.
Proof. unfold nothing_booked. intuition congruence. Qed.
Lemma book_other (A : arith) fi depth dec imp du imp' du' i : i <> fi -> book A fi depth dec imp du = Ok (imp', du') ->
  option_map (fun l => nth_error l i) imp' = option_map (fun l => nth_error l i) imp /\
  option_map (fun l => nth_error l i) du' = option_map (fun l => nth_error l i) du.
Proof.
  intros Hi H. unfold book in H. apply bind_ok in H as (im & E1 & H). apply bind_ok in H as (d & E2 & H). inversion H; subst. clear H. split.
  - destruct imp as [l|]; [|inversion E1; reflexivity]. apply bind_ok in E1 as (rm & _ & E1). apply bind_ok in E1 as (l' & Es & E1). inversion E1; subst.
    apply set_inv in Es as [_ ->]. cbn. f_equal. apply nth_error_upd_neq, Hi.
  - destruct du as [l|]; [|inversion E2; reflexivity]. apply bind_ok in E2 as (x & _ & E2). destruct ((x =? 0) || (depth <? x)); [|inversion E2; reflexivity].
    apply bind_ok in E2 as (l' & Es & E2). inversion E2; subst. apply set_inv in Es as [_ ->]. cbn. f_equal. apply nth_error_upd_neq, Hi.
Qed.

Section Leak.
  Variable A : arith.
  Variable St : Type.
  Variable T : target A St.
  Variable predict : list nat -> res string.
  Variable rnd : nat -> nat.
  Variable K : Type.
  Variable kCopyFrom : K -> K.
  Variable kShuffleCases : (nat -> nat) -> list nat -> K -> res K.
  Variable kTarget : K -> target A St.
  Variables (data data' : list feature) (pt pl : nat) (pf pv pe px : bool) (pd : nat) (pm : bool).
  Variable cans : list nat.
  Let p := mkP data pt pl pf pv pe px pd pm.
  Let p' := mkP data' pt pl pf pv pe px pd pm.
  Hypothesis Hdata : forall i, In i cans -> nth_error data i = nth_error data' i.

  Lemma same_get i : In i cans -> get data i = get data' i.
  Proof. intros H. unfold get. rewrite (Hdata i H). reflexivity. Qed.
  Lemma try_same imp s : from_cans A St K cans s ->
    try_candidate A St T rnd K kShuffleCases kTarget p imp s = try_candidate A St T rnd K kShuffleCases kTarget p' imp s.
  Proof.
    intros [H1 _]. unfold try_candidate. apply bind_ext; intros i Ei. apply get_inv, nth_error_In in Ei.
    apply (Permutation_in _ (Permutation_sym H1)) in Ei. cbn [pData p p']. rewrite (same_get i Ei). reflexivity.
  Qed.
  Lemma splitter_same imp s : from_cans A St K cans s ->
    splitter_loop A St T rnd K kShuffleCases kTarget p imp s = splitter_loop A St T rnd K kShuffleCases kTarget p' imp s.
  Proof.
    intros Hs. unfold splitter_loop. cbn [pTry pForce p p'].
    apply (loop_ext (fun x : nat * bstate A St K => from_cans A St K cans (snd x))); [| |exact Hs]; clear s Hs.
    - intros [j s] Hs. cbn [snd] in Hs. destruct (pf && (pt <=? j) && (j <=? bDrawn s) || (j <? pt)); auto.
      destruct (length (bCans s) <=? bConsts s); auto. apply bind_ext. intros [s1 e] Ed. apply (draw_cans _ _ _ _ _ s Hs) in Ed. cbn [fst] in Ed.
      destruct e; auto. rewrite (try_same imp s1 Ed). reflexivity.
    - intros [j s] [j2 s2] Hs. cbn [snd] in *. destruct (pf && (pt <=? j) && (j <=? bDrawn s) || (j <? pt)); [|discriminate].
      destruct (length (bCans s) <=? bConsts s); [discriminate|]. intros Hx.
      apply bind_ok in Hx as ([s1 e] & Ed & Hx). apply (draw_cans _ _ _ _ _ s Hs) in Ed. cbn [fst] in Ed.
      destruct e; [|inversion Hx; subst; exact Ed]. apply bind_ok in Hx as (s3 & Et & Hx). apply (try_cans _ _ _ _ _ _ _ _ _ imp s1 Ed) in Et. inversion Hx; subst. exact Et.
  Qed.
  Lemma best_same cases cs oob ncb al k : Permutation cans cs ->
    BestSplitter A St T rnd K kCopyFrom kShuffleCases kTarget p cases cs oob ncb al k =
    BestSplitter A St T rnd K kCopyFrom kShuffleCases kTarget p' cases cs oob ncb al k.
  Proof.
    intros HP. unfold BestSplitter. cbn [pVet p p']. apply bind_ext. intros [imp tg] _.
    destruct (nleb A imp (minImp A) && nleb A (nofZ A 0) imp); auto. apply splitter_same. split; cbn; auto.
  Qed.

  Lemma visit_same d l r m cases depth ncb g : Permutation cans (gCans g) ->
    grow_visit A St T predict rnd K kCopyFrom kShuffleCases kTarget p d l r m cases depth ncb g =
    grow_visit A St T predict rnd K kCopyFrom kShuffleCases kTarget p' d l r m cases depth ncb g.
  Proof.
    intros HP. unfold grow_visit. cbn [pMaxDepth pLeaf pSplitMissing p p'].
    destruct (((depth <? pd) || (pd <=? 0)) && (2 * pl <=? length cases)); auto.
    rewrite (best_same _ _ _ _ _ _ HP). apply bind_ext. intros b Eb. rewrite <- (best_same _ _ _ _ _ _ HP) in Eb.
    apply (BestSplitter_cans _ _ _ _ _ _ _ _ _ _ _ _ _ _ _ _ HP) in Eb as [_ B2]. destruct (isCNil (bCode b)) eqn:Ec; auto.
    destruct B2 as [B2|B2]; [rewrite B2 in Ec; discriminate|]. apply bind_ext. intros [imp du] _. cbn [pData p p']. rewrite (same_get _ B2). reflexivity.
  Qed.
  Lemma visit_leak d l r m cases depth ncb g : Permutation cans (gCans g) ->
    ifok (grow_visit A St T predict rnd K kCopyFrom kShuffleCases kTarget p d l r m cases depth ncb g)
      (fun x => Permutation cans (gCans (snd x)) /\ (forall i, ~ In i cans -> nothing_booked i g (snd x)) /\ allowed data cans (gvD (fst x)) /\
                (isCNil (gvSplit (fst x)) = false -> In (gvFi (fst x)) cans) /\
                (gvL (fst x) = l \/ gvL (fst x) = newNode) /\ (gvR (fst x) = r \/ gvR (fst x) = newNode) /\ (gvM (fst x) = m \/ gvM (fst x) = newNode)).
  Proof.
    intros HP x Ev. unfold grow_visit in Ev. cbn [pMaxDepth pLeaf pSplitMissing p] in Ev.
    destruct (((depth <? pd) || (pd <=? 0)) && (2 * pl <=? length cases)).
    2:{ apply bind_ok in Ev as (q & _ & Ev). inversion Ev; subst; cbn. split; [exact HP|]. split; [intros; apply nothing_refl|].
        split; [left; split; reflexivity|]. split; [discriminate|]. auto. }
    apply bind_ok in Ev as (b & Eb & Ev). apply (BestSplitter_cans _ _ _ _ _ _ _ _ _ _ _ _ _ _ _ _ HP) in Eb as [B1 B2].
    destruct (isCNil (bCode b)) eqn:Ec.
    - apply bind_ok in Ev as (q & _ & Ev). inversion Ev; subst; cbn. split; [exact B1|]. split; [intros; split; reflexivity|].
      split; [left; split; reflexivity|]. split; [discriminate|]. auto.
    - destruct B2 as [B2|B2]; [rewrite B2 in Ec; discriminate|].
      apply bind_ok in Ev as ([imp du] & Ebk & Ev). apply bind_ok in Ev as (f & Ef & Ev). apply bind_ok in Ev as (spl & Es & Ev). inversion Ev; subst; cbn.
      split; [exact B1|]. split.
      { intros i Hi. apply (book_other A _ _ _ _ _ _ _ i) in Ebk; [exact Ebk|]. intros ->. contradiction. }
      split.
      { right. cbn. split; [exact Ec|]. split; [exact B2|]. apply get_inv in Ef. exists f, spl. split; [exact Ef|]. split; [reflexivity|]. eapply decoded_name, Es. }
      split; [auto|]. destruct (isNil l || isNil r), pm; auto.
  Qed.

  Lemma grow_leak fuel : forall n cases depth ncb s, Forall (allowed data cans) (nodes_of n) -> Permutation cans (gCans s) ->
    grow_node A St T predict rnd K kCopyFrom kShuffleCases kTarget fuel p n cases depth ncb s =
    grow_node A St T predict rnd K kCopyFrom kShuffleCases kTarget fuel p' n cases depth ncb s /\
    ifok (grow_node A St T predict rnd K kCopyFrom kShuffleCases kTarget fuel p n cases depth ncb s)
      (fun x => Forall (allowed data cans) (nodes_of (fst x)) /\ Permutation cans (gCans (snd x)) /\ forall i, ~ In i cans -> nothing_booked i s (snd x)).
  Proof.
    induction fuel as [|fuel IH]; intros n cases depth ncb s Hn Hs; cbn [grow_node]; [split; [reflexivity|discriminate]|].
    destruct n as [|d l r m]; [split; [reflexivity|discriminate]|]. cbn [nodes_of] in Hn. inversion Hn as [|? ? Hd Hc]; subst. clear Hn.
    rewrite !Forall_app in Hc. destruct Hc as (Hl & Hr & Hm).
    assert (Nn : Forall (allowed data cans) (nodes_of newNode)) by (constructor; [left; split; reflexivity|constructor]).
    rewrite <- (visit_same d l r m cases depth ncb s Hs). pose proof (visit_leak d l r m cases depth ncb s Hs) as V.
    destruct (grow_visit A St T predict rnd K kCopyFrom kShuffleCases kTarget p d l r m cases depth ncb s) as [[v s1]| |]; cbn [bind]; [|split; [reflexivity|discriminate]..].
    destruct (V _ eq_refl) as (P1 & Q1 & Dv & Fv & Lv & Rv & Mv). cbn [fst snd] in *. clear V.
    assert (Lv' : Forall (allowed data cans) (nodes_of (gvL v))) by (destruct Lv as [->| ->]; auto).
    assert (Rv' : Forall (allowed data cans) (nodes_of (gvR v))) by (destruct Rv as [->| ->]; auto).
    assert (Mv' : Forall (allowed data cans) (nodes_of (gvM v))) by (destruct Mv as [->| ->]; auto). clear Lv Rv Mv.
    destruct (isCNil (gvSplit v)) eqn:Ec.
    { split; [reflexivity|]. intros x Hx. inversion Hx; subst. cbn [fst snd nodes_of]. split; [|auto]. constructor; [exact Dv|]. rewrite !Forall_app. auto. }
    cbn [pData p p']. rewrite <- (same_get _ (Fv eq_refl)).
    destruct (get data (gvFi v)) as [f| |]; cbn [bind]; [|split; [reflexivity|discriminate]..].
    destruct (fSplitPoints f (gvSplit v) (gvCases v)) as [[[cs li] ri]| |]; cbn [bind]; [|split; [reflexivity|discriminate]..].
    destruct (slice cs 0 li) as [lc| |]; cbn [bind]; [|split; [reflexivity|discriminate]..].
    destruct (IH (gvL v) lc (S depth) (gvConsts v) s1 Lv' P1) as [E1 I1]. rewrite <- E1. fold p p'.
    destruct (grow_node A St T predict rnd K kCopyFrom kShuffleCases kTarget fuel p (gvL v) lc (S depth) (gvConsts v) s1) as [[l' s2]| |]; cbn [bind]; [|split; [reflexivity|discriminate]..].
    destruct (I1 _ eq_refl) as (L1 & P2 & Q2). cbn [fst snd] in *. clear I1 E1.
    destruct (slice cs ri (length cs)) as [rc| |]; cbn [bind]; [|split; [reflexivity|discriminate]..].
    destruct (IH (gvR v) rc (S depth) (gvConsts v) s2 Rv' P2) as [E1 I1]. rewrite <- E1.
    destruct (grow_node A St T predict rnd K kCopyFrom kShuffleCases kTarget fuel p (gvR v) rc (S depth) (gvConsts v) s2) as [[r' s3]| |]; cbn [bind]; [|split; [reflexivity|discriminate]..].
    destruct (I1 _ eq_refl) as (R1 & P3 & Q3). cbn [fst snd] in *. clear I1 E1.
    assert (Q : forall i, ~ In i cans -> nothing_booked i s s3) by (intros i Hi; eapply nothing_trans; [apply Q1, Hi|]; eapply nothing_trans; [apply Q2, Hi|apply Q3, Hi]).
    destruct (negb (li =? ri) && negb (isNil (gvM v))).
    - destruct (slice cs li ri) as [mc| |]; cbn [bind]; [|split; [reflexivity|discriminate]..].
      destruct (IH (gvM v) mc (S depth) (gvConsts v) s3 Mv' P3) as [E1 I1]. rewrite <- E1.
      destruct (grow_node A St T predict rnd K kCopyFrom kShuffleCases kTarget fuel p (gvM v) mc (S depth) (gvConsts v) s3) as [[m' s4]| |]; cbn [bind]; [|split; [reflexivity|discriminate]..].
      destruct (I1 _ eq_refl) as (M1 & P4 & Q4). cbn [fst snd] in *.
      split; [reflexivity|]. intros x Hx. inversion Hx; subst. cbn [fst snd nodes_of]. split; [constructor; [exact Dv|]; rewrite !Forall_app; auto|].
      split; [exact P4|]. intros i Hi. eapply nothing_trans; [apply Q, Hi|apply Q4, Hi].
    - cbn [bind]. split; [reflexivity|]. intros x Hx. inversion Hx; subst. cbn [fst snd nodes_of]. split; [constructor; [exact Dv|]; rewrite !Forall_app; auto|]. auto.
  Qed.

  (** *** Jungles *)
  Definition jclean (heap : list jnode) : Prop := Forall (fun n => allowed data cans (jD n)) heap.
  Definition jfine (g0 : gstate A St K) (s : jstate A St K) : Prop :=
    jclean (sHeap s) /\ Permutation cans (gCans (sG s)) /\ forall i, ~ In i cans -> nothing_booked i g0 (sG s).
  Lemma jclean_upd heap i n : jclean heap -> allowed data cans (jD n) -> jclean (upd heap i n).
  Proof.
    intros H Hn. unfold jclean in *. rewrite Forall_forall in *. intros x Hx. apply In_nth_error in Hx as [k Hk].
    rewrite nth_error_upd in Hk. destruct ((k =? i) && (i <? length heap)); [inversion Hk; subst; exact Hn|]. apply nth_error_In in Hk. auto.
  Qed.
  Lemma jclean_get heap i n : jclean heap -> get heap i = Ok n -> allowed data cans (jD n).
  Proof. intros H E. apply get_inv, nth_error_In in E. unfold jclean in H. rewrite Forall_forall in H. auto. Qed.
  Lemma jnew_clean : allowed data cans (jD jnew).
  Proof. left. split; reflexivity. Qed.

  Lemma jleaf_fine g0 e inner s : jfine g0 s -> ifok (jleaf A St predict K e inner s) (jfine g0).
  Proof.
    intros (H1 & H2 & H3) x Hx. unfold jleaf in Hx. apply bind_ok in Hx as (n & _ & Hx). apply bind_ok in Hx as (q & _ & Hx). apply bind_ok in Hx as (h & Eh & Hx).
    inversion Hx; subst. apply set_inv in Eh as [_ ->]. split; [|split; auto]. cbn [sHeap]. apply jclean_upd; auto. left. split; reflexivity.
  Qed.
  Lemma jsplit_same e depth b s : In (bFi b) cans -> jsplit A St K p e depth b s = jsplit A St K p' e depth b s.
  Proof. intros H. unfold jsplit. apply bind_ext. intros [imp du] _. cbn [pData pSplitMissing p p']. rewrite (same_get _ H). reflexivity. Qed.
  Lemma jsplit_fine g0 e depth b s : In (bFi b) cans -> isCNil (bCode b) = false -> jfine g0 s -> ifok (jsplit A St K p e depth b s) (jfine g0).
  Proof.
    intros Hb Hc (H1 & H2 & H3) x Hx. unfold jsplit in Hx. apply bind_ok in Hx as ([imp du] & Ebk & Hx). apply bind_ok in Hx as (f & Ef & Hx).
    apply bind_ok in Hx as (spl & Es & Hx). apply bind_ok in Hx as ([[cs li] ri] & _ & Hx). apply bind_ok in Hx as (n & En & Hx).
    apply bind_ok in Hx as (h & Eh & Hx). inversion Hx; subst. apply set_inv in Eh as [_ ->]. split; [|split; [exact H2|]]; cbn [sHeap sG].
    - unfold jclean. rewrite !Forall_app. split.
      + apply jclean_upd; [exact H1|]. right. cbn. split; [exact Hc|]. split; [exact Hb|]. apply get_inv in Ef. exists f, spl. split; [exact Ef|]. split; [reflexivity|]. eapply decoded_name, Es.
      + destruct pm; repeat (constructor; [apply jnew_clean|]); constructor.
    - intros i Hi. apply (book_other A _ _ _ _ _ _ _ i) in Ebk; [|intros ->; contradiction]. eapply nothing_trans; [apply H3, Hi|]. exact Ebk.
  Qed.
  Lemma jvisit_both g0 depth i s : jfine g0 s ->
    jvisit A St T predict rnd K kCopyFrom kShuffleCases kTarget p depth i s = jvisit A St T predict rnd K kCopyFrom kShuffleCases kTarget p' depth i s /\
    ifok (jvisit A St T predict rnd K kCopyFrom kShuffleCases kTarget p depth i s) (jfine g0).
  Proof.
    intros Hs. pose proof Hs as (H1 & H2 & H3). unfold jvisit. cbn [pMaxDepth pLeaf p p']. fold p p'.
    destruct (get (sNodes s) i) as [e| |]; cbn [bind]; [|split; [reflexivity|discriminate]..].
    destruct (eDead e); [split; [reflexivity|intros x Hx; inversion Hx; subst; exact Hs]|].
    destruct (slice (sCases s) (eStart e) (eEnd e)) as [inner| |]; cbn [bind]; [|split; [reflexivity|discriminate]..].
    destruct (((depth <? pd) || (pd <=? 0)) && (2 * pl <=? length inner)); [|split; [reflexivity|apply jleaf_fine, Hs]].
    rewrite <- (best_same _ _ _ _ _ _ H2).
    pose proof (BestSplitter_cans A St T rnd K kCopyFrom kShuffleCases kTarget p cans inner (gCans (sG s)) (gOob (sG s)) (eConsts e) (gAl (sG s)) (gK (sG s)) H2) as B.
    destruct (BestSplitter A St T rnd K kCopyFrom kShuffleCases kTarget p inner (gCans (sG s)) (gOob (sG s)) (eConsts e) (gAl (sG s)) (gK (sG s))) as [b| |];
      cbn [bind]; [|split; [reflexivity|discriminate]..].
    destruct (B _ eq_refl) as [B1 B2].
    assert (Hs' : jfine g0 (mkS A St K (sHeap s) (sNodes s) (putwin (sCases s) (eStart e) (bCases b)) (mkG A St K (bCans b) (bOob b) (bAl b) (bK b) (gImp (sG s)) (gDepth (sG s))))).
    { split; [exact H1|]. split; [exact B1|exact H3]. }
    destruct (isCNil (bCode b)) eqn:Ec; [split; [reflexivity|apply jleaf_fine, Hs']|].
    destruct B2 as [B2|B2]; [rewrite B2 in Ec; discriminate|]. split; [apply jsplit_same, B2|apply jsplit_fine; assumption].
  Qed.
  Lemma with_tgt_fine g0 s tg : jfine g0 s -> jfine g0 (with_tgt A St K s tg).
  Proof. intros H. exact H. Qed.
  Lemma merge_fine g0 i j s : jfine g0 s -> ifok (merge A St K i j s) (jfine g0).
  Proof.
    intros (H1 & H2 & H3) x Hx. unfold merge in Hx. apply bind_ok in Hx as (ni & _ & Hx). apply bind_ok in Hx as (nj & _ & Hx). apply bind_ok in Hx as (ns & _ & Hx).
    destruct (eParent nj) as [q|]; [|discriminate]. apply bind_ok in Hx as (pa & Ep & Hx). apply bind_ok in Hx as (h & Eh & Hx). inversion Hx; subst.
    apply set_inv in Eh as [_ ->]. split; [|split; auto]. cbn [sHeap]. apply jclean_upd; [exact H1|]. apply (jclean_get _ _ _ H1) in Ep.
    unfold redirect. destruct (same (jL pa) (eN nj)), (same (jR pa) (eN nj)), (same (jM pa) (eN nj)); exact Ep.
  Qed.
  Lemma merging_fine g0 last s : jfine g0 s -> ifok (merging A St T K last s) (jfine g0).
  Proof.
    intros Hs x Hx. unfold merging in Hx. eapply (BlindProofs.loop_ifok (jfine g0) (jfine g0)); [exact Hx|exact Hs|]. clear. intros s o Hs Ho.
    apply bind_ok in Ho as ([ch s1] & Em & Ho).
    assert (H1 : jfine g0 s1).
    { unfold merge_pass in Em. apply (BlindProofs.for_up_ifok (fun x : bool * jstate A St K => jfine g0 (snd x))) in Em; [exact Em|exact Hs|]. clear. intros i [c s] [c' s'] Hs E.
      cbn [snd] in *. apply bind_ok in E as (e & _ & E). destruct (eDead e); [inversion E; subst; exact Hs|]. apply bind_ok in E as ([cb tg] & _ & E).
      destruct cb as [j|]; [|inversion E; subst; apply with_tgt_fine, Hs]. apply bind_ok in E as (s2 & E2 & E). inversion E; subst.
      eapply merge_fine; [|exact E2]. apply with_tgt_fine, Hs. }
    destruct ch; inversion Ho; subst; exact H1.
  Qed.
  Lemma for_up_both {S0} (Inv : S0 -> Prop) (b b' : nat -> S0 -> res S0) n : (forall i s, Inv s -> b i s = b' i s /\ ifok (b i s) Inv) ->
    forall lo s, Inv s -> for_up n lo b s = for_up n lo b' s /\ ifok (for_up n lo b s) Inv.
  Proof.
    intros H. induction n as [|n IH]; intros lo s Hs; cbn [for_up]; [split; [reflexivity|intros x Hx; inversion Hx; subst; exact Hs]|].
    destruct (H lo s Hs) as [E I]. rewrite <- E. destruct (b lo s) as [s1| |]; cbn [bind]; [|split; [reflexivity|discriminate]..]. apply IH, I. reflexivity.
  Qed.
  Lemma levels_both g0 fuel s : jfine g0 s ->
    levels A St T predict rnd K kCopyFrom kShuffleCases kTarget p fuel s = levels A St T predict rnd K kCopyFrom kShuffleCases kTarget p' fuel s /\
    ifok (levels A St T predict rnd K kCopyFrom kShuffleCases kTarget p fuel s) (jfine g0).
  Proof.
    intros Hs. unfold levels. split.
    - apply (loop_ext (fun x : nat * nat * jstate A St K => jfine g0 (snd x))); [| |exact Hs]; clear s Hs.
      + intros [[first depth] s] Hs. cbn [snd] in Hs.
        destruct (for_up_both (jfine g0) _ _ (length (sNodes s) - first) (fun i s H => jvisit_both g0 depth i s H) first s Hs) as [E _]. rewrite E. reflexivity.
      + intros [[first depth] s] [[f2 d2] s2] Hs Hx. cbn [snd] in *. apply bind_ok in Hx as (s1 & E1 & Hx).
        apply (proj2 (for_up_both (jfine g0) _ _ (length (sNodes s) - first) (fun i s H => jvisit_both g0 depth i s H) first s Hs)) in E1.
        destruct (length (sNodes s1) =? length (sNodes s)); [discriminate|]. apply bind_ok in Hx as (s3 & E3 & Hx). apply (merging_fine g0 _ _ E1) in E3. inversion Hx; subst. exact E3.
    - intros x Hx. eapply (BlindProofs.loop_ifok (fun x : nat * nat * jstate A St K => jfine g0 (snd x)) (jfine g0)); [exact Hx|exact Hs|]. clear s Hs x Hx.
      intros [[first depth] s] o Hs Ho. cbn [snd] in *. apply bind_ok in Ho as (s1 & E1 & Ho).
      apply (proj2 (for_up_both (jfine g0) _ _ (length (sNodes s) - first) (fun i s H => jvisit_both g0 depth i s H) first s Hs)) in E1.
      destruct (length (sNodes s1) =? length (sNodes s)); [inversion Ho; subst; exact E1|]. apply bind_ok in Ho as (s3 & E3 & Ho). apply (merging_fine g0 _ _ E1) in E3. inversion Ho; subst. exact E3.
  Qed.

  (** *** A goroutine *)
  Variable fuel : nat.
  Let grow q n cases g := Grow A St T predict rnd K kCopyFrom kShuffleCases kTarget fuel q n cases g.
  (** No depth recorded. *)
  Definition no_depth (i : nat) (du : option (list nat)) : Prop := forall l d, du = Some l -> nth_error l i = Some d -> d = 0.
  Lemma worker_both jobs : forall tree g, Forall (allowed data cans) (nodes_of tree) -> Permutation cans (gCans g) ->
    worker A St K (grow p) jobs tree g = worker A St K (grow p') jobs tree g /\
    ifok (worker A St K (grow p) jobs tree g)
      (fun x => Forall (fun t => Forall (allowed data cans) (nodes_of (fst t)) /\ forall i, ~ In i cans -> no_depth i (gDepth g) -> no_depth i (snd t)) (fst x) /\
                forall i, ~ In i cans -> option_map (fun l => nth_error l i) (gImp (snd x)) = option_map (fun l => nth_error l i) (gImp g)).
  Proof.
    induction jobs as [|[cases oob] jobs IH]; intros tree g Ht Hg; cbn [worker].
    { split; [reflexivity|]. intros x Hx. inversion Hx; subst. split; [constructor|reflexivity]. }
    destruct (grow_leak fuel tree cases 0 0 (with_oob g oob) Ht Hg) as [E I]. unfold grow at 1 3 5. unfold Grow. fold p p'. rewrite <- E.
    destruct (grow_node A St T predict rnd K kCopyFrom kShuffleCases kTarget fuel p tree cases 0 0 (with_oob g oob)) as [[t g1]| |]; cbn [bind]; [|split; [reflexivity|discriminate]..].
    destruct (I _ eq_refl) as (I1 & I2 & I3). cbn [fst snd] in *. clear E I.
    destruct (IH t (cleared_depths g1) I1 I2) as [E I]. rewrite <- E.
    destruct (worker A St K (grow p) jobs t (cleared_depths g1)) as [[ts g2]| |]; cbn [bind]; [|split; [reflexivity|discriminate]..].
    destruct (I _ eq_refl) as [J1 J2]. cbn [fst snd] in *. split; [reflexivity|]. intros x Hx. inversion Hx; subst. cbn [fst snd]. split.
    - assert (D1 : forall i, ~ In i cans -> no_depth i (gDepth g) -> no_depth i (gDepth g1)).
      { intros i Hi Hz l d El Ed. destruct (I3 i Hi) as [_ B]. cbn [with_oob gDepth] in B. rewrite El in B. cbn in B.
        destruct (gDepth g) as [l0|] eqn:E0; [|discriminate]. cbn in B. apply (Hz l0 d eq_refl). congruence. }
      constructor; [split; auto|]. eapply Forall_impl; [|exact J1]. intros a [K1 K2]. split; [exact K1|]. intros i Hi Hz. apply K2; [exact Hi|].
      intros l d El Ed. cbn [cleared_depths gDepth] in El. destruct (gDepth g1); [|discriminate]. inversion El; subst. rewrite nth_error_map in Ed.
      destruct (nth_error l0 i); inversion Ed. reflexivity.
    - intros i Hi. rewrite J2 by exact Hi. destruct (I3 i Hi) as [B _]. exact B.
  Qed.
End Leak.

(** *** The theorems *)
Definition with_data (p : params) (data : list feature) : params :=
  mkP data (pTry p) (pLeaf p) (pForce p) (pVet p) (pEvalOob p) (pExtra p) (pMaxDepth p) (pSplitMissing p).
(** One tree, for any target (also one that boosting has changed), grown into a new root or into
    the nodes of an earlier tree.  [data'] are the features with other columns where there are no
    candidates. *)
Theorem C145_tree : forall A St (T : target A St) predict rnd K kCopyFrom kShuffleCases kTarget p data' fuel root cases g,
  (forall i, In i (gCans g) -> nth_error (pData p) i = nth_error data' i) ->
  Forall (allowed (pData p) (gCans g)) (nodes_of root) ->
  let run q := Grow A St T predict rnd K kCopyFrom kShuffleCases kTarget fuel q root cases g in
  run p = run (with_data p data') /\
  forall n g', run p = Ok (n, g') ->
    Forall (allowed (pData p) (gCans g)) (nodes_of n) /\ Permutation (gCans g) (gCans g') /\
    forall i, ~ In i (gCans g) -> nothing_booked i g g'.
Proof.
  intros A St T predict rnd K kCopyFrom kShuffleCases kTarget p data' fuel root cases g Hd Hr run. destruct p as [data pt pl pf pv pe px pd pm]. cbn [pData] in *.
  destruct (grow_leak A St T predict rnd K kCopyFrom kShuffleCases kTarget data data' pt pl pf pv pe px pd pm (gCans g) Hd fuel root cases 0 0 g Hr (Permutation_refl _)) as [E I].
  split; [exact E|]. intros n g' Hn. exact (I _ Hn).
Qed.
Print Assumptions C145_tree.
Theorem C145_jungle : forall A St (T : target A St) predict rnd K kCopyFrom kShuffleCases kTarget p data' fuel heap cases g,
  (forall i, In i (gCans g) -> nth_error (pData p) i = nth_error data' i) ->
  Forall (fun n => allowed (pData p) (gCans g) (jD n)) heap ->
  let run q := GrowJungleOn A St T predict rnd K kCopyFrom kShuffleCases kTarget q heap fuel cases g in
  run p = run (with_data p data') /\
  forall s, run p = Ok s ->
    Forall (fun n => allowed (pData p) (gCans g) (jD n)) (sHeap s) /\ Permutation (gCans g) (gCans (sG s)) /\
    forall i, ~ In i (gCans g) -> nothing_booked i g (sG s).
Proof.
  intros A St T predict rnd K kCopyFrom kShuffleCases kTarget p data' fuel heap cases g Hd Hr run. destruct p as [data pt pl pf pv pe px pd pm]. cbn [pData] in *.
  destruct (levels_both A St T predict rnd K kCopyFrom kShuffleCases kTarget data data' pt pl pf pv pe px pd pm (gCans g) Hd g fuel
    (mkS A St K heap [mkE 0 0 (length cases) 0 None false] cases g)) as [E I].
  { split; [exact Hr|]. split; [apply Permutation_refl|]. intros. apply nothing_refl. }
  split; [exact E|]. intros s Hs. exact (I _ Hs).
Qed.
Print Assumptions C145_jungle.
(** All the trees of a goroutine, with the importances after the last one and the depths of each. *)
Theorem C145_goroutine : forall A St (T : target A St) predict rnd K kCopyFrom kShuffleCases kTarget p data' fuel jobs g,
  (forall i, In i (gCans g) -> nth_error (pData p) i = nth_error data' i) ->
  let run q := worker A St K (Grow A St T predict rnd K kCopyFrom kShuffleCases kTarget fuel q) jobs newNode g in
  run p = run (with_data p data') /\
  forall trees g', run p = Ok (trees, g') ->
    (forall t du, In (t, du) trees ->
       Forall (allowed (pData p) (gCans g)) (nodes_of t) /\
       forall i, ~ In i (gCans g) -> no_depth i (gDepth g) -> no_depth i du) /\
    forall i, ~ In i (gCans g) -> option_map (fun l => nth_error l i) (gImp g') = option_map (fun l => nth_error l i) (gImp g).
Proof.
  intros A St T predict rnd K kCopyFrom kShuffleCases kTarget p data' fuel jobs g Hd run. destruct p as [data pt pl pf pv pe px pd pm]. cbn [pData] in *.
  destruct (worker_both A St T predict rnd K kCopyFrom kShuffleCases kTarget data data' pt pl pf pv pe px pd pm (gCans g) Hd fuel jobs newNode g) as [E I].
  { constructor; [left; split; reflexivity|constructor]. }
  { apply Permutation_refl. }
  split; [exact E|]. intros trees g' Hn. destruct (I _ Hn) as [I1 I2]. split; [|exact I2]. intros t du Ht. rewrite Forall_forall in I1. exact (I1 _ Ht).
Qed.
Print Assumptions C145_goroutine.

(** From the bytes of the -blacklist file to the names in the splits. *)
Theorem C145_growforest_partial : forall fm ls nt tname block inc targeti,
  names_ok fm -> NoDup (map fName (fmData fm)) -> assoc tname (fmMap fm) = Some targeti ->
  Forall simple_line ls -> (forall l, In l (entries ls) -> tabs l = nt) ->
  exists bl nFeatures cans,
    grow_select fm (Some (render ls)) tname block inc = Ok (Some (targeti, bl, nFeatures)) /\
    candidates_of (length (fmData fm)) targeti bl = Ok cans /\
    forall A St (T : target A St) predict rnd K kCopyFrom kShuffleCases kTarget p fuel jobs g trees g',
      pData p = fmData fm -> gCans g = cans ->
      worker A St K (Grow A St T predict rnd K kCopyFrom kShuffleCases kTarget fuel p) jobs newNode g = Ok (trees, g') ->
      forall t du d s, In (t, du) trees -> In d (nodes_of t) -> dSpl d = Some s ->
        sFeature s <> tname /\ ~ In (B (sFeature s)) (map up_to_tab (entries ls)) /\
        (forall re, block = Some re -> re (sFeature s) = false) /\ (forall re, inc = Some re -> re (sFeature s) = true).
Proof.
  intros fm ls nt tname block inc targeti Hno Hnd Ht Hs Hn.
  destruct (C144_growforest_partial fm ls nt tname block inc targeti Hno Hnd Ht Hs Hn) as (bl & nF & cans & E1 & E2 & _ & E4).
  exists bl, nF, cans. split; [exact E1|]. split; [exact E2|].
  intros A St T predict rnd K kCopyFrom kShuffleCases kTarget p fuel jobs g trees g' Hp Hc Hw t du d s Ht' Hd Hspl.
  destruct (C145_goroutine A St T predict rnd K kCopyFrom kShuffleCases kTarget p (pData p) fuel jobs g (fun i _ => eq_refl)) as [_ I].
  destruct (I _ _ Hw) as [I1 _]. destruct (I1 _ _ Ht') as [I2 _]. rewrite Forall_forall in I2.
  destruct (I2 d Hd) as [[_ X]|(_ & Hi & f & s' & Hf & Es & En)]; [congruence|]. rewrite Hspl in Es. injection Es as <-. rewrite En.
  rewrite Hp in Hf. rewrite Hc in Hi. apply (E4 _ f Hf). exact Hi.
Qed.
Print Assumptions C145_growforest_partial.

(** Using the trees.  In memory, as for the out of bag votes and the partitions of boosting: columns
    that are no candidates do not count. *)
Lemma allowed_cans data cans l : Forall (allowed data cans) l -> Forall (of_cans cans) l.
Proof. apply Forall_impl. intros d [H|(H1 & H2 & _)]; [left; exact H|right; auto]. Qed.
Theorem C145_use : forall Acc (r : visit -> Acc -> res Acc) fm fm' data cans n,
  Forall (allowed data cans) (nodes_of n) ->
  (forall i, In i cans -> nth_error (fmData fm) i = nth_error (fmData fm') i) ->
  forall arr lo hi depth st, Recurse r fm n arr lo hi depth st = Recurse r fm' n arr lo hi depth st.
Proof. intros Acc r fm fm' data cans n Hn H. apply (recurse_cans r fm fm' cans n H). eapply allowed_cans, Hn. Qed.
Print Assumptions C145_use.
(** From a forest file or without codes, on the matrix of other data: what counts are the columns
    that have the names of candidates, wherever they stand. *)
Lemma reread_names data cans fm fm' n n' (Acc : Type) (r : visit -> Acc -> res Acc) : Forall (allowed data cans) (nodes_of n) -> reread n n' ->
  (forall i f, In i cans -> nth_error data i = Some f -> fmLookup fm (fName f) = fmLookup fm' (fName f)) ->
  forall arr lo hi depth st, Recurse r fm n' arr lo hi depth st = Recurse r fm' n' arr lo hi depth st.
Proof.
  intros Ha Hr H. revert Ha. induction Hr as [|d l rr m d' l' r' m' H1 H2 H3 Hl IHl Hr IHr Hm IHm]; intros Ha arr lo hi depth st; cbn [Recurse]; [reflexivity|].
  cbn [nodes_of] in Ha. inversion Ha as [|? ? Hd Hc]; subst. rewrite !Forall_app in Hc. destruct Hc as (Al & Ar & Am).
  apply bind_ext; intros cs _. apply bind_ext; intros st0 _.
  assert (E : node_split fm d' cs = node_split fm' d' cs).
  { unfold node_split. rewrite H2. cbn [isCNil negb]. destruct (dSpl d') as [s'|]; [|reflexivity].
    destruct Hd as [[_ X]|(_ & Hi & f & s & Hf & Es & En)]; [rewrite X in H3; destruct H3|]. rewrite Es in H3. destruct H3 as (N & _).
    unfold splSplit. rewrite N, En, (H _ _ Hi Hf). reflexivity. }
  rewrite E. apply bind_ext; intros [sr|] _; [|reflexivity].
  cbn zeta. rewrite (IHl Al). apply bind_ext; intros [a1 s1] _. rewrite (IHr Ar). apply bind_ext; intros [a2 s2] _.
  rewrite (IHm Am). reflexivity.
Qed.
Theorem C145_applied : forall fm fm' data cans n n' tw cases bb,
  Forall (allowed data cans) (nodes_of n) -> reread n n' ->
  (forall i f, In i cans -> nth_error data i = Some f -> fmLookup fm (fName f) = fmLookup fm' (fName f)) ->
  VoteCases fm n' tw cases bb = VoteCases fm' n' tw cases bb.
Proof. intros fm fm' data cans n n' tw cases bb Ha Hr H. apply (reread_names data cans fm fm' n n' _ _ Ha Hr H). Qed.
Print Assumptions C145_applied.

(** A column that the other data lacks: the lookup of an unknown name gives column 0
    (splitter.go:31), so there a feature that is no candidate, here the target itself, does count. *)
Definition lk_tree : node :=
  Node (mkNd CNil 0 "" (Some (mkSpl "N:a" true f1 []))) (Node (mkNd CNil 0 "x" None) Nil Nil Nil) (Node (mkNd CNil 0 "y" None) Nil Nil Nil) Nil.
Definition lk_fm (v : f64) : fmatrix := mkFM [FNum (mkNum [v] [false] "N:target" false)] [("N:target", 0)] ["p"].
Theorem C145_missing_column_refuted : exists data cans n n',
  Forall (allowed data cans) (nodes_of n) /\ reread n n' /\
  (forall i f, In i cans -> nth_error data i = Some f -> fName f <> "N:target") /\
  VoteCases (lk_fm f0) n' f1 [0] [] = Ok ([0], [(0, "x", f1)]) /\
  VoteCases (lk_fm f2) n' f1 [0] [] = Ok ([0], [(0, "y", f1)]).
Proof.
  exists (fmData ap_fm), [0], (ap_tree (CNum f1)), lk_tree. split; [|split; [|split; [|split; vm_compute; reflexivity]]].
  - constructor; [|repeat constructor; left; split; reflexivity]. right. split; [reflexivity|]. split; [left; reflexivity|]. do 2 eexists. split; [reflexivity|]. split; reflexivity.
  - repeat constructor.
  - intros i f [<-|[]] Hf. injection Hf as <-. discriminate.
Qed.
Print Assumptions C145_missing_column_refuted.

(** ** Cases that meet the hypotheses *)
(** Three columns; the first would be the best split, and is not a candidate. *)
Definition lk_data (c : list Z) : list feature :=
  [FNum (PropSearch.plain (map f_of_Z c)); FNum (PropSearch.plain (map f_of_Z [0; 1; 1; 1]%Z)); FNum (PropSearch.plain (map f_of_Z [0; 0; 0; 1]%Z))].
Definition lk_p (c : list Z) : params := mkP (lk_data c) 2 1 false false false false 0 false.
Definition lk_g : gstate F64 cst catF :=
  mkG F64 cst catF [1; 2] [] (PropSearch.fresh 4) (cCopy order_t) (Some (NewRunningMeans F64 3)) (Some [0; 0; 0]).
Definition lk_run (c : list Z) := worker F64 cst catF (fun n cases g => Grow F64 cst (gini_target F64 (cData order_t)) (cFindPredicted order_t) (fun i => i mod 2) catF
  (cCopyInTo order_t) cShuffleCases (fun k => gini_target F64 (cData k)) 9 (lk_p c) n cases g) [([0; 1; 2; 3], []); ([3; 2; 1; 0], [])] newNode lk_g.
Example C145_ex :
  (forall i, In i (gCans lk_g) -> nth_error (lk_data [0; 0; 1; 1]%Z) i = nth_error (lk_data [5; 1; 4; 2]%Z) i) /\
  match lk_run [0; 0; 1; 1]%Z with
  | Ok (ts, g) => map (fun t => (map dFeat (filter (fun d => negb (isCNil (dCode d))) (nodes_of (fst t))), snd t)) ts = [([1], Some [0; 0; 0]); ([1], Some [0; 0; 0])]
  | _ => False
  end.
Proof.
  split; [intros i [<-|[<-|[]]]; reflexivity|]. vm_compute. reflexivity.
Qed.
(** The column used to be worth a split. *)
Example C145_ex_would_split :
  root_feature (Grow F64 cst (gini_target F64 (cData order_t)) (cFindPredicted order_t) (fun i => i mod 2) catF (cCopyInTo order_t) cShuffleCases (fun k => gini_target F64 (cData k)) 9
    (mkP (lk_data [0; 0; 1; 1]%Z) 3 1 false false false false 0 false) newNode [0; 1; 2; 3]
    (mkG F64 cst catF [0; 1; 2] [] (PropSearch.fresh 4) (cCopy order_t) None None)) = Some 0.
Proof. vm_compute. reflexivity. Qed.
(** A jungle on the same data. *)
Example C145_ex_jungle :
  match GrowJungleOn F64 cst (gini_target F64 (cData order_t)) (cFindPredicted order_t) (fun i => i mod 2) catF (cCopyInTo order_t) cShuffleCases (fun k => gini_target F64 (cData k))
    (mkP (lk_data [0; 0; 1; 1]%Z) 2 1 false false false false 0 false) [jnew] 9 [0; 1; 2; 3] lk_g with
  | Ok s => map (fun n => dFeat (jD n)) (filter (fun n => negb (isCNil (dCode (jD n)))) (sHeap s)) = [1]
  | _ => False
  end.
Proof. vm_compute. reflexivity. Qed.
