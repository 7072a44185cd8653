(** C147: the names of features and categories do not count. *)
From Verif Require Import Go GoLemmas F64 ModelFeature ModelSample ModelImpurity ModelSplit ModelSort ModelSearch ModelTargets ModelBallot ModelTree ModelGrow PropByName
  SplitterProofs SplitProofs GrowProofs RowsProofs PropRows MatrixSpec ModelMatrix ModelJungle ModelJungleUsed PropLeak PropOrderless TreeSpec.
From Verif Require PropSearch.
Local Open Scope string_scope.
Local Open Scope nat_scope.
Local Open Scope list_scope.

(** ** C147.  The claim in full: giving the features and the categories other names gives the same
    forest with other names: the same splits (with the new names), importances, depths and random
    draws, the same votes (for the new names of the categories) and the same error. *)

(** *** Renaming *)
(** Names stay different, and the words for a missing value stay what they are. *)
Record renaming (h : string -> string) : Prop := mkRen {
  rn_inj : forall a b, h a = h b -> a = b;
  rn_word : forall a, missing_token (h a) = missing_token a;
  rn_fixed : forall a, missing_token a = true -> h a = a
}.
Definition ren_map (h : string -> string) (m : catmap) : catmap := mkCM (map (fun p => (h (fst p), snd p)) (cmMap m)) (map h (cmBack m)).
Lemma map_upd_ren {B C} (h : B -> C) l : forall i x, map h (upd l i x) = upd (map h l) i (h x).
Proof. induction l as [|y l IH]; intros [|i] x; cbn; auto. rewrite IH. reflexivity. Qed.
Lemma for_up_eq {St} (b b' : nat -> St -> res St) n : forall lo s, (forall i s, b i s = b' i s) -> for_up n lo b s = for_up n lo b' s.
Proof. induction n as [|n IH]; intros lo s H; cbn [for_up]; [reflexivity|]. rewrite H. apply bind_ext. intros a _. apply IH, H. Qed.
Section Ren.
  (** New names of the features, and of the categories of a feature. *)
  Variable fn : string -> string.
  Variable cn : string -> string -> string.
  (** New names of what is predicted. *)
  Variable pn : string -> string.

  Definition ren_c (f : catF) : catF := mkCat (ren_map (cn (cName f)) (cMap f)) (cData f) (cMissing f) (fn (cName f)) (cRandom f) (cHas f).
  Definition ren_f (f : feature) : feature :=
    match f with
    | FNum f => FNum (mkNum (nData f) (nMissing f) (fn (nName f)) (nHas f))
    | FCat f => FCat (ren_c f)
    end.
  Definition ren_s (s : splitter) : splitter := mkSpl (fn (sFeature s)) (sNumerical s) (sValue s) (map (cn (sFeature s)) (sLeft s)).
  Definition ren_d (d : nd) : nd := mkNd (dCode d) (dFeat d) (pn (dPred d)) (option_map ren_s (dSpl d)).
  Fixpoint ren_n (n : node) : node := match n with Nil => Nil | Node d l r m => Node (ren_d d) (ren_n l) (ren_n r) (ren_n m) end.
  Definition ren_fm (fm : fmatrix) : fmatrix := mkFM (map ren_f (fmData fm)) (map (fun p => (fn (fst p), snd p)) (fmMap fm)) (fmLabels fm).
  Definition ren_p (p : params) : params :=
    mkP (map ren_f (pData p)) (pTry p) (pLeaf p) (pForce p) (pVet p) (pEvalOob p) (pExtra p) (pMaxDepth p) (pSplitMissing p).

  (** *** Growing *)
  Lemma ncats_ren h m : NCats (ren_map h m) = NCats m.
  Proof. unfold NCats, ren_map. cbn. apply map_length. Qed.
  Lemma cat_ren A St T rnd f cases imp leaf al : cBestSplit A St T rnd (ren_c f) cases imp leaf al = cBestSplit A St T rnd f cases imp leaf al.
  Proof.
    unfold cBestSplit, BestCatSplitIterBig, BestCatSplitIter, BestCatSplitBig, BestBinSplit, BestCatSplit. unfold ren_c.
    cbn [cMap cData cMissing cHas cRandom]. rewrite ncats_ren. reflexivity.
  Qed.
  Lemma best_ren A St T rnd f cases imp leaf extra al : BestSplit A St T rnd (ren_f f) cases imp leaf extra al = BestSplit A St T rnd f cases imp leaf extra al.
  Proof. destruct f as [f|f]; [reflexivity|]. apply cat_ren. Qed.
  Lemma split_ren f c cs : fSplit (ren_f f) c cs = fSplit f c cs.
  Proof. destruct f; reflexivity. Qed.
  Lemma points_ren f c cs : fSplitPoints (ren_f f) c cs = fSplitPoints f c cs.
  Proof. destruct f; reflexivity. Qed.
  Lemma decode_left_ren h bit back : decode_left bit (map h back) = map h (decode_left bit back).
  Proof.
    unfold decode_left. rewrite map_length. generalize 0. induction back as [|b back IH]; intros k; [reflexivity|]. cbn [length seq map combine filter fst].
    destruct (bit k); cbn [map snd]; rewrite IH; reflexivity.
  Qed.
  Lemma decode_ren f c : fDecodeSplit (ren_f f) c = rmap ren_s (fDecodeSplit f c).
  Proof.
    destruct f as [f|f]; cbn [ren_f fDecodeSplit rmap].
    - unfold nDecodeSplit. destruct c; reflexivity.
    - unfold cDecodeSplit, ren_s. cbn [cMap cName ren_c ren_map cmBack sFeature sNumerical sValue sLeft]. destruct c; try reflexivity; rewrite decode_left_ren; reflexivity.
  Qed.
  Lemma get_ren {B C} (h : B -> C) l i : get (map h l) i = rmap h (get l i).
  Proof. unfold get. rewrite nth_error_map. destruct (nth_error l i); reflexivity. Qed.

  Section Growing.
    Variable A : arith.
    Variable St : Type.
    Variable T : target A St.
    Variables predict predict' : list nat -> res string.
    Variable rnd : nat -> nat.
    Variables K K' : Type.
    Variable kr : K -> K'.
    Variable kCopyFrom : K -> K.
    Variable kCopyFrom' : K' -> K'.
    Variable kShuffleCases : (nat -> nat) -> list nat -> K -> res K.
    Variable kShuffleCases' : (nat -> nat) -> list nat -> K' -> res K'.
    Variable kTarget : K -> target A St.
    Variable kTarget' : K' -> target A St.
    Hypothesis Hpredict : forall cs, predict' cs = rmap pn (predict cs).
    Hypothesis Hcopy : forall k, kCopyFrom' (kr k) = kr (kCopyFrom k).
    Hypothesis Hshuffle : forall r cs k, kShuffleCases' r cs (kr k) = rmap kr (kShuffleCases r cs k).
    Hypothesis Htarget : forall k, kTarget' (kr k) = kTarget k.
    Hypothesis Hempty : pn "" = "".

    Definition bren (b : bstate A St K) : bstate A St K' :=
      mkBS A St K' (bCans b) (bCases b) (bOob b) (bConsts b) (bDrawn b) (bLast b) (bFi b) (bCode b) (bDec b) (bAl b) (kr (bK b)).
    Definition gren (g : gstate A St K) : gstate A St K' := mkG A St K' (gCans g) (gOob g) (gAl g) (kr (gK g)) (gImp g) (gDepth g).

    Lemma draw_ren s : draw_candidate A St rnd K' (bren s) = rmap (fun x => (bren (fst x), snd x)) (draw_candidate A St rnd K s).
    Proof.
      unfold draw_candidate, bren. cbn [bCans bCases bOob bConsts bDrawn bLast bFi bCode bDec bAl bK].
      destruct (bDrawn s + bLast s <? length (bCans s)); [|reflexivity]. apply bind_same. intros k.
      destruct (length (bCans s) - bConsts s <=? bLast s + k); [reflexivity|]. apply bind_same. reflexivity.
    Qed.
    Lemma oob_ren p f c dec inner oob al : eval_oob A St T (ren_p p) (ren_f f) c dec inner oob al = eval_oob A St T p f c dec inner oob al.
    Proof. unfold eval_oob. rewrite split_ren. reflexivity. Qed.
    Lemma vet_ren p f imp dec inner cs oob al k :
      vet_split A St rnd K' kShuffleCases' kTarget' (ren_p p) (ren_f f) imp dec inner cs oob al (kr k) =
      rmap (fun x => (fst x, kr (snd x))) (vet_split A St rnd K kShuffleCases kTarget p f imp dec inner cs oob al k).
    Proof.
      unfold vet_split. cbn [pVet pEvalOob pLeaf pExtra ren_p]. destruct (pVet p && nltb A dec inner); [|reflexivity].
      apply (bind_sim kr); [apply Hshuffle|]. intros k1. rewrite Htarget, best_ren. apply bind_same. intros r. destruct (pEvalOob p); reflexivity.
    Qed.
    Lemma try_ren p imp s : try_candidate A St T rnd K' kShuffleCases' kTarget' (ren_p p) imp (bren s) = rmap bren (try_candidate A St T rnd K kShuffleCases kTarget p imp s).
    Proof.
      unfold try_candidate. cbn [bren bCans bCases bOob bConsts bDrawn bLast bFi bCode bDec bAl bK]. apply bind_same. intros i.
      apply (bind_sim ren_f); [apply get_ren|]. intros f. cbn [ren_p pLeaf pExtra]. rewrite best_ren. apply bind_same. intros r.
      apply bind_same. intros [[[cans nc] dc] last]. rewrite oob_ren. apply bind_same. intros [[inner oob] al].
      apply (bind_sim (fun x : A * list nat * list nat * allocs St * K => (fst x, kr (snd x)))); [apply vet_ren|]. intros [[[[inner2 cs] oob2] al2] k].
      cbn [fst snd]. destruct (nltb A (bDec s) inner2); reflexivity.
    Qed.
    Lemma splitter_ren p imp s : splitter_loop A St T rnd K' kShuffleCases' kTarget' (ren_p p) imp (bren s) = rmap bren (splitter_loop A St T rnd K kShuffleCases kTarget p imp s).
    Proof.
      unfold splitter_loop. cbn [ren_p pTry pForce bren bCans].
      apply (loop_sim (fun x : nat * bstate A St K => (fst x, bren (snd x))) bren) with (s := (0, s)). clear s. intros [j s]. cbn [fst snd bren bDrawn bCans bConsts].
      destruct (pForce p && (pTry p <=? j) && (j <=? bDrawn s) || (j <? pTry p)); [|reflexivity].
      destruct (length (bCans s) <=? bConsts s); [reflexivity|].
      apply (bind_sim (fun x : bstate A St K * bool => (bren (fst x), snd x))); [apply draw_ren|]. intros [s1 e]. cbn [fst snd].
      destruct e; [|reflexivity]. apply (bind_sim bren); [apply try_ren|]. reflexivity.
    Qed.
    Lemma bestsplitter_ren p cases cs oob ncb al k :
      BestSplitter A St T rnd K' kCopyFrom' kShuffleCases' kTarget' (ren_p p) cases cs oob ncb al (kr k) =
      rmap bren (BestSplitter A St T rnd K kCopyFrom kShuffleCases kTarget p cases cs oob ncb al k).
    Proof.
      unfold BestSplitter. apply bind_same. intros [imp tg]. cbn [ren_p pVet].
      assert (E : (if pVet p then kCopyFrom' (kr k) else kr k) = kr (if pVet p then kCopyFrom k else k)) by (destruct (pVet p); [apply Hcopy|reflexivity]).
      rewrite E. destruct (nleb A imp (minImp A) && nleb A (nofZ A 0) imp); [reflexivity|]. apply (splitter_ren p imp (mkBS A St K _ _ _ _ _ _ _ _ _ _ _)).
    Qed.
    Definition vren (v : visited) : visited :=
      mkV (ren_d (gvD v)) (ren_n (gvL v)) (ren_n (gvR v)) (ren_n (gvM v)) (gvFi v) (gvSplit v) (gvConsts v) (gvCases v).
    Lemma isNil_ren n : isNil (ren_n n) = isNil n.
    Proof. destruct n; reflexivity. Qed.
    Lemma new_ren : ren_n newNode = newNode.
    Proof. cbn. unfold ren_d. cbn. rewrite Hempty. reflexivity. Qed.
    Lemma visit_ren p d l r m cases depth ncb g :
      grow_visit A St T predict' rnd K' kCopyFrom' kShuffleCases' kTarget' (ren_p p) (ren_d d) (ren_n l) (ren_n r) (ren_n m) cases depth ncb (gren g) =
      rmap (fun x => (vren (fst x), gren (snd x))) (grow_visit A St T predict rnd K kCopyFrom kShuffleCases kTarget p d l r m cases depth ncb g).
    Proof.
      unfold grow_visit. cbn [ren_p pMaxDepth pLeaf pSplitMissing pData].
      destruct (((depth <? pMaxDepth p) || (pMaxDepth p <=? 0)) && (2 * pLeaf p <=? length cases)).
      2:{ apply (bind_sim pn); [apply Hpredict|]. reflexivity. }
      apply (bind_sim bren); [apply bestsplitter_ren|]. intros b. cbn [bren bCode bCases bConsts bFi bCans bOob bAl bK bDec gren gImp gDepth].
      destruct (isCNil (bCode b)). { apply (bind_sim pn); [apply Hpredict|]. reflexivity. }
      apply bind_same. intros [imp du]. apply (bind_sim ren_f); [apply get_ren|]. intros f. apply (bind_sim ren_s); [apply decode_ren|]. intros s.
      rewrite !isNil_ren. cbn [rmap fst snd]. f_equal. f_equal. unfold vren. cbn [gvD gvL gvR gvM gvFi gvSplit gvConsts gvCases]. f_equal.
      - unfold ren_d. cbn. rewrite Hempty. reflexivity.
      - destruct (isNil l || isNil r); [rewrite new_ren|]; reflexivity.
      - destruct (isNil l || isNil r); [rewrite new_ren|]; reflexivity.
      - destruct (pSplitMissing p); [rewrite new_ren|]; reflexivity.
    Qed.
    Lemma grow_ren fuel : forall p n cases depth ncb g,
      grow_node A St T predict' rnd K' kCopyFrom' kShuffleCases' kTarget' fuel (ren_p p) (ren_n n) cases depth ncb (gren g) =
      rmap (fun x => (ren_n (fst x), gren (snd x))) (grow_node A St T predict rnd K kCopyFrom kShuffleCases kTarget fuel p n cases depth ncb g).
    Proof.
      induction fuel as [|fuel IH]; intros p n cases depth ncb g; cbn [grow_node]; [reflexivity|]. destruct n as [|d l r m]; [reflexivity|]. cbn [ren_n].
      apply (bind_sim (fun x : visited * gstate A St K => (vren (fst x), gren (snd x)))); [apply visit_ren|]. intros [v g1]. cbn [fst snd vren gvSplit gvFi gvCases gvConsts gvD gvL gvR gvM].
      destruct (isCNil (gvSplit v)); [reflexivity|]. apply (bind_sim ren_f); [apply get_ren|]. intros f. rewrite points_ren. apply bind_same. intros [[cs li] ri].
      apply bind_same. intros lc. apply (bind_sim (fun x : node * gstate A St K => (ren_n (fst x), gren (snd x)))); [apply IH|]. intros [l' g2]. cbn [fst snd].
      apply bind_same. intros rc. apply (bind_sim (fun x : node * gstate A St K => (ren_n (fst x), gren (snd x)))); [apply IH|]. intros [r' g3]. cbn [fst snd].
      apply (bind_sim (fun x : node * gstate A St K => (ren_n (fst x), gren (snd x)))); [|intros [m' g4]; reflexivity].
      rewrite isNil_ren. destruct (negb (li =? ri) && negb (isNil (gvM v))); [|reflexivity]. apply bind_same. intros mc. apply IH.
    Qed.

    (** *** Jungles *)
    Definition jren (n : jnode) : jnode := mkJ (ren_d (jD n)) (jL n) (jR n) (jM n).
    Definition sren (s : jstate A St K) : jstate A St K' := mkS A St K' (map jren (sHeap s)) (sNodes s) (sCases s) (gren (sG s)).
    Lemma set_ren {B C} (h : B -> C) l i x : set (map h l) i (h x) = rmap (map h) (set l i x).
    Proof. unfold set. rewrite map_length. destruct (i <? length l); [|reflexivity]. cbn. f_equal. symmetry. apply map_upd_ren. Qed.
    Lemma jnew_ren : jren jnew = jnew.
    Proof. unfold jren, ren_d. cbn. rewrite Hempty. reflexivity. Qed.
    Lemma jleaf_ren e inner s : jleaf A St predict' K' e inner (sren s) = rmap sren (jleaf A St predict K e inner s).
    Proof.
      unfold jleaf. cbn [sren sHeap sNodes sCases sG]. apply (bind_sim jren); [apply get_ren|]. intros n. apply (bind_sim pn); [apply Hpredict|]. intros pred.
      apply (bind_sim (map jren)); [|reflexivity]. apply (set_ren jren _ _ (mkJ (mkNd CNil (dFeat (jD n)) pred None) (jL n) (jR n) (jM n))).
    Qed.
    Lemma jsplit_ren p e depth b s : jsplit A St K' (ren_p p) e depth (bren b) (sren s) = rmap sren (jsplit A St K p e depth b s).
    Proof.
      unfold jsplit. cbn [sren sHeap sNodes sCases sG bren bCode bCases bConsts bFi bDec gren gImp gDepth ren_p pData pSplitMissing].
      apply bind_same. intros [imp du]. apply (bind_sim ren_f); [apply get_ren|]. intros f. apply (bind_sim ren_s); [apply decode_ren|]. intros spl.
      rewrite points_ren. apply bind_same. intros [[cs li] ri]. rewrite !map_length. apply (bind_sim jren); [apply get_ren|]. intros n.
      apply (bind_sim (map jren)).
      { rewrite <- set_ren. f_equal. unfold jren, ren_d. cbn. rewrite Hempty. reflexivity. }
      intros heap. cbn [rmap]. f_equal. unfold sren. cbn [sHeap sNodes sCases sG]. f_equal.
      rewrite map_app. f_equal. cbn [map app]. rewrite jnew_ren. destruct (pSplitMissing p); cbn [map]; rewrite ?jnew_ren; reflexivity.
    Qed.
    Lemma jvisit_ren p depth i s : jvisit A St T predict' rnd K' kCopyFrom' kShuffleCases' kTarget' (ren_p p) depth i (sren s) =
      rmap sren (jvisit A St T predict rnd K kCopyFrom kShuffleCases kTarget p depth i s).
    Proof.
      unfold jvisit. cbn [sren sHeap sNodes sCases sG ren_p pMaxDepth pLeaf]. apply bind_same. intros e. destruct (eDead e); [reflexivity|].
      apply bind_same. intros inner. destruct (((depth <? pMaxDepth p) || (pMaxDepth p <=? 0)) && (2 * pLeaf p <=? length inner)); [|apply jleaf_ren].
      apply (bind_sim bren); [apply bestsplitter_ren|]. intros b.
      destruct (isCNil (bCode b)) eqn:Ec; cbn [bren bCode]; rewrite Ec.
      - exact (jleaf_ren e (bCases b) (mkS A St K (sHeap s) (sNodes s) (putwin (sCases s) (eStart e) (bCases b)) (mkG A St K (bCans b) (bOob b) (bAl b) (bK b) (gImp (sG s)) (gDepth (sG s))))).
      - exact (jsplit_ren p e depth b (mkS A St K (sHeap s) (sNodes s) (putwin (sCases s) (eStart e) (bCases b)) (mkG A St K (bCans b) (bOob b) (bAl b) (bK b) (gImp (sG s)) (gDepth (sG s))))).
    Qed.
    Lemma partner_ren i last s : partner A St T K' i last (sren s) = partner A St T K i last s.
    Proof. reflexivity. Qed.
    Lemma redirect_ren a b n : redirect a b (jren n) = jren (redirect a b n).
    Proof. unfold redirect. cbn [jren jL jR jM jD]. destruct (same (jL n) a); [reflexivity|]. destruct (same (jR n) a); [reflexivity|]. destruct (same (jM n) a); reflexivity. Qed.
    Lemma merge_ren i j s : merge A St K' i j (sren s) = rmap sren (merge A St K i j s).
    Proof.
      unfold merge. cbn [sren sHeap sNodes sCases sG]. apply bind_same. intros ni. apply bind_same. intros nj. apply bind_same. intros nodes.
      destruct (eParent nj) as [q|]; [|reflexivity]. apply (bind_sim jren); [apply get_ren|]. intros parent.
      apply (bind_sim (map jren)); [rewrite redirect_ren; apply set_ren|]. reflexivity.
    Qed.
    Lemma pass_ren last s : merge_pass A St T K' last (sren s) = rmap (fun x => (fst x, sren (snd x))) (merge_pass A St T K last s).
    Proof.
      unfold merge_pass. cbn [sren sNodes]. apply (for_up_sim (fun x : bool * jstate A St K => (fst x, sren (snd x)))) with (s := (false, s)).
      intros i [ch s0]. cbn [fst snd sren sNodes]. apply bind_same. intros e. destruct (eDead e); [reflexivity|].
      fold (sren s0). rewrite partner_ren. apply bind_same. intros [[j|] tg]; [|reflexivity].
      apply (bind_sim sren); [apply (merge_ren i j (with_tgt A St K s0 tg))|]. reflexivity.
    Qed.
    Lemma merging_ren last s : merging A St T K' last (sren s) = rmap sren (merging A St T K last s).
    Proof.
      unfold merging. cbn [sren sNodes]. apply (loop_sim sren sren). intros s0. apply (bind_sim (fun x : bool * jstate A St K => (fst x, sren (snd x)))); [apply pass_ren|].
      intros [ch s1]. cbn [fst snd]. destruct ch; reflexivity.
    Qed.
    Lemma levels_ren p fuel s : levels A St T predict' rnd K' kCopyFrom' kShuffleCases' kTarget' (ren_p p) fuel (sren s) =
      rmap sren (levels A St T predict rnd K kCopyFrom kShuffleCases kTarget p fuel s).
    Proof.
      unfold levels. apply (loop_sim (fun x : nat * nat * jstate A St K => (fst x, sren (snd x))) sren) with (s := (0, 0, s)). clear s. intros [[first depth] s]. cbn [fst snd].
      apply (bind_sim sren); [cbn [sren sNodes]; apply (for_up_sim sren); intros i s0; apply jvisit_ren|]. intros s1. cbn [sren sNodes].
      destruct (length (sNodes s1) =? length (sNodes s)); [reflexivity|]. fold (sren s1). apply (bind_sim sren); [apply merging_ren|]. reflexivity.
    Qed.
  End Growing.

  (** *** Voting *)
  Hypothesis Hfn : forall a b, fn a = fn b -> a = b.
  Hypothesis Hcn : forall f, renaming (cn f).

  (** The matrix has the features the tree splits on. *)
  Definition knows (fm : fmatrix) (d : nd) : Prop :=
    match dSpl d with
    | Some s => exists i f, assoc (sFeature s) (fmMap fm) = Some i /\ nth_error (fmData fm) i = Some f /\ fName f = sFeature s
    | None => True
    end.
  Lemma assoc_ren {B} (h : string -> string) (Hh : forall a b, h a = h b -> a = b) k (m : list (string * B)) :
    assoc (h k) (map (fun p => (h (fst p), snd p)) m) = assoc k m.
  Proof.
    induction m as [|[k' v] m IH]; cbn; [reflexivity|]. rewrite IH. destruct (String.eqb_spec k k') as [->|Hk]; [rewrite String.eqb_refl; reflexivity|].
    destruct (String.eqb_spec (h k) (h k')); [exfalso; auto|reflexivity].
  Qed.
  Lemma name_ren f : fName (ren_f f) = fn (fName f).
  Proof. destruct f; reflexivity. Qed.
  Lemma left_ren f i s : fName f = sFeature s -> fGoesLeft (ren_f f) i (ren_s s) = fGoesLeft f i s.
  Proof.
    destruct f as [f|f]; cbn; intros E; [reflexivity|]. unfold cGoesLeft. cbn. destruct (get (cData f) i) as [c| |]; cbn [bind]; auto.
    rewrite get_ren. destruct (get (cmBack (cMap f)) c) as [v| |]; cbn [rmap bind]; auto. f_equal. unfold inleft, ren_s. cbn [sLeft]. rewrite E.
    induction (sLeft s) as [|x l IH]; cbn; [reflexivity|]. rewrite IH. f_equal.
    destruct (String.eqb_spec v x) as [->|Hv]; [apply String.eqb_refl|]. apply String.eqb_neq. intros X. apply Hv. apply (rn_inj _ (Hcn (sFeature s))). exact X.
  Qed.
  Lemma split_node_ren fm d cs : knows fm d -> node_split (ren_fm fm) (ren_d d) cs = node_split fm d cs.
  Proof.
    intros Hk. unfold node_split. cbn [ren_d dCode dFeat dSpl]. destruct (isCNil (dCode d)); cbn [negb].
    - unfold knows in Hk. destruct (dSpl d) as [s|]; [|reflexivity]. cbn [option_map]. destruct Hk as (i & f & H1 & H2 & H3). unfold splSplit, fmLookup. cbn [ren_s sFeature ren_fm fmMap fmData].
      rewrite (assoc_ren fn Hfn), H1, get_ren. assert (G : get (fmData fm) i = Ok f) by (unfold get; rewrite H2; reflexivity). rewrite !G. cbn [rmap bind]. unfold splSplitF.
      assert (E : forall cs, split_loop (fun c => if fMissingVals (ren_f f) then fIsMissing (ren_f f) c else Ok false) (fun c => fGoesLeft (ren_f f) c (ren_s s)) cs =
        split_loop (fun c => if fMissingVals f then fIsMissing f c else Ok false) (fun c => fGoesLeft f c s) cs).
      { intros l. apply split_loop_ext; [intros c; destruct f; reflexivity|]. intros c _. apply left_ren, H3. }
      rewrite E. reflexivity.
    - cbn [ren_fm fmData]. rewrite get_ren. destruct (get (fmData fm) (dFeat d)) as [f| |]; cbn [rmap bind]; auto. rewrite split_ren. reflexivity.
  Qed.
  Lemma recurse_ren {St St'} (r : visit -> St -> res St) (r' : visit -> St' -> res St') (h : St -> St') fm :
    (forall n lo hi cs dp st, r' (mkVisit (ren_n n) lo hi cs dp) (h st) = rmap h (r (mkVisit n lo hi cs dp) st)) ->
    forall n, Forall (knows fm) (nodes_of n) -> forall arr lo hi dp st,
    Recurse r' (ren_fm fm) (ren_n n) arr lo hi dp (h st) = rmap (fun x => (fst x, h (snd x))) (Recurse r fm n arr lo hi dp st).
  Proof.
    intros Hr. induction n as [|d l IHl r0 IHr m IHm]; intros Hk arr lo hi dp st; [reflexivity|]. cbn [nodes_of] in Hk. inversion Hk as [|? ? Hd Hc]; subst.
    rewrite !Forall_app in Hc. destruct Hc as (Cl & Cr & Cm). cbn [ren_n Recurse]. apply bind_same. intros cs.
    apply (bind_sim h); [apply (Hr (Node d l r0 m))|]. intros st0. rewrite (split_node_ren fm d cs Hd). apply bind_same. intros [sr|]; [|reflexivity].
    apply (bind_sim (fun x : list nat * St => (fst x, h (snd x)))); [apply IHl; exact Cl|]. intros [arr1 st1]. cbn [fst snd].
    apply (bind_sim (fun x : list nat * St => (fst x, h (snd x)))); [apply IHr; exact Cr|]. intros [arr2 st2]. cbn [fst snd]. rewrite isNil_ren.
    destruct ((0 <? length (srM sr)) && negb (isNil m)); [apply IHm; exact Cm|reflexivity].
  Qed.
  Definition ren_votes (bb : ballots) : ballots := map (fun v => (fst (fst v), pn (snd (fst v)), snd v)) bb.
  Lemma votes_ren fm n w cs bb : Forall (knows fm) (nodes_of n) ->
    VoteCases (ren_fm fm) (ren_n n) w cs (ren_votes bb) = rmap (fun x => (fst x, ren_votes (snd x))) (VoteCases fm n w cs bb).
  Proof.
    intros Hk. unfold VoteCases. apply recurse_ren; [|exact Hk]. clear. intros n lo hi cs dp st. cbn [vNode vCases].
    destruct n as [|d l r m]; [reflexivity|]. cbn [isLeaf ren_n bind]. rewrite !isNil_ren. destruct (isNil l && isNil r); [|reflexivity].
    apply for_up_sim. intros i bb. apply bind_same. intros c. cbn [rmap]. unfold ren_votes. rewrite map_app. reflexivity.
  Qed.
End Ren.

(** ** The claim for trees *)
(** For every target that is known by the numbers of its values: the same draws, candidates,
    importances and depths; the tree with other names. *)
Theorem C147_tree : forall fn cn pn A St (T : target A St) predict predict' rnd K K' (kr : K -> K') kCopyFrom kCopyFrom' kShuffleCases kShuffleCases' kTarget kTarget'
    fuel p root cases g,
  (forall cs, predict' cs = rmap pn (predict cs)) -> pn "" = "" ->
  (forall k, kCopyFrom' (kr k) = kr (kCopyFrom k)) -> (forall r cs k, kShuffleCases' r cs (kr k) = rmap kr (kShuffleCases r cs k)) ->
  (forall k, kTarget' (kr k) = kTarget k) ->
  Grow A St T predict' rnd K' kCopyFrom' kShuffleCases' kTarget' fuel (ren_p fn cn p) (ren_n fn cn pn root) cases (gren A St K K' kr g) =
  rmap (fun x => (ren_n fn cn pn (fst x), gren A St K K' kr (snd x))) (Grow A St T predict rnd K kCopyFrom kShuffleCases kTarget fuel p root cases g).
Proof. intros. apply grow_ren; assumption. Qed.
Print Assumptions C147_tree.

Lemma mode_ren fn cn f cs : cFindPredicted (ren_c fn cn f) cs = rmap (cn (cName f)) (cFindPredicted f cs).
Proof.
  unfold cFindPredicted, cMode, cModei, mode_counts. unfold ren_c at 1 2 3. cbn [cMissing cData cMap]. rewrite ncats_ren.
  apply bind_same. intros m. cbn [ren_map cmBack cMap ren_c]. apply get_ren.
Qed.
(** What a run leaves: the tree, the candidates, the random draws used, importances and depths. *)
Definition summary {A St K} (m : res (node * gstate A St K)) : res (node * list nat * nat * option (list (rmean A)) * option (list nat)) :=
  rmap (fun x => (fst x, gCans (snd x), aDraw (gAl (snd x)), gImp (snd x), gDepth (snd x))) m.
Definition ren_summary {A : arith} fn cn pn (x : node * list nat * nat * option (list (rmean A)) * option (list nat)) :=
  let '(n, c, d, i, e) := x in (ren_n fn cn pn n, c, d, i, e).
(** A categorical target whose own name and categories change too. *)
Theorem C147_classification : forall fn cn A St (F : list nat -> target A St) rnd tf fuel p root cases cans oob al imp du,
  renaming (cn (cName tf)) ->
  let pn := cn (cName tf) in
  summary (grow_cat A St F cFindPredicted rnd (ren_c fn cn tf) fuel (ren_p fn cn p) (ren_n fn cn pn root) cases cans oob al imp du) =
  rmap (ren_summary fn cn pn) (summary (grow_cat A St F cFindPredicted rnd tf fuel p root cases cans oob al imp du)).
Proof.
  intros fn cn A St F rnd tf fuel p root cases cans oob al imp du Hr pn. unfold grow_cat. 
  pose proof (C147_tree fn cn pn A St (F (cData tf)) (cFindPredicted tf) (cFindPredicted (ren_c fn cn tf)) rnd catF catF (ren_c fn cn)
    (cCopyInTo tf) (cCopyInTo (ren_c fn cn tf)) cShuffleCases cShuffleCases (fun k => F (cData k)) (fun k => F (cData k)) fuel p root cases
    (mkG A St catF cans oob al (cCopy tf) imp du)) as E. unfold gren in E at 1. cbn [gCans gOob gAl gK gImp gDepth] in E.
  unfold summary. etransitivity; [apply (f_equal (rmap _)); apply E|].
  - intros cs. apply mode_ren.
  - apply (rn_fixed _ Hr). reflexivity.
  - reflexivity.
  - intros r cs k. unfold cShuffleCases. cbn [ren_c cMissing cData]. destruct (shuffleCases r cs (cMissing k) (cData k)) as [[ms d]| |]; reflexivity.
  - reflexivity.
  - clear E. destruct (Grow A St (F (cData tf)) _ _ _ _ _ _ _ _ _ _ _) as [[n g]| |]; reflexivity.
Qed.
Print Assumptions C147_classification.
(** A numerical target. *)
Theorem C147_regression : forall fn cn A St (F : list f64 -> target A St) P rnd tf fuel p root cases cans oob al imp du,
  (forall f name cs, P (mkNum (nData f) (nMissing f) name (nHas f)) cs = P f cs) ->
  let tf' := mkNum (nData tf) (nMissing tf) (fn (nName tf)) (nHas tf) in
  let pn := fun s : string => s in
  summary (grow_num A St F P rnd tf' fuel (ren_p fn cn p) (ren_n fn cn pn root) cases cans oob al imp du) =
  rmap (ren_summary fn cn pn) (summary (grow_num A St F P rnd tf fuel p root cases cans oob al imp du)).
Proof.
  intros fn cn A St F P rnd tf fuel p root cases cans oob al imp du HP tf' pn. unfold grow_num.
  set (kr := fun k : numF => mkNum (nData k) (nMissing k) (fn (nName k)) (nHas k)).
  pose proof (C147_tree fn cn pn A St (F (nData tf)) (P tf) (P tf') rnd numF numF kr
    (nCopyInTo tf) (nCopyInTo tf') nShuffleCases nShuffleCases (fun k => F (nData k)) (fun k => F (nData k)) fuel p root cases
    (mkG A St numF cans oob al (nCopy tf) imp du)) as E. unfold gren in E at 1. cbn [gCans gOob gAl gK gImp gDepth] in E.
  unfold summary. etransitivity; [apply (f_equal (rmap _)); apply E|].
  - intros cs. unfold tf'. rewrite HP. unfold pn. symmetry. apply rmap_id.
  - reflexivity.
  - reflexivity.
  - intros r cs k. unfold nShuffleCases, kr. cbn [nMissing nData nName nHas]. destruct (shuffleCases r cs (nMissing k) (nData k)) as [[ms d]| |]; reflexivity.
  - reflexivity.
  - clear E. destruct (Grow A St (F (nData tf)) _ _ _ _ _ _ _ _ _ _ _) as [[n g]| |]; reflexivity.
Qed.
Print Assumptions C147_regression.

(** ** The claim for votes *)
(** On any matrix with the features the tree splits on, renamed alike: the same votes for the new names. *)
Theorem C147_votes : forall fn cn pn fm n w cs bb, (forall a b, fn a = fn b -> a = b) -> (forall f, renaming (cn f)) ->
  Forall (knows fm) (nodes_of n) ->
  VoteCases (ren_fm fn cn fm) (ren_n fn cn pn n) w cs (ren_votes pn bb) = rmap (fun x => (fst x, ren_votes pn (snd x))) (VoteCases fm n w cs bb).
Proof. intros. apply votes_ren; assumption. Qed.
Print Assumptions C147_votes.

(** ** The claim for jungles *)
Theorem C147_jungle : forall fn cn pn A St (T : target A St) predict predict' rnd K K' (kr : K -> K') kCopyFrom kCopyFrom' kShuffleCases kShuffleCases' kTarget kTarget'
    fuel p heap cases g,
  (forall cs, predict' cs = rmap pn (predict cs)) -> pn "" = "" ->
  (forall k, kCopyFrom' (kr k) = kr (kCopyFrom k)) -> (forall r cs k, kShuffleCases' r cs (kr k) = rmap kr (kShuffleCases r cs k)) ->
  (forall k, kTarget' (kr k) = kTarget k) ->
  GrowJungleOn A St T predict' rnd K' kCopyFrom' kShuffleCases' kTarget' (ren_p fn cn p) (map (jren fn cn pn) heap) fuel cases (gren A St K K' kr g) =
  rmap (sren fn cn pn A St K K' kr) (GrowJungleOn A St T predict rnd K kCopyFrom kShuffleCases kTarget p heap fuel cases g).
Proof. intros. unfold GrowJungleOn. apply (levels_ren fn cn pn) with (s := mkS A St K heap [mkE 0 0 (length cases) 0 None false] cases g); assumption. Qed.
Print Assumptions C147_jungle.

(** ** From training to votes *)
(** A tree grown from nothing on renamed data, asked about renamed data that has the candidates. *)
Theorem C147_grown_votes : forall fn cn A St (F : list nat -> target A St) rnd tf fuel p cases cans oob al imp du n g fm w cs,
  (forall a b, fn a = fn b -> a = b) -> (forall f, renaming (cn f)) ->
  grow_cat A St F cFindPredicted rnd tf fuel p newNode cases cans oob al imp du = Ok (n, g) ->
  names_ok fm -> (forall i f, In i cans -> nth_error (pData p) i = Some f -> exists f', In f' (fmData fm) /\ fName f' = fName f) ->
  exists n' g', grow_cat A St F cFindPredicted rnd (ren_c fn cn tf) fuel (ren_p fn cn p) newNode cases cans oob al imp du = Ok (n', g') /\
    VoteCases (ren_fm fn cn fm) n' w cs [] = rmap (fun x => (fst x, ren_votes (cn (cName tf)) (snd x))) (VoteCases fm n w cs []).
Proof.
  intros fn cn A St F rnd tf fuel p cases cans oob al imp du n g fm w cs Hf Hc Hg [N1 N2] Hd. set (pn := cn (cName tf)).
  assert (P0 : pn "" = "") by (apply (rn_fixed _ (Hc (cName tf))); reflexivity).
  pose proof (C147_classification fn cn A St F rnd tf fuel p newNode cases cans oob al imp du (Hc (cName tf))) as E. cbn zeta in E. fold pn in E.
  rewrite (new_ren fn cn pn P0), Hg in E. cbn [summary rmap ren_summary] in E.
  destruct (grow_cat A St F cFindPredicted rnd (ren_c fn cn tf) fuel (ren_p fn cn p) newNode cases cans oob al imp du) as [[n' g']| |]; try discriminate E.
  cbn [summary rmap fst snd] in E. injection E as -> _ _ _ _. do 2 eexists. split; [reflexivity|].
  apply (C147_votes fn cn pn fm n w cs []); auto.
  unfold grow_cat in Hg. destruct (C145_tree A St (F (cData tf)) (cFindPredicted tf) rnd catF (cCopyInTo tf) cShuffleCases (fun k => F (cData k)) p (pData p) fuel newNode cases
    (mkG A St catF cans oob al (cCopy tf) imp du)) as [_ X]; [reflexivity|constructor; [left; split; reflexivity|constructor]|].
  apply X in Hg as (Hn & _). eapply Forall_impl; [|exact Hn]. clear - Hd N1 N2. intros d [[_ H]|(_ & Hi & f & s & H1 & H2 & H3)]; unfold knows; [rewrite H; exact I|].
  rewrite H2. destruct (Hd _ f Hi H1) as (f' & Hin & En). destruct (N2 f' Hin) as (k & Hk). destruct (N1 _ _ Hk) as (f2 & Hk2 & En2).
  exists k, f2. rewrite H3, <- En. auto.
Qed.
Print Assumptions C147_grown_votes.

(** ** Counting the votes *)
Definition ren_box {N : arith} (pn : string -> string) (bb : catBox N) : catBox N := mkCB (ren_map pn (cbMap bb)) (cbBox bb).
Definition cast (N : arith) (v : nat * string * N) (bb : catBox N) : res (catBox N) := let '(c, pred, w) := v in catVote N bb c pred w.
Lemma number_ren h m v : (forall a b, h a = h b -> a = b) -> CatToNum (ren_map h m) (h v) = (ren_map h (fst (CatToNum m v)), snd (CatToNum m v)).
Proof.
  intros Hh. unfold CatToNum. cbn [ren_map cmMap cmBack]. rewrite (assoc_ren h Hh). destruct (assoc v (cmMap m)); [reflexivity|]. rewrite map_length.
  cbn [fst snd]. unfold ren_map. cbn [cmMap cmBack map fst snd]. rewrite map_app. reflexivity.
Qed.
Theorem C147_tally : forall (N : arith) pn (vs : list (nat * string * N)) (bb : catBox N), renaming pn ->
  foreach (map (fun v => (fst (fst v), pn (snd (fst v)), snd v)) vs) (cast N) (ren_box pn bb) = rmap (ren_box pn) (foreach vs (cast N) bb) /\
  forall iter, catTally N (ren_box pn bb) iter = rmap pn (catTally N bb iter).
Proof.
  intros N pn vs bb Hr. split.
  - apply foreach_sim. clear vs bb. intros [[c v] w] bb. unfold cast. cbn [fst snd]. unfold catVote. cbn [ren_box cbMap cbBox]. rewrite (number_ren pn _ _ (rn_inj _ Hr)).
    destruct (CatToNum (cbMap bb) v) as [m k]. cbn [fst snd]. apply bind_same. intros b. apply bind_same. reflexivity.
  - intros iter. unfold catTally. cbn [ren_box cbMap ren_map cmBack]. destruct (tally_loop N iter 0 (nofZ N 0)) as [k v]. destruct (nltb N (nofZ N 0) v); [apply get_ren|].
    cbn. f_equal. symmetry. apply (rn_fixed _ Hr). reflexivity.
Qed.
Print Assumptions C147_tally.
(** The error is the same number. *)
Theorem C147_error : forall (N : arith) fn cn f (bb : catBox N) iters, renaming (cn (cName f)) ->
  catTallyError N (ren_box (cn (cName f)) bb) (ren_c fn cn f) iters = catTallyError N bb f iters.
Proof.
  intros N fn cn f bb iters Hr. unfold catTallyError. cbn [ren_c cMap]. rewrite ncats_ren. apply (f_equal (fun m => bind m _)).
  unfold cLength. cbn [ren_c cMissing]. apply for_up_eq. intros i [correct total]. unfold cGeti, cIsMissing. cbn [ren_c cData cMissing cMap].
  apply bind_ext. intros value _. cbn [ren_box cbBox]. apply bind_ext. intros b _. rewrite (proj2 (C147_tally N (cn (cName f)) [] bb Hr)).
  destruct (catTally N bb (iters i)) as [pr| |]; cbn [rmap bind]; auto. apply bind_ext. intros m _. destruct m; auto. apply bind_ext. intros t _. apply bind_ext. intros total' _.
  unfold NumToCat. cbn [ren_map cmBack]. rewrite get_ren. destruct (get (cmBack (cMap f)) value) as [name| |]; cbn [rmap bind]; auto.
  assert (E : String.eqb (cn (cName f) name) (cn (cName f) pr) = String.eqb name pr).
  { destruct (String.eqb_spec name pr) as [->|Hn]; [apply String.eqb_refl|]. apply String.eqb_neq. intros X. apply Hn. apply (rn_inj _ Hr). exact X. }
  rewrite E. reflexivity.
Qed.
Print Assumptions C147_error.

(** ** Reading *)
(** A column of renamed words is the renamed column: categories are numbered as they come. *)
Theorem C147_column : forall fn cn name ws, renaming (cn name) ->
  let column name ws := fold_left cAppend ws (mkCat emptyCM [] [] name false false) in
  column (fn name) (map (cn name) ws) = ren_c fn cn (column name ws).
Proof.
  intros fn cn name ws Hr column. unfold column.
  assert (G : forall f, cName f = name -> fold_left cAppend (map (cn name) ws) (ren_c fn cn f) = ren_c fn cn (fold_left cAppend ws f)).
  { induction ws as [|w ws IH]; intros f Hf; [reflexivity|]. cbn [map fold_left]. rewrite <- IH.
    - f_equal. unfold cAppend. rewrite (rn_word _ Hr). unfold ren_c at 1 2 3 4 5 6. cbn [cMap cData cMissing cName cRandom cHas].
      destruct (missing_token w); [reflexivity|]. rewrite Hf, (number_ren _ _ _ (rn_inj _ Hr)). destruct (CatToNum (cMap f) w) as [m k]. cbn [fst snd].
      unfold ren_c. cbn. rewrite ?Hf. reflexivity.
    - unfold cAppend. destruct (missing_token w); [exact Hf|]. destruct (CatToNum (cMap f) w); exact Hf. }
  etransitivity; [|apply G; reflexivity]. reflexivity.
Qed.
Print Assumptions C147_column.

(** ** Cases that meet the hypotheses *)
Definition swap_names (a b s : string) : string := if String.eqb s a then b else if String.eqb s b then a else s.
Lemma swap_renaming a b : missing_token a = false -> missing_token b = false -> renaming (swap_names a b).
Proof.
  intros Ha Hb. unfold swap_names. split.
  - intros x y. destruct (String.eqb_spec x a), (String.eqb_spec y a), (String.eqb_spec x b), (String.eqb_spec y b); congruence.
  - intros x. destruct (String.eqb_spec x a) as [->|]; [congruence|]. destruct (String.eqb_spec x b) as [->|]; [congruence|reflexivity].
  - intros x Hx. destruct (String.eqb_spec x a) as [->|]; [congruence|]. destruct (String.eqb_spec x b) as [->|]; [congruence|reflexivity].
Qed.
Definition rx_fn : string -> string := swap_names "C:colour" "C:couleur".
Definition rx_cn (f : string) : string -> string := if String.eqb f "C:class" then swap_names "yes" "oui" else swap_names "blue" "bleu".
Definition rx_column (name : string) (ws : list string) : catF := fold_left cAppend ws (mkCat emptyCM [] [] name false false).
Definition rx_words : list string := ["red"; "NA"; "blue"; "green"; "red"; "blue"].
Definition rx_t : catF := rx_column "C:class" ["yes"; "no"; "no"; "yes"; "yes"; "no"].
Definition rx_data : list feature := [FCat (rx_column "C:colour" rx_words); FNum (PropSearch.plain (map f_of_Z [1; 2; 3; 1; 4; 5]%Z))].
Definition rx_p : params := mkP rx_data 2 1 false false false false 0 true.
Definition rx_run (tf : catF) (p : params) := grow_cat F64 cst (gini_target F64) cFindPredicted (fun i => i mod 2) tf 9 p newNode [0; 1; 2; 3; 4; 5] [0; 1] [] (PropSearch.fresh 6)
  (Some (NewRunningMeans F64 2)) (Some [0; 0]).
Definition rx_splits (m : res (node * gstate F64 cst catF)) : res (list splitter * list string) :=
  rmap (fun x => (flat_map (fun d => match dSpl d with Some s => [s] | None => [] end) (nodes_of (fst x)), map dPred (nodes_of (fst x)))) m.
Example C147_ex_renaming : (forall a b, rx_fn a = rx_fn b -> a = b) /\ (forall f, renaming (rx_cn f)) /\
  rx_column "C:couleur" ["red"; "NA"; "bleu"; "green"; "red"; "bleu"] = ren_c rx_fn rx_cn (rx_column "C:colour" rx_words).
Proof.
  split; [apply rn_inj, swap_renaming; reflexivity|]. split; [intros f; unfold rx_cn; destruct (String.eqb f "C:class"); apply swap_renaming; reflexivity|vm_compute; reflexivity].
Qed.
Example C147_ex_tree :
  rx_splits (rx_run rx_t rx_p) = Ok ([mkSpl "C:colour" false f0 ["blue"]], [""; "no"; "yes"; "no"]) /\
  rx_splits (rx_run (ren_c rx_fn rx_cn rx_t) (ren_p rx_fn rx_cn rx_p)) = Ok ([mkSpl "C:couleur" false f0 ["bleu"]], [""; "no"; "oui"; "no"]).
Proof. split; vm_compute; reflexivity. Qed.
Definition rx_fm : fmatrix := mkFM rx_data [("C:colour", 0); ("", 1)] ["a"; "b"; "c"; "d"; "e"; "g"].
Example C147_ex_votes :
  match rx_run rx_t rx_p with
  | Ok (n, _) => VoteCases rx_fm n f1 [2; 3] [] = Ok ([2; 3], [(2, "no", f1); (3, "yes", f1)]) /\
      VoteCases (ren_fm rx_fn rx_cn rx_fm) (ren_n rx_fn rx_cn (rx_cn "C:class") n) f1 [2; 3] [] = Ok ([2; 3], [(2, "no", f1); (3, "oui", f1)]) /\
      Forall (knows rx_fm) (nodes_of n)
  | _ => False
  end.
Proof.
  vm_compute. split; [reflexivity|]. split; [reflexivity|]. repeat constructor. do 2 eexists. split; [reflexivity|]. split; reflexivity.
Qed.
Example C147_ex_tally : catTally F64 (ren_box (swap_names "yes" "oui") (@mkCB F64 (mkCM [("yes", 0)] ["yes"]) [[(0, f1)]])) [(0, f1)] = Ok "oui".
Proof. reflexivity. Qed.
(** A jungle on the same data. *)
Example C147_ex_jungle :
  rmap (fun s => flat_map (fun n => match dSpl (jD n) with Some s => sLeft s | None => [] end) (sHeap s))
    (GrowJungleOn F64 cst (gini_target F64 (cData rx_t)) (cFindPredicted (ren_c rx_fn rx_cn rx_t)) (fun i => i mod 2) catF (cCopyInTo rx_t) cShuffleCases (fun k => gini_target F64 (cData k))
    (ren_p rx_fn rx_cn rx_p) [jnew] 9 [0; 1; 2; 3; 4; 5] (mkG F64 cst catF [0; 1] [] (PropSearch.fresh 6) (cCopy rx_t) None None)) = Ok ["bleu"].
Proof. vm_compute. reflexivity. Qed.
