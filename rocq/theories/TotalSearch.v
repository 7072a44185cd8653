(** The searches over one feature for any target that always answers: they return,
    they only rearrange the cases, and what they report can be applied. *)
From Verif Require Import Go GoLemmas F64 F64Order F64Round ModelFeature ModelSplit SplitSpec SplitProofs
  ModelSearch SearchSpec SearchProofs CatSearchProofs GrowSpec.
From Verif Require Import PropSearch PropCatSearch.
Local Open Scope nat_scope.
Local Open Scope list_scope.

Lemma Forall_prefix {B} (P : B -> Prop) n l : Forall P l -> Forall P (firstn n l).
Proof. intros H. rewrite <- (firstn_skipn n l), Forall_app in H. tauto. Qed.
Lemma Forall_suffix {B} (P : B -> Prop) n l : Forall P l -> Forall P (skipn n l).
Proof. intros H. rewrite <- (firstn_skipn n l), Forall_app in H. tauto. Qed.

Section Total.
  Variable A : arith.
  Variable St : Type.
  Variable T : target A St.
  Variables (ok : nat -> Prop) (ready : St -> Prop).
  Hypothesis Dep : dependable T ok ready.
  Hypothesis Hsane : sane A.
  Variable rnd : nat -> nat.

  Let Hord : ordered A := proj1 Hsane.

  Lemma above_least dec x : dec = least A \/ nltb A (least A) dec = true -> nltb A dec x = true ->
    nltb A (least A) x = true.
  Proof. intros [->|H] H'; auto. eapply ordered_trans; eauto. Qed.

  (** *** numerical *)
  Section NumT.
    Variable f : numF.
    Variable cs : list nat.
    Variable vs : list f64.
    Variable parent : A.
    Let V (i : nat) : f64 := nvalue f (nth i cs 0).
    Hypothesis Hok : Forall ok cs.
    Hypothesis Hget : forall i, i < length cs -> get vs i = Ok (V i).

    Definition cut_at (lo i : nat) (dec : A) (splitf : f64) : Prop :=
      (dec = least A /\ splitf = f0) \/
      exists q p, lo <= S q /\ lo <= p < i /\ jump f cs q p /\ nltb A (least A) dec = true /\
        splitf = fdiv (fadd (V q) (V p)) f2.

    Definition numt_inv (lo i : nat) (s : nat * Z * A * f64 * St) : Prop :=
      let '(ls, lasti, dec, splitf, tg) := s in
      ready tg /\ (ls = 0 \/ 0 < ls < i) /\
      (exists q, lasti = Z.of_nat q /\ lo <= S q /\ q < i /\ forall j, q < j < i -> near f cs q j = true) /\
      cut_at lo i dec splitf.

    Lemma cut_weaken lo i dec x : cut_at lo i dec x -> cut_at lo (S i) dec x.
    Proof.
      intros [Hb|(q' & p & B1 & B2 & B3)]; [left; auto|]. right. exists q', p.
      split; auto. split; [lia|auto].
    Qed.

    Lemma numt_step_ok lo i s : 1 <= lo -> lo <= i -> i < length cs -> numt_inv lo i s ->
      yields (num_step A St T cs vs parent i s) (numt_inv lo (S i)).
    Proof.
      destruct s as [[[[ls lasti] dec] splitf] tg].
      intros Hlo Hi Hlen (Hr & Hls & (q & -> & Hq1 & Hq2 & Hq3) & Hb).
      unfold num_step. rewrite Hget by auto. cbn [bind]. rewrite getZ_of_nat, Hget by lia. cbn [bind].
      destruct (fleb (V i) (fadd (V q) f1e_7)) eqn:En.
      - apply yields_ok. split; [auto|]. split; [lia|]. split.
        { exists q. repeat split; auto; try lia. intros j Hj.
          destruct (Nat.eq_dec j i) as [->|]; [exact En|apply Hq3; lia]. }
        apply cut_weaken; auto.
      - destruct (slice_mid cs 0 i) as (S1 & _ & _); [lia|lia|].
        rewrite S1. cbn [bind]. cbn [skipn]. rewrite Nat.sub_0_r.
        destruct (slice_mid cs i (length cs)) as (S2 & _ & _); [lia|lia|].
        rewrite S2. cbn [bind].
        rewrite <- (skipn_length i cs), firstn_all.
        assert (O1 : Forall ok (firstn i cs)) by (apply Forall_prefix; auto).
        assert (O2 : Forall ok (skipn i cs)) by (apply Forall_suffix; auto).
        assert (Step : exists v tg',
          (if ls =? 0 then tSplit T (firstn i cs) (skipn i cs) None tg
           else let* mm := slice cs ls i in tUpdate T (firstn i cs) (skipn i cs) None mm tg)
          = Ok (v, tg') /\ ready tg').
        { destruct Hls as [->|Hls].
          - cbn. apply (d_split _ _ _ Dep); auto. discriminate.
          - destruct (Nat.eqb_spec ls 0); [lia|].
            destruct (slice_mid cs ls i) as (S3 & _ & _); [lia|lia|].
            rewrite S3. cbn [bind].
            apply (d_update _ _ _ Dep); auto; [discriminate|].
            apply Forall_prefix, Forall_suffix; auto. }
        destruct Step as (v & tg' & -> & Hr'). cbn [bind].
        assert (Hj : jump f cs q i) by (repeat split; auto).
        destruct (nltb A dec (decrease A parent v)) eqn:Ed; apply yields_ok.
        + split; [auto|]. split; [lia|]. split.
          { exists i. repeat split; auto; try lia. }
          right. exists q, i. split; auto. split; [lia|]. split; auto. split; auto.
          eapply above_least; [|exact Ed].
          destruct Hb as [[-> _]|(q' & p & _ & _ & _ & Hlt & _)]; auto.
        + split; [auto|]. split; [lia|]. split.
          { exists i. repeat split; auto; try lia. }
          apply cut_weaken; auto.
    Qed.

    Lemma numt_scan_ok lo n tg : 1 <= lo -> lo + n <= length cs -> ready tg ->
      yields (for_up n lo (num_step A St T cs vs parent) (0, (Z.of_nat lo - 1)%Z, least A, f0, tg))
        (numt_inv lo (lo + n)).
    Proof.
      intros Hlo Hn Hr. apply for_up_total.
      - intros i s Hi. apply numt_step_ok; auto; lia.
      - split; auto. split; [auto|]. split; [|left; auto].
        exists (lo - 1). repeat split; try lia.
    Qed.
  End NumT.

  Lemma BestNumSplit_total f cases parent leaf rs al :
    1 <= leaf -> Forall ok cases ->
    Forall (fun c => c < length (nData f) /\ nn (nvalue f c)) cases ->
    length cases <= length (aVals al) -> ready (aTgt al) ->
    exists r, BestNumSplit A St T rnd f cases parent leaf rs al = Ok r /\
      Permutation cases (fCases r) /\ keeps ready al (fAl r) /\
      (nltb A (least A) (fDec r) = true -> exists x, fCode r = CNum x /\
         ((forall c, In c cases -> valid (nvalue f c) /\ moderate (nvalue f c)) -> apart f cases ->
          admissible leaf (upto f x) cases)) /\
      (nltb A (least A) (fDec r) = false -> fDec r = least A) /\
      (fConst r = true -> nltb A (least A) (fDec r) = false /\
         exists c d, In c cases /\ In d cases /\
           (forall e, In e cases -> fleb (nvalue f c) (nvalue f e) = true) /\
           (forall e, In e cases -> fleb (nvalue f e) (nvalue f d) = true) /\
           fleb (nvalue f d) (fadd (nvalue f c) f1e_7) = true).
  Proof.
    intros Hleaf Hok Hv Hl Hr. unfold BestNumSplit.
    assert (Irr : nltb A (least A) (least A) = false) by apply (proj1 Hord).
    destruct (Nat.leb_spec (2 * leaf) (length cases)) as [Hn|Hn].
    2:{ eexists. split; [reflexivity|]. cbn [fCases fAl fDec fCode fConst]. split; auto. split; [repeat split; auto|].
        change (minImp A) with (least A). rewrite Irr. repeat split; auto; discriminate. }
    destruct (load_sort f cases (aVals al) Hv Hl) as (cs & vs & E & P & L & Hget & Hs).
    apply bind_ok in E as (w & -> & E). cbn [bind]. rewrite E. cbn [bind aTgt aDraw aCat aVals].
    pose proof (Permutation_length P) as PL.
    rewrite (Hget 0) by lia. cbn [bind].
    replace (Z.of_nat (length cases) - 1)%Z with (Z.of_nat (length cases - 1)) by lia.
    rewrite getZ_of_nat, Hget by lia. cbn [bind].
    destruct (fleb (nvalue f (nth (length cases - 1) cs 0)) (fadd (nvalue f (nth 0 cs 0)) f1e_7)) eqn:Ec.
    { eexists. split; [reflexivity|]. cbn [fCases fAl fDec fCode fConst]. split; auto. split; [repeat split; auto|].
      change (minImp A) with (least A). rewrite Irr. split; [discriminate|]. split; auto. intros _. split; auto.
      assert (Nth : forall d, In d cases -> exists i, i < length cs /\ d = nth i cs 0).
      { intros d Hd. apply (Permutation_in _ P) in Hd. apply (In_nth _ _ 0) in Hd.
        destruct Hd as (i & Hi & <-). eauto. }
      assert (Inn : forall i, i < length cs -> In (nth i cs 0) cases).
      { intros i Hi. eapply Permutation_in; [symmetry; exact P|]. apply nth_In; auto. }
      exists (nth 0 cs 0), (nth (length cases - 1) cs 0). split; [apply Inn; lia|]. split; [apply Inn; lia|]. split.
      { intros d Hd. destruct (Nth d Hd) as (i & Hi & ->). apply Hs; lia. }
      split; auto.
      intros d Hd. destruct (Nth d Hd) as (i & Hi & ->). apply Hs; lia. }
    assert (Hd : exists lo stop d,
      (if rs && (leaf <? length cases - leaf)
       then let* k := (if length cases - leaf - leaf =? 0 then Panic
                       else Ok (rnd (aDraw al) mod (length cases - leaf - leaf))) in
            Ok (leaf + k, leaf + k + 1, S (aDraw al))
       else Ok (leaf, length cases - leaf, aDraw al)) = Ok (lo, stop, d) /\
      leaf <= lo /\ lo <= stop /\ stop <= length cases - leaf).
    { destruct (Nat.ltb_spec leaf (length cases - leaf)) as [H|H].
      - destruct rs; cbn [andb].
        + destruct (Nat.eqb_spec (length cases - leaf - leaf) 0); [lia|]. cbn [bind].
          do 3 eexists. split; [reflexivity|].
          pose proof (Nat.mod_upper_bound (rnd (aDraw al)) (length cases - leaf - leaf) ltac:(lia)).
          repeat split; lia.
        + do 3 eexists. split; [reflexivity|]. repeat split; lia.
      - rewrite andb_false_r. do 3 eexists. split; [reflexivity|]. repeat split; lia. }
    destruct Hd as (lo & stop & d & -> & Hlo & Hls & Hst). cbn [bind].
    assert (Hok' : Forall ok cs) by (eapply Permutation_Forall; eauto).
    destruct (numt_scan_ok f cs vs parent Hok' Hget lo (stop - lo) (aTgt al))
      as ([[[[ls li] dec] x] tg] & E1 & Hr' & _ & _ & Hb); [lia|lia|auto|].
    change (minImp A) with (least A). rewrite E1. cbn [bind].
    eexists. split; [reflexivity|]. cbn [fCases fAl fDec fCode fConst]. split; auto. split; [repeat split; auto|].
    replace (lo + (stop - lo)) with stop in * by lia.
    split; [|split; [|discriminate]].
    - intros Lt. exists x. split; auto. intros Hvm Hap.
      destruct Hb as [[-> _]|(q & p & Hq & Hp & Hj & _ & Ex)]; [congruence|].
      assert (Hnn : forall c, In c cases -> nn (nvalue f c)).
      { intros c Hc. rewrite Forall_forall in Hv. apply Hv; auto. }
      destruct (jump_cut f cases cs P Hnn Hs q p x Hap) as [J1 J2]; auto; try lia.
      + intros c c' Hc Hc' Lc. apply midpoint_separates; try (apply Hvm; auto). apply Hap; auto.
      + intros c Hc. apply fadd_up; [apply Hvm; auto|reflexivity|exact I|vm_compute; discriminate|apply Hnn; auto].
      + unfold admissible. rewrite (Permutation_length J1), (Permutation_length J2), firstn_length, skipn_length. lia.
    - destruct Hb as [[-> _]|(q & p & _ & _ & _ & Lt & _)]; auto. congruence.
  Qed.

  (** *** categorical *)
  Section CatT.
    Variable f : catF.
    Variable cases : list nat.
    Hypothesis Hdata : Forall (fun c => c < length (cData f)) cases.
    Hypothesis Hok : Forall ok cases.
    Variable parent : A.
    Variable leaf : nat.

    Lemma test_admissible goes :
      (length (side goes cases) <? leaf) || (length (other goes cases) <? leaf) =
      if admissible_dec leaf goes cases then false else true.
    Proof.
      destruct (admissible_dec leaf goes cases) as [Ad|Na].
      - apply admissible_test. exact Ad.
      - destruct ((length (side goes cases) <? leaf) || (length (other goes cases) <? leaf)) eqn:Eo; auto.
        exfalso. apply Na. apply admissible_test. auto.
    Qed.

    Definition taken (rule : Z -> nat -> bool) (seen : list Z) (best : Z) (dec : A) : Prop :=
      dec = least A \/
      (In best seen /\ admissible leaf (rule best) cases /\ nltb A (least A) dec = true).

    Lemma taken_or rule seen best dec : taken rule seen best dec -> dec = least A \/ nltb A (least A) dec = true.
    Proof. intros [->|(_ & _ & H)]; auto. Qed.

    Lemma taken_more rule seen best dec b : taken rule seen best dec -> taken rule (seen ++ [b]) best dec.
    Proof. intros [->|(H & H')]; [left; auto|right]. split; auto. apply in_app_iff. auto. Qed.

    Lemma taken_new rule seen best dec b d : taken rule seen best dec -> admissible leaf (rule b) cases ->
      taken rule (seen ++ [b]) (if nltb A dec d then b else best) (if nltb A dec d then d else dec).
    Proof.
      intros H Ad. destruct (nltb A dec d) eqn:E; [|apply taken_more; auto].
      right. split; [apply in_app_iff; cbn; auto|]. split; auto. eapply above_least; [|exact E].
      eapply taken_or; eauto.
    Qed.

    Let rule (z : Z) : nat -> bool := among f (code_set (CInt z)).
    Variable N : nat.

    Definition catt_inv (seen : list Z) (s : list nat * list Z * Z * A * bool * St * nat) : Prop :=
      let '(cs, cached, best, dec, const, tg, d) := s in
      Permutation cases cs /\ synced f N cs cached /\ ready tg /\ taken rule seen best dec /\
      (const = true <-> forall b, In b seen -> ~ admissible leaf (rule b) cases).

    Lemma catt_step_ok (exh : bool) i seen cs cached best dec const tg d :
      let b := if exh then Z.of_nat i else (Z.of_nat (rnd d) mod 2 ^ 63)%Z in
      (0 <= b < 2 ^ 63)%Z ->
      catt_inv seen (cs, cached, best, dec, const, tg, d) ->
      exists s', cat_step A St T rnd exh parent leaf i (cs, cached, best, dec, const, tg, d) = Ok s' /\
        catt_inv (seen ++ [b]) s' /\ snd s' = (if exh then d else S d).
    Proof.
      intros b Hb (HP & HS & Hr & Ht & Hc). unfold cat_step.
      assert (Eb : (if exh then (Z.of_nat i, d) else ((Z.of_nat (rnd d) mod 2 ^ 63)%Z, S d)) = (b, if exh then d else S d))
        by (unfold b; destruct exh; auto).
      rewrite Eb. clear Eb. set (d' := if exh then d else S d).
      destruct (cat_part_ok f cases N b cs cached Hb HP HS) as (cs' & cached' & l & E & P' & S' & Hl & H1 & H2).
      rewrite E. cbn [bind].
      destruct (split_at (rule b) cases cs' l P' Hl H1 H2) as (Q1 & Q2 & L1 & L2).
      rewrite <- L2, <- L1. rewrite test_admissible.
      destruct (admissible_dec leaf (rule b) cases) as [Ad|Na].
      - rewrite L1.
        rewrite !slice_ok by lia. cbn [bind]. rewrite Nat.sub_0_r. cbn [skipn].
        replace (firstn (length cs' - l) (skipn l cs')) with (skipn l cs')
          by (symmetry; apply firstn_all2; rewrite skipn_length; lia).
        assert (O1 : Forall ok (firstn l cs')).
        { eapply Permutation_Forall; [exact Q1|]. apply Forall_filter; auto. }
        assert (O2 : Forall ok (skipn l cs')).
        { eapply Permutation_Forall; [exact Q2|]. apply Forall_filter; auto. }
        destruct (d_split _ _ _ Dep _ _ None tg O1 O2 ltac:(discriminate) Hr) as (v & tg' & Es & Hr').
        rewrite Es. cbn [bind].
        pose proof (taken_new rule seen best dec b (decrease A parent v) Ht Ad) as Ht'.
        destruct (nltb A dec (decrease A parent v)); eexists; (split; [reflexivity|]);
          (split; [|reflexivity]); (split; [auto|]); (split; [auto|]); (split; [auto|]); (split; [exact Ht'|]);
          (split; [discriminate|]); intros Hn; exfalso; apply (Hn b); auto; apply in_app_iff; cbn; auto.
      - eexists. split; [reflexivity|]. split; [|reflexivity].
        split; auto. split; auto. split; auto. split; [apply taken_more; auto|].
        rewrite Hc. split.
        + intros Hn c Hi. apply in_app_iff in Hi as [Hi|[<-|[]]]; auto.
        + intros Hn c Hi. apply Hn. apply in_app_iff; auto.
    Qed.

    Lemma BestCatSplit_total maxEx al : maxEx <= 62 -> ready (aTgt al) -> length cases <= length (aCat al) ->
      N = length (aCat al) ->
      let exh := NCats (cMap f) <=? maxEx in
      let n := nparts (if exh then NCats (cMap f) else maxEx) in
      let seen := cat_seen rnd exh n (aDraw al) in
      exists r, BestCatSplit A St T rnd f cases parent maxEx leaf al = Ok r /\
        Permutation cases (fCases r) /\ keeps ready al (fAl r) /\
        exists best, fCode r = CInt best /\ taken rule seen best (fDec r) /\
          (fConst r = true <-> forall b, In b seen -> ~ admissible leaf (rule b) cases).
    Proof.
      intros Hm Hr Hl HN exh n seen. unfold BestCatSplit.
      destruct (load_cats_ok f cases Hdata N (aCat al) Hl (eq_sym HN)) as (cached & E & Sy). rewrite E. cbn [bind].
      fold exh. fold n.
      assert (Hn : exh = true -> (Z.of_nat n <= 2 ^ 62)%Z).
      { intros Eh. unfold n. rewrite Eh. unfold exh in Eh. apply Nat.leb_le in Eh.
        pose proof (nparts_bound (NCats (cMap f)) ltac:(lia)) as B.
        apply Nat2Z.inj_le in B. rewrite Nat2Z.inj_pow in B. exact B. }
      unfold seen. clear seen. clearbody n.
      pose proof (@for_up_total _
        (fun i (s : list nat * list Z * Z * A * bool * St * nat) =>
           catt_inv (cat_seen rnd exh i (aDraw al)) s /\ (exh = false -> snd s = aDraw al + (i - 1)))
        (cat_step A St T rnd exh parent leaf) (n - 1) 1
        (cases, cached, 0%Z, minImp A, true, aTgt al, aDraw al)) as F.
      destruct F as ([[[[[[cs ca] best] dec] const] tg] d] & Ef & ((P & S' & R' & Tp & Cn) & _)).
      - intros i [[[[[[cs ca] best] dec] const] tg] d] Hi [Inv Hd]. cbn [snd] in Hd.
        assert (Hb : (0 <= (if exh then Z.of_nat i else Z.of_nat (rnd d) mod 2 ^ 63) < 2 ^ 63)%Z).
        { destruct exh.
          - specialize (Hn eq_refl). assert (2 ^ 62 < 2 ^ 63)%Z by (apply Z.pow_lt_mono_r; lia). lia.
          - apply Z.mod_pos_bound. lia. }
        destruct (catt_step_ok exh i _ cs ca best dec const tg d Hb Inv) as (s' & Es & Inv' & Ed).
        exists s'. split; auto. rewrite cat_seen_snoc by lia. split.
        + destruct exh; [exact Inv'|]. rewrite <- Hd by auto. exact Inv'.
        + intros He. rewrite He in *. rewrite Ed, Hd by auto. lia.
      - split; [|intros _; cbn; lia].
        replace (cat_seen rnd exh 1 (aDraw al)) with (@nil Z) by (destruct exh; reflexivity).
        split; auto. split; auto. split; auto. split; [left; auto|].
        split; auto; intros _ b [].
      - rewrite Ef. cbn [bind]. eexists. split; [reflexivity|]. cbn [fAl fCases fCode fDec fConst].
        assert (Ei : cat_seen rnd exh (1 + (n - 1)) (aDraw al) = cat_seen rnd exh n (aDraw al)).
        { unfold cat_seen. replace (1 + (n - 1) - 1) with (n - 1) by lia. reflexivity. }
        rewrite Ei in *. split; auto. split.
        + destruct S' as [[S1 _] _]. split; [auto|split; [cbn; congruence|auto]].
        + exists best. auto.
    Qed.

    (** The greedy searches *)
    Section IterT.
      Variables (bit : Z -> nat -> bool) (setb : Z -> nat -> Z).
      Let irule (z : Z) : nat -> bool := among f (bit z).

      Lemma itert_step_ok best dec i s :
        (let '(inner, innerImp, tg) := s in
         ready tg /\ (innerImp = dec \/ (admissible leaf (irule inner) cases /\ nltb A dec innerImp = true))) ->
        yields (iter_step A St T bit setb (cData f) cases parent leaf best i s)
          (fun '((inner, innerImp, tg) : Z * A * St) =>
             ready tg /\ (innerImp = dec \/ (admissible leaf (irule inner) cases /\ nltb A dec innerImp = true))).
      Proof.
        destruct s as [[inner innerImp] tg]. intros [Hr Ht]. unfold iter_step.
        destruct (bit best i) eqn:Eb; [apply yields_ok; auto|].
        rewrite by_bit_ok by auto. cbn [bind]. fold (irule (setb best i)).
        rewrite test_admissible.
        destruct (admissible_dec leaf (irule (setb best i)) cases) as [Ad|Na]; [|apply yields_ok; auto].
        destruct (d_split _ _ _ Dep (side (irule (setb best i)) cases) (other (irule (setb best i)) cases) None tg)
          as (v & tg' & Es & Hr'); [apply Forall_filter; auto|apply Forall_filter; auto|discriminate|auto|].
        rewrite Es. cbn [bind]. apply yields_ok.
        destruct (nltb A innerImp (decrease A parent v)) eqn:En; (split; [auto|]); auto.
        right. split; auto. destruct Ht as [->|[_ Ht]]; auto. eapply ordered_trans; eauto.
      Qed.

      Lemma itert_search_ok n tg : ready tg ->
        yields (iter_search A St T bit setb n (cData f) cases parent leaf tg)
          (fun '((best, dec, tg') : Z * A * St) => ready tg' /\
             (dec = least A \/ (admissible leaf (irule best) cases /\ nltb A (least A) dec = true))).
      Proof.
        intros Hr. unfold iter_search.
        apply (@loop_total (Z * A * St * nat) (Z * A * St)
          (fun '((best, dec, tg, j) : Z * A * St * nat) => ready tg /\ j <= n /\
             (dec = least A \/ (admissible leaf (irule best) cases /\ nltb A (least A) dec = true)))
          (fun '((best, dec, tg, j) : Z * A * St * nat) => n - j)).
        - intros [[[best dec] t] j] (R & Hj & Hb).
          destruct (Nat.ltb_spec j n) as [Hlt|Hge]; [|apply yields_ok; auto].
          destruct (@for_up_total (Z * A * St) (fun _ '((inner, innerImp, tg) : Z * A * St) =>
             ready tg /\ (innerImp = dec \/ (admissible leaf (irule inner) cases /\ nltb A dec innerImp = true)))
             (iter_step A St T bit setb (cData f) cases parent leaf best) n 0 (0%Z, dec, t))
            as ([[inner innerImp] t'] & E & R' & H).
          { intros i s _ Hs. apply itert_step_ok; auto. }
          { auto. }
          rewrite E. cbn [bind].
          destruct (nltb A dec innerImp) eqn:Ei; apply yields_ok; auto.
          split; [|lia]. split; auto. split; [lia|]. right.
          destruct H as [->|[H1 H2]]; [rewrite (proj1 Hord) in Ei; discriminate|].
          split; auto. eapply above_least; [|exact Ei]. tauto.
        - split; auto. split; [lia|]. auto.
        - lia.
      Qed.
    End IterT.

    Lemma BestCatSplitBig_total maxEx al : ready (aTgt al) ->
      exists r, BestCatSplitBig A St T rnd f cases parent maxEx leaf al = Ok r /\
        fCases r = cases /\ fConst r = false /\ keeps ready al (fAl r) /\
        exists best, fCode r = CBig best /\
          (fDec r = least A \/ (admissible leaf (among f (bigbit best)) cases /\ nltb A (least A) (fDec r) = true)).
    Proof.
      intros Hr. unfold BestCatSplitBig. cbv zeta.
      set (exh := NCats (cMap f) <=? maxEx).
      match goal with |- context [for_up ?n ?lo ?b ?s] =>
        pose proof (@for_up_total (Z * A * St * nat)
          (fun _ '((best, dec, tg, d) : Z * A * St * nat) => ready tg /\
             (dec = least A \/ (admissible leaf (among f (bigbit best)) cases /\ nltb A (least A) dec = true))) b n lo s) as F
      end.
      destruct F as ([[[best dec] tg] d] & Ef & R & H).
      - intros i [[[best dec] tg] d] Hi (R & H). cbv beta iota zeta.
        assert (Eb : exists b d', (if exh then (Z.of_nat i, d)
          else ((Z.of_nat (rnd d) mod 2 ^ Z.of_nat (NCats (cMap f) - 1))%Z, S d)) = (b, d')).
        { destruct exh; eauto. }
        destruct Eb as (b & d' & ->).
        rewrite (by_bit_ok f cases Hdata (bigbit b)). cbn [bind]. rewrite test_admissible.
        destruct (admissible_dec leaf (among f (bigbit b)) cases) as [Ad|Na]; [|apply yields_ok; auto].
        destruct (d_split _ _ _ Dep (side (among f (bigbit b)) cases) (other (among f (bigbit b)) cases) None tg)
          as (v & tg' & Es & Hr'); [apply Forall_filter; auto|apply Forall_filter; auto|discriminate|auto|].
        rewrite Es. cbn [bind]. apply yields_ok.
        destruct (nltb A dec (decrease A parent v)) eqn:En; (split; [auto|]); auto.
        right. split; auto. eapply above_least; [|exact En]. tauto.
      - auto.
      - rewrite Ef. cbn [bind]. eexists. split; [reflexivity|]. cbn [fCases fConst fDec fCode fAl].
        split; auto. split; auto. split; [split; [|split]; auto|]. exists best. auto.
    Qed.
  End CatT.

  Lemma BestBinSplit_total f cases parent leaf al : Forall ok cases -> ready (aTgt al) ->
    Forall (fun c => c < length (cData f) /\ nth c (cData f) 0 < 2) cases ->
    exists r, BestBinSplit A St T f cases parent leaf al = Ok r /\
      Permutation cases (fCases r) /\ keeps ready al (fAl r) /\
      (if admissible_dec leaf (among f (only_cat 0)) cases
       then fConst r = false /\ exists v, fCode r = CInt 1 /\ fDec r = v
       else fConst r = true /\ fDec r = nofZ A 0).
  Proof.
    intros Hok Hr Hd.
    assert (Hd1 : Forall (fun c => c < length (cData f)) cases) by (eapply Forall_impl; [|exact Hd]; cbn; tauto).
    assert (Hd2 : forall c, In c cases -> catv f c < 2).
    { intros c Hc. rewrite Forall_forall in Hd. apply Hd. auto. }
    destruct (bin_part_ok f cases Hd1) as (cs & l & E & P & Hl & H1 & H2).
    unfold BestBinSplit. rewrite E. cbn [bind].
    destruct (split_at (fun c => catv f c =? 1) cases cs l P Hl H1 H2) as (Q1 & Q2 & L1 & L2).
    assert (Flip : side (fun c => catv f c =? 1) cases = other (among f (only_cat 0)) cases /\
                   other (fun c => catv f c =? 1) cases = side (among f (only_cat 0)) cases).
    { destruct (side_ext (fun c => catv f c =? 1) (fun c => negb (among f (only_cat 0) c)) cases) as [-> ->].
      - intros c Hc. specialize (Hd2 c Hc). unfold among, only_cat. fold (catv f c).
        destruct (catv f c) as [|[|]]; auto; lia.
      - apply side_negb. }
    destruct Flip as [F1 F2].
    rewrite <- L2, <- L1. rewrite test_admissible.
    destruct (admissible_dec leaf (among f (only_cat 0)) cases) as [Ad|Na];
      destruct (admissible_dec leaf (fun c => catv f c =? 1) cases) as [Ad'|Na'].
    - rewrite L1. rewrite !slice_ok by lia. cbn [bind]. rewrite Nat.sub_0_r. cbn [skipn].
      replace (firstn (length cs - l) (skipn l cs)) with (skipn l cs)
        by (symmetry; apply firstn_all2; rewrite skipn_length; lia).
      assert (O1 : Forall ok (firstn l cs)).
      { eapply Permutation_Forall; [exact Q1|]. apply Forall_filter; auto. }
      assert (O2 : Forall ok (skipn l cs)).
      { eapply Permutation_Forall; [exact Q2|]. apply Forall_filter; auto. }
      destruct (d_split _ _ _ Dep _ _ None (aTgt al) O1 O2 ltac:(discriminate) Hr) as (v & tg' & Es & Hr').
      rewrite Es. cbn [bind].
      eexists. split; [reflexivity|]. cbn [fCases fConst fCode fDec fAl]. split; auto.
      split; [split; [|split]; auto|]. eauto.
    - exfalso. apply Na'. unfold admissible in *. rewrite F1, F2. tauto.
    - exfalso. apply Na. unfold admissible in *. rewrite F1, F2 in Ad'. tauto.
    - eexists. split; [reflexivity|]. cbn [fCases fConst fCode fDec fAl]. split; auto.
      split; [split; [|split]; auto|]. auto.
  Qed.

End Total.

  (** With two categories there is only one way to split. *)
  Lemma two_categories f cases leaf s : 1 <= leaf -> (forall c, In c cases -> nth c (cData f) 0 < 2) ->
    admissible leaf (among f s) cases -> admissible leaf (among f (only_cat 0)) cases.
  Proof.
    intros Hleaf Hd2 [As1 As2].
    assert (Hs : s 0 <> s 1).
    { intros Es01.
      assert (Hall : forall c, In c cases -> among f s c = s 0).
      { intros c Hc. specialize (Hd2 c Hc). unfold among.
        destruct (nth c (cData f) 0) as [|[|]]; auto; lia. }
      destruct (s 0) eqn:E0.
      - replace (other (among f s) cases) with (@nil nat) in As2; [cbn in As2; lia|].
        symmetry. apply filter_false. apply Forall_forall. intros c Hc. rewrite Hall; auto.
      - replace (side (among f s) cases) with (@nil nat) in As1; [cbn in As1; lia|].
        symmetry. apply filter_false. apply Forall_forall. intros c Hc. rewrite Hall; auto. }
    destruct (s 0) eqn:E0, (s 1) eqn:E1; try congruence.
    - unfold admissible. destruct (side_ext (among f (only_cat 0)) (among f s) cases) as [-> ->]; auto.
      intros c Hc. specialize (Hd2 c Hc). unfold among, only_cat.
      destruct (nth c (cData f) 0) as [|[|]]; auto; lia.
    - destruct (side_ext (among f s) (fun c => negb (among f (only_cat 0) c)) cases) as [X1 X2].
      { intros c Hc. specialize (Hd2 c Hc). unfold among, only_cat.
        destruct (nth c (cData f) 0) as [|[|]]; auto; lia. }
      destruct (side_negb (among f (only_cat 0)) cases) as [Y1 Y2].
      unfold admissible. rewrite <- Y1, <- Y2, <- X1, <- X2. auto.
  Qed.

(** ** All features, with missing values *)
Lemma present_idem f cases : present f (present f cases) = present f cases.
Proof.
  unfold present. induction cases as [|c l IH]; cbn; auto.
  destruct (fmissing f c) eqn:E; cbn; auto. rewrite E. cbn. congruence.
Qed.
Lemma present_all f cases : (forall c, In c cases -> fmissing f c = false) -> present f cases = cases.
Proof. intros H. apply filter_true. apply Forall_forall. intros c Hc. rewrite H; auto. Qed.
Lemma present_in f cases c : In c (present f cases) <-> In c cases /\ fmissing f c = false.
Proof. unfold present. rewrite filter_In, negb_true_iff. tauto. Qed.
Lemma faithful_present f cases : faithful f (present f cases) <-> faithful f cases.
Proof. unfold faithful. rewrite present_idem. tauto. Qed.
Lemma legal_present f code leaf cases : legal f code leaf (present f cases) <-> legal f code leaf cases.
Proof. unfold legal. rewrite present_idem. tauto. Qed.
Lemma hopeless_present f leaf cases : hopeless f leaf (present f cases) <-> hopeless f leaf cases.
Proof. unfold hopeless. rewrite present_idem. tauto. Qed.
Lemma searchable_present f cases : searchable f cases -> searchable f (present f cases).
Proof.
  unfold searchable. rewrite present_idem. intros (H1 & H2 & H3). split; auto. split; auto.
  apply Forall_filter. auto.
Qed.
Lemma length_present f cases : length (present f cases) <= length cases.
Proof. unfold present. apply filter_length_le_nat. Qed.

Section Promise.
  Variable A : arith.
  Variable St : Type.
  Variable T : target A St.
  Variables (ok : nat -> Prop) (ready : St -> Prop).
  Hypothesis Dep : dependable T ok ready.
  Hypothesis Hsane : sane A.
  Variable rnd : nat -> nat.

  Lemma num_promise f cases parent leaf rs al : 1 <= leaf -> Forall ok cases -> searchable (FNum f) cases ->
    (forall c, In c cases -> nmissing f c = false) ->
    length cases <= length (aVals al) -> ready (aTgt al) ->
    exists r, BestNumSplit A St T rnd f cases parent leaf rs al = Ok r /\ promise ready (FNum f) cases leaf al r.
  Proof.
    intros Hleaf Hok (Hf & Hc & Hn) Hm Hl Hr.
    assert (Ep : present (FNum f) cases = cases) by (apply present_all; auto).
    assert (Hv : Forall (fun c => c < length (nData f) /\ nn (nvalue f c)) cases).
    { apply Forall_forall. intros c Hi. rewrite Forall_forall in Hc. split; [apply Hc; auto|].
      unfold nn. apply Hn. rewrite Ep. auto. }
    destruct (BestNumSplit_total A St T ok ready Dep Hsane rnd f cases parent leaf rs al)
      as (r & E & P & K & H1 & H2 & H3); auto.
    exists r. split; auto. split; auto. split; auto. split; [|split; [|split]].
    - intros L. destruct (H1 L) as (x & -> & _). exact I.
    - intros L [F1 F2]. rewrite Ep in F1, F2. destruct (H1 L) as (x & Ex & H). unfold legal. rewrite Ep, Ex.
      split; [exact I|]. apply H; auto.
    - intros H. apply H3; auto.
    - intros H _. destruct (H3 H) as (_ & c & d & Ic & Id & Hmin & Hmax & Hcd). cbn [hopeless]. rewrite Ep.
      intros x y Ix Iy. assert (V : forall c, In c cases -> nn (nvalue f c)).
      { intros e He. rewrite Forall_forall in Hv. apply Hv. auto. }
      assert (W : forall e, In e cases -> valid (nvalue f e)).
      { intros e He. apply Hn. rewrite Ep. auto. }
      eapply (within_tolerance (nvalue f c) (nvalue f y) (nvalue f d) (nvalue f x)); auto; apply V; auto.
  Qed.

  Lemma code_left_int f z cases leaf : admissible leaf (among f (code_set (CInt z))) cases ->
    admissible leaf (coded_left (FCat f) (CInt z)) cases.
  Proof. auto. Qed.

  Lemma cat_promise f cases parent leaf al : 1 <= leaf -> Forall ok cases -> searchable (FCat f) cases ->
    (forall c, In c cases -> cmissing f c = false) ->
    length cases <= length (aCat al) -> ready (aTgt al) ->
    exists r, (let nCats := NCats (cMap f) in
      if negb (cRandom f) && (maxNonBigCats <? nCats) then BestCatSplitIterBig A St T f cases parent leaf al
      else if negb (cRandom f) && (maxExhaustiveCats <? nCats) then BestCatSplitIter A St T f cases parent leaf al
      else if maxNonBigCats <? nCats then BestCatSplitBig A St T rnd f cases parent maxNonRandomExahustive leaf al
      else if nCats =? 2 then BestBinSplit A St T f cases parent leaf al
      else BestCatSplit A St T rnd f cases parent maxNonRandomExahustive leaf al) = Ok r /\
      promise ready (FCat f) cases leaf al r.
  Proof.
    intros Hleaf Hok (Hf & Hc & _) Hm Hl Hr. cbv zeta.
    assert (Irr : nltb A (least A) (least A) = false) by apply (proj1 (proj1 Hsane)).
    assert (Ep : present (FCat f) cases = cases) by (apply present_all; auto).
    assert (Hd : Forall (fun c => c < length (cData f)) cases).
    { eapply Forall_impl; [|exact Hc]. intros c H. apply H. }
    assert (Hk : forall c, In c cases -> catv f c < NCats (cMap f)).
    { intros c Hi. rewrite Forall_forall in Hc. apply (Hc c Hi). }
    destruct (negb (cRandom f) && (maxNonBigCats <? NCats (cMap f))) eqn:D1.
    { unfold BestCatSplitIterBig.
      destruct (itert_search_ok A St T ok ready Dep Hsane rnd f cases Hd Hok parent leaf bigbit
        (fun z i => Z.setbit z (Z.of_nat i)) (NCats (cMap f)) (aTgt al) Hr) as ([[best dec] tg] & E & R & H).
      rewrite E. cbn [bind]. eexists. split; [reflexivity|]. unfold promise. cbn [fCases fConst fDec fCode fAl].
      split; auto. split; [split; [|split]; auto|]. split; [intros _; exact I|]. split; [|split; discriminate].
      intros L _. unfold legal. rewrite Ep. split; [exact I|]. destruct H as [->|[H _]]; [congruence|]. exact H. }
    destruct (negb (cRandom f) && (maxExhaustiveCats <? NCats (cMap f))) eqn:D2.
    { unfold BestCatSplitIter.
      destruct (itert_search_ok A St T ok ready Dep Hsane rnd f cases Hd Hok parent leaf intbit
        (fun z i => Z.lor z (shl1 i)) (NCats (cMap f)) (aTgt al) Hr) as ([[best dec] tg] & E & R & H).
      rewrite E. cbn [bind]. eexists. split; [reflexivity|]. unfold promise. cbn [fCases fConst fDec fCode fAl].
      split; auto. split; [split; [|split]; auto|]. split; [intros _; exact I|]. split; [|split; discriminate].
      intros L _. unfold legal. rewrite Ep. split; [exact I|]. destruct H as [->|[H _]]; [congruence|]. exact H. }
    destruct (maxNonBigCats <? NCats (cMap f)) eqn:D3.
    { destruct (BestCatSplitBig_total A St T ok ready Dep Hsane rnd f cases Hd Hok parent leaf
        maxNonRandomExahustive al Hr) as (r & E & E1 & E2 & K & best & Ec & H).
      exists r. split; auto. unfold promise. rewrite E1, E2, Ec. split; auto. split; auto. split; [intros _; exact I|].
      split; [|split; discriminate].
      intros L _. unfold legal. rewrite Ep. split; [exact I|]. destruct H as [H|[H _]]; [congruence|]. exact H. }
    destruct (Nat.eqb_spec (NCats (cMap f)) 2) as [E2|N2].
    { assert (Hd2 : Forall (fun c => c < length (cData f) /\ nth c (cData f) 0 < 2) cases).
      { apply Forall_forall. intros c Hi. rewrite Forall_forall in Hd. split; [auto|].
        specialize (Hk c Hi). unfold catv in Hk. lia. }
      destruct (BestBinSplit_total A St T ok ready Dep rnd f cases parent leaf al Hok Hr Hd2)
        as (r & E & P & K & H).
      exists r. split; auto. split; auto. split; auto.
      destruct (admissible_dec leaf (among f (only_cat 0)) cases) as [Ad|Na].
      - destruct H as (Hc0 & v & Ec & Ev). rewrite Hc0, Ec. split; [intros _; exact I|]. split; [|split; discriminate].
        intros _ _. unfold legal. rewrite Ep. split; [exact I|].
        unfold admissible in *. destruct (side_ext (coded_left (FCat f) (CInt 1)) (among f (only_cat 0)) cases) as [-> ->]; auto.
        intros c Hi. rewrite Forall_forall in Hd2. destruct (Hd2 c Hi) as [_ H2]. unfold among, only_cat. cbn [coded_left].
        destruct (nth c (cData f) 0) as [|[|]]; auto; lia.
      - destruct H as (Hc0 & Ed). rewrite Hc0, Ed. rewrite (proj2 Hsane).
        split; [discriminate|]. split; [discriminate|]. split; [auto|]. intros _ _. cbn [hopeless]. rewrite Ep.
        intros s Ad. apply Na. apply (two_categories f cases leaf s); auto.
        intros c Hi. rewrite Forall_forall in Hd2. apply Hd2; auto. }
    destruct (BestCatSplit_total A St T ok ready Dep Hsane rnd f cases Hd Hok parent leaf
      (length (aCat al)) maxNonRandomExahustive al) as (r & E & P & K & best & Ec & Tk & Cn); auto.
    { unfold maxNonRandomExahustive. lia. }
    exists r. split; auto. split; auto. split; auto. rewrite Ec. split; [intros _; exact I|].
    split; [|split].
    - intros L _. unfold legal. rewrite Ep. split; [exact I|].
      destruct Tk as [H|(_ & H & _)]; [congruence|]. exact H.
    - intros Hconst. destruct Tk as [->|(Hin & Ad & _)]; auto.
      exfalso. apply (proj1 Cn Hconst best); auto.
    - intros Hconst Hdet. cbn [hopeless]. rewrite Ep. intros s Ad.
      assert (Hk10 : NCats (cMap f) <= 10).
      { destruct Hdet as [Hd0|]; auto. rewrite Hd0 in D2. cbn [negb andb] in D2. unfold maxExhaustiveCats in D2.
        apply Nat.ltb_ge in D2. lia. }
      replace (NCats (cMap f) <=? maxNonRandomExahustive) with true in Cn
        by (symmetry; apply Nat.leb_le; unfold maxNonRandomExahustive; lia).
      destruct (exhaustive_covers f cases leaf s (NCats (cMap f)) rnd (aDraw al)) as (b & Hin & Hb); auto; [lia| |].
      { apply Forall_forall. intros c Hi. apply Hk; auto. }
      apply (proj1 Cn Hconst b Hin). unfold admissible. cbv zeta in Hb.
      destruct Hb as [[E1 E2]|[E1 E2]]; rewrite E1, E2; destruct Ad; auto.
  Qed.

  (** Setting the missing cases aside *)
  Lemma set_aside f has mask cases : flag_sound f -> fMissingVals f = has ->
    (forall c, In c cases -> get mask c = Ok (fmissing f c)) ->
    (if has then
       foreach cases (fun i '((ms, nms) : list nat * list nat) =>
         let* m := get mask i in
         Ok (if m then (ms ++ [i], nms) else (ms, nms ++ [i]))) ([], []) = Ok (absent f cases, present f cases)
     else present f cases = cases).
  Proof.
    intros Hf Eh Hg. destruct has.
    - destruct (@foreach_total nat (list nat * list nat)
        (fun i '((ms, nms) : list nat * list nat) =>
           let* m := get mask i in Ok (if m then (ms ++ [i], nms) else (ms, nms ++ [i])))
        (fun pre post '((ms, nms) : list nat * list nat) => pre ++ post = cases /\
           ms = absent f pre /\ nms = present f pre)
        cases [] ([], [])) as ([l r] & E & E1 & -> & ->).
      + intros pre a post [l r] (E1 & -> & ->).
        rewrite Hg by (rewrite <- E1, in_app_iff; cbn; auto). cbn [bind]. apply yields_ok.
        unfold absent, present. rewrite !filter_app. cbn [filter].
        destruct (fmissing f a); cbn [negb]; rewrite <- app_assoc, ?app_nil_r; auto.
      + cbn. auto.
      + rewrite app_nil_r in E1. rewrite E. subst. reflexivity.
    - apply present_all. intros c Hc. destruct (fmissing f c) eqn:E; auto.
      apply Hf in E. congruence.
  Qed.

  Lemma with_missing_promise f has mask cases parent leaf al search : 
    flag_sound f -> fMissingVals f = has -> (forall c, In c cases -> get mask c = Ok (fmissing f c)) ->
    Forall ok cases -> ready (aTgt al) ->
    (forall p al', length (aVals al') = length (aVals al) -> length (aCat al') = length (aCat al) -> ready (aTgt al') ->
       exists r, search (present f cases) p al' = Ok r /\ promise ready f (present f cases) leaf al' r) ->
    exists r, with_missing A St T has mask search cases parent al = Ok r /\ promise ready f cases leaf al r.
  Proof.
    intros Hf Eh Hg Hok Hr Hs. pose proof (set_aside f has mask cases Hf Eh Hg) as Ha.
    unfold with_missing. destruct has.
    - rewrite Ha. cbn [bind]. clear Ha.
      destruct (length (present f cases) =? 0).
      { eexists. split; [reflexivity|]. unfold promise. cbn [fCases fConst fDec fCode fAl].
        split; auto. split; [repeat split; auto|]. rewrite (proj2 Hsane). repeat split; discriminate. }
      destruct (d_imp _ _ _ Dep (present f cases) (aTgt al)) as (v1 & s1 & -> & R1); [apply Forall_filter; auto|auto|].
      cbn [bind].
      assert (M : exists v2 s2, (if 0 <? length (absent f cases) then tImp T (absent f cases) s1
                                 else Ok (nofZ A 0, s1)) = Ok (v2, s2) /\ ready s2).
      { destruct (0 <? length (absent f cases)); [|eauto].
        apply (d_imp _ _ _ Dep); [apply Forall_filter; auto|auto]. }
      destruct M as (v2 & s2 & -> & R2). cbn [bind].
      destruct (Hs v1 (mkAl (aVals al) (aCat al) s2 (aDraw al))) as (r & -> & P & K & H1 & H2 & H3 & H4); auto.
      cbn [bind]. eexists. split; [reflexivity|].
      unfold promise. cbn [fCases fConst fDec fCode fAl].
      split; auto. split; [exact K|].
      change (minImp A) with (least A).
      match goal with |- context [if ?b && _ then ?x else _] => set (big := b); set (cor := x) end.
      assert (Up : nltb A (least A) (if big && nltb A (least A) (fDec r) then cor else fDec r) = true ->
                   nltb A (least A) (fDec r) = true).
      { clearbody big cor. destruct (nltb A (least A) (fDec r)) eqn:E; auto.
        rewrite andb_false_r. intros X. rewrite E in X. auto. }
      split; auto. split.
      { intros L F. apply legal_present. apply H2; auto. apply faithful_present; auto. }
      split.
      { intros C. specialize (H3 C). rewrite H3, andb_false_r. exact H3. }
      intros C D. apply hopeless_present. auto.
    - destruct (Hs parent al) as (r & E & Pr); auto. rewrite Ha in *. eauto.
  Qed.

  (** Every search answers, and keeps its promise. *)
  Theorem BestSplit_promise f cases parent leaf rs al :
    1 <= leaf -> Forall ok cases -> searchable f cases -> roomy al (length cases) -> ready (aTgt al) ->
    exists r, BestSplit A St T rnd f cases parent leaf rs al = Ok r /\ promise ready f cases leaf al r.
  Proof.
    intros Hleaf Hok Hs [Hl1 Hl2] Hr. pose proof Hs as (Hf & Hc & _). rewrite Forall_forall in Hc.
    pose proof (length_present f cases) as Lp.
    destruct f as [f|f]; cbn [BestSplit]; [unfold nBestSplit|unfold cBestSplit].
    - apply with_missing_promise; auto.
      + intros c Hi. apply (get_default (nMissing f) c false). apply (Hc c Hi).
      + intros p al' L1 L2 R. apply num_promise; auto.
        * apply Forall_filter; auto.
        * apply searchable_present; auto.
        * intros c Hi. apply present_in in Hi. apply Hi.
        * lia.
    - apply with_missing_promise; auto.
      + intros c Hi. apply (get_default (cMissing f) c false). apply (Hc c Hi).
      + intros p al' L1 L2 R. apply cat_promise; auto.
        * apply Forall_filter; auto.
        * apply searchable_present; auto.
        * intros c Hi. apply present_in in Hi. apply Hi.
        * lia.
  Qed.
End Promise.
