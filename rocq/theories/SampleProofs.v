(** Lemmas about shuffling and sampling. *)
From Verif Require Import Go GoLemmas F64 ModelFeature ModelSample SampleSpec.
Local Open Scope nat_scope.
Local Open Scope list_scope.

Lemma intn_ok r n : 0 < n -> intn r n = Ok (r mod n) /\ r mod n < n.
Proof.
  intros H. unfold intn. replace (n =? 0) with false by (symmetry; apply Nat.eqb_neq; lia).
  split; auto. apply Nat.mod_upper_bound; lia.
Qed.
Lemma intn_small r n : r < n -> intn r n = Ok r.
Proof.
  intros H. destruct (intn_ok r n) as [-> _]; [lia|]. rewrite Nat.mod_small; auto.
Qed.

(** ** The underlying exchange process on one list *)
Definition fy {A} (rnd : nat -> nat) (cap k j : nat) (l : list A) : res (list A) :=
  for_up k j (fun j l => let* r := intn (rnd j) (cap - j) in swapl l j (j + r)) l.

Lemma fy_step {A} (pre post : list A) x r :
  r < S (length post) ->
  exists y post', swapl (pre ++ x :: post) (length pre) (length pre + r) = Ok (pre ++ y :: post')
    /\ nth_error (x :: post) r = Some y /\ Permutation (x :: post) (y :: post').
Proof.
  intros Hr. destruct r as [|r].
  - exists x, post. rewrite Nat.add_0_r. rewrite swapl_self by auto. auto.
  - assert (Hy : exists y, nth_error post r = Some y).
    { destruct (nth_error post r) eqn:E; eauto. apply nth_error_None in E; lia. }
    destruct Hy as [y Hy]. apply nth_error_split' in Hy as (b & c & -> & Hb).
    exists y, (b ++ x :: c). 
    destruct (@swapl_split _ pre b c x y (length pre) (length pre + S r)) as [-> _]; [auto|lia|].
    split; auto. split.
    + cbn. rewrite nth_error_app2 by lia. replace (r - length b) with 0 by lia. auto.
    + apply (perm_swap_mid [] b c x y).
Qed.

Lemma fy_perm {A} rnd : forall (post pre : list A) cap,
  cap = length pre + length post ->
  exists post', fy rnd cap (length post) (length pre) (pre ++ post) = Ok (pre ++ post')
    /\ Permutation post post'.
Proof.
  intros post. remember (length post) as k eqn:Ek. revert post Ek.
  induction k as [|k IH]; intros post Ek pre cap Hc.
  - destruct post; [|discriminate]. exists []; split; auto.
  - destruct post as [|x post]; [discriminate|]. cbn in Ek. assert (Ek' : k = length post) by lia.
    unfold fy. cbn [for_up].
    destruct (intn_ok (rnd (length pre)) (cap - length pre)) as [Hi Hlt]; [lia|].
    rewrite Hi; cbn [bind]. set (r := _ mod _) in *.
    destruct (fy_step pre post x r) as (y & post' & -> & Hy & Hp); [lia|]. cbn [bind].
    assert (Hlen : length post' = k).
    { apply Permutation_length in Hp. cbn in Hp. lia. }
    destruct (IH post' (eq_sym Hlen) (pre ++ [y]) cap) as (post'' & E & Hp').
    { rewrite app_length; cbn. lia. }
    rewrite app_length in E; cbn in E.
    replace (length pre + 1) with (S (length pre)) in E by lia.
    rewrite <- !app_assoc in E. cbn in E.
    exists (y :: post''). split.
    + exact E.
    + rewrite Hp. constructor; auto.
Qed.

Lemma for_up_ext {St} n lo (b1 b2 : nat -> St -> res St) s :
  (forall i s, lo <= i < lo + n -> b1 i s = b2 i s) -> for_up n lo b1 s = for_up n lo b2 s.
Proof.
  revert lo s; induction n as [|n IH]; intros lo s H; cbn; auto.
  rewrite H by lia. destruct (b2 lo s); cbn; auto. apply IH. intros; apply H; lia.
Qed.

Lemma fy_onto {A} : forall (post pre post' : list A) cap,
  cap = length pre + length post -> NoDup post -> Permutation post post' ->
  exists rnd, (forall j, length pre <= j < cap -> rnd j < cap - j)
    /\ fy rnd cap (length post) (length pre) (pre ++ post) = Ok (pre ++ post')
    /\ forall rnd2, (forall j, length pre <= j < cap -> rnd2 j < cap - j) ->
        fy rnd2 cap (length post) (length pre) (pre ++ post) = Ok (pre ++ post') ->
        forall j, length pre <= j < cap -> rnd2 j = rnd j.
Proof.
  intros post. remember (length post) as k eqn:Ek. revert post Ek.
  induction k as [|k IH]; intros post Ek pre post' cap Hc Hnd Hp.
  - destruct post; [|discriminate]. apply Permutation_nil in Hp as ->.
    exists (fun _ => 0). split; [intros; lia|]. split; auto. intros; lia.
  - destruct post as [|x post]; [discriminate|]. cbn in Ek. assert (Ek' : k = length post) by lia.
    destruct post' as [|y q]; [symmetry in Hp; apply Permutation_nil in Hp; discriminate|].
    assert (Hyin : In y (x :: post)).
    { apply Permutation_in with (y :: q); [symmetry; auto|left; auto]. }
    apply In_nth_error in Hyin as [r Hr].
    assert (Hrlt : r < S (length post)) by (apply nth_error_some_lt in Hr; exact Hr).
    destruct (fy_step pre post x r Hrlt) as (y' & post1 & Esw & Hy' & Hp1).
    assert (y' = y) by congruence. subst y'.
    assert (Hlen : length post1 = k) by (apply Permutation_length in Hp1; cbn in Hp1; lia).
    assert (Hp2 : Permutation post1 q).
    { apply Permutation_cons_inv with y. rewrite <- Hp1; auto. }
    assert (Hnd1 : NoDup (y :: post1)) by (eapply Permutation_NoDup; eauto).
    assert (Hnd1' : NoDup post1) by (inversion Hnd1; auto).
    destruct (IH post1 (eq_sym Hlen) (pre ++ [y]) q cap) as (rnd & Hl & E & Hu); auto.
    { rewrite app_length; cbn; lia. }
    rewrite app_length in *; cbn [length] in *.
    replace (length pre + 1) with (S (length pre)) in * by lia.
    rewrite <- !app_assoc in *. cbn in *.
    exists (fun j => if j =? length pre then r else rnd j). split; [|split].
    + intros j Hj. destruct (Nat.eqb_spec j (length pre)); [subst; lia|apply Hl; lia].
    + unfold fy. cbn [for_up]. rewrite Nat.eqb_refl.
      rewrite (intn_small r (cap - length pre)) by lia. cbn [bind].
      rewrite Esw; cbn [bind]. rewrite <- E. unfold fy. apply for_up_ext.
      intros i s Hi. replace (i =? length pre) with false; auto.
      symmetry; apply Nat.eqb_neq; lia.
    + intros rnd2 Hl2 E2 j Hj. unfold fy in E2. cbn [for_up] in E2.
      assert (Hr2 : rnd2 (length pre) < cap - length pre) by (apply Hl2; lia).
      rewrite (intn_small _ _ Hr2) in E2. cbn [bind] in E2.
      destruct (fy_step pre post x (rnd2 (length pre))) as (y2 & post2 & Esw2 & Hy2 & Hp22); [lia|].
      rewrite Esw2 in E2. cbn [bind] in E2.
      assert (Hlen2 : length post2 = k) by (apply Permutation_length in Hp22; cbn in Hp22; lia).
      destruct (fy_perm rnd2 post2 (pre ++ [y2]) cap) as (post3 & E3 & Hp3).
      { rewrite app_length; cbn; lia. }
      rewrite app_length in E3; cbn in E3.
      replace (length pre + 1) with (S (length pre)) in E3 by lia.
      rewrite <- !app_assoc in E3. cbn in E3. rewrite Hlen2 in E3.
      unfold fy in E3. rewrite E3 in E2. inversion E2 as [E2'].
      apply app_inv_head in E2'. inversion E2'; subst y2 post3.
      assert (Err : rnd2 (length pre) = r).
      { rewrite NoDup_nth_error in Hnd. apply Hnd; cbn; [lia|]. cbn in *; congruence. }
      destruct (Nat.eqb_spec j (length pre)) as [->|Hne]; auto.
      assert (post2 = post1).
      { rewrite Err in Esw2. rewrite Esw in Esw2. inversion Esw2 as [E4].
        apply app_inv_head in E4. inversion E4; auto. }
      subst post2.
      apply Hu; try lia.
      * intros i Hi. apply Hl2; lia.
      * exact E3.
Qed.

(** ** The shuffles simulate it *)
Lemma map_nth_error_swap {A} (l l' : list A) (cases : list nat) j s a b :
  NoDup cases -> nth_error cases j = Some a -> nth_error cases s = Some b ->
  swapl l a b = Ok l' ->
  forall k, nth_error (map (nth_error l') cases) k =
    if k =? j then nth_error (map (nth_error l) cases) s
    else if k =? s then nth_error (map (nth_error l) cases) j
    else nth_error (map (nth_error l) cases) k.
Proof.
  intros Hnd Ha Hb E k.
  rewrite !nth_error_map. rewrite Ha, Hb. cbn.
  destruct (nth_error cases k) as [c|] eqn:Ec; cbn.
  - rewrite (swapl_nth _ _ _ c E).
    destruct (Nat.eqb_spec k j).
    { subst. assert (c = a) by congruence. subst. rewrite Nat.eqb_refl. auto. }
    assert (c <> a).
    { intros ->. apply n. rewrite NoDup_nth_error in Hnd. apply Hnd; [|congruence].
      eapply nth_error_some_lt; eauto. }
    replace (c =? a) with false by (symmetry; apply Nat.eqb_neq; auto).
    destruct (Nat.eqb_spec k s).
    { subst. assert (c = b) by congruence. subst. rewrite Nat.eqb_refl. auto. }
    assert (c <> b).
    { intros ->. apply n0. rewrite NoDup_nth_error in Hnd. apply Hnd; [|congruence].
      eapply nth_error_some_lt; eauto. }
    replace (c =? b) with false by (symmetry; apply Nat.eqb_neq; auto). auto.
  - destruct (Nat.eqb_spec k j); [subst; congruence|].
    destruct (Nat.eqb_spec k s); [subst; congruence|]. auto.
Qed.

Section Sim.
  Context {A : Type} (rnd : nat -> nat) (cases : list nat) (ms0 : list bool) (d0 : list A).
  Hypothesis Hnd : NoDup cases.
  Hypothesis Hlen : length d0 = length ms0.
  Hypothesis Hin : Forall (fun c => c < length ms0) cases.

  Let body := fun j st =>
    let* targeti := get cases j in
    let* r := intn (rnd j) (length cases - j) in
    let* sourcei := get cases (j + r) in
    @swap2 A targeti sourcei st.

  Lemma sim_loop : forall k j ms d p,
    j + k = length cases ->
    length p = length cases ->
    moved cases p ms0 ms -> moved cases p d0 d ->
    yields (for_up k j body (ms, d)) (fun '(ms', d') =>
      exists p', fy rnd (length cases) k j p = Ok p'
        /\ moved cases p' ms0 ms' /\ moved cases p' d0 d').
  Proof.
    induction k as [|k IH]; intros j ms d p Hjk Hlp (Hm1 & Hm2 & Hm3) (Hd1 & Hd2 & Hd3).
    - apply yields_ok. exists p. repeat split; auto.
    - cbn [for_up]. unfold body at 1.
      destruct (@get_ok _ cases j) as (a & -> & Ha); [lia|]. cbn [bind].
      destruct (intn_ok (rnd j) (length cases - j)) as [Ei Hlt]; [lia|].
      rewrite Ei; cbn [bind]. set (r := _ mod _) in *.
      destruct (@get_ok _ cases (j + r)) as (b & -> & Hb); [lia|]. cbn [bind].
      rewrite Forall_forall in Hin.
      assert (Hal : a < length ms0) by (apply Hin; eapply nth_error_In; eauto).
      assert (Hbl : b < length ms0) by (apply Hin; eapply nth_error_In; eauto).
      unfold swap2.
      destruct (@swapl_ok _ ms a b) as [ms' Em]; [lia|lia|]. rewrite Em; cbn [bind].
      destruct (@swapl_ok _ d a b) as [d' Ed]; [lia|lia|]. rewrite Ed; cbn [bind].
      destruct (@swapl_ok _ p j (j + r)) as [p' Ep]; [lia|lia|].
      assert (Hp' : length p' = length cases) by (rewrite (swapl_length _ _ _ Ep); auto).
      assert (G : forall B (l0 l l' : list B), length l = length l0 ->
                 map (nth_error l) cases = map (nth_error l0) p ->
                 (forall i, ~ In i cases -> nth_error l i = nth_error l0 i) ->
                 swapl l a b = Ok l' -> moved cases p' l0 l').
      { intros B l0 l l' H1 H2 H3 E. split; [rewrite (swapl_length _ _ _ E); auto|]. split.
        - apply nth_error_ext'. intros i.
          rewrite (map_nth_error_swap _ _ _ _ _ _ _ Hnd Ha Hb E).
          rewrite H2, !nth_error_map, (swapl_nth _ _ _ i Ep).
          destruct (i =? j); auto. destruct (i =? j + r); auto.
        - intros i Hi. rewrite (swapl_nth _ _ _ i E).
          destruct (Nat.eqb_spec i a); [subst; exfalso; apply Hi; eapply nth_error_In; eauto|].
          destruct (Nat.eqb_spec i b); [subst; exfalso; apply Hi; eapply nth_error_In; eauto|].
          auto. }
      eapply yields_weaken.
      1:{ apply (IH (S j) ms' d' p'); auto; [lia| |]; [apply (G _ ms0 ms)|apply (G _ d0 d)]; auto. }
      intros [ms2 d2] (p2 & Ep2 & Q1 & Q2). exists p2. split; [|auto].
      unfold fy. cbn [for_up]. rewrite Ei; cbn [bind]. fold r. rewrite Ep; cbn [bind]. exact Ep2.
  Qed.

  Lemma shuffleCases_sim :
    yields (shuffleCases rnd cases ms0 d0) (fun '(ms', d') =>
      exists p, fy rnd (length cases) (length cases) 0 cases = Ok p
        /\ moved cases p ms0 ms' /\ moved cases p d0 d').
  Proof. apply sim_loop; auto; repeat split; auto. Qed.
End Sim.

Lemma get_seq n i : i < n -> get (seq 0 n) i = Ok i.
Proof.
  intros H. apply get_nth. rewrite nth_error_nth' with (d := 0) by (rewrite seq_length; auto).
  rewrite seq_nth; auto.
Qed.

Lemma shuffle_shuffleCases {A} rnd ms (d : list A) :
  shuffle rnd ms d = shuffleCases rnd (seq 0 (length ms)) ms d.
Proof.
  unfold shuffle, shuffleCases. rewrite seq_length. apply for_up_ext.
  intros i st Hi. rewrite get_seq by lia. cbn [bind].
  destruct (intn_ok (rnd i) (length ms - i)) as [-> Hlt]; [lia|]. cbn [bind].
  rewrite get_seq by lia. auto.
Qed.

(** Without distinctness: the pairs are only exchanged. *)
Lemma swapl_combine {A B} (l : list A) (m : list B) i j l' m' :
  length l = length m ->
  swapl l i j = Ok l' -> swapl m i j = Ok m' -> swapl (combine l m) i j = Ok (combine l' m').
Proof.
  intros Hl E1 E2.
  assert (N : forall C D (a : list C) (b : list D) k, nth_error (combine a b) k =
     match nth_error a k, nth_error b k with Some x, Some y => Some (x, y) | _, _ => None end).
  { intros C D a; induction a as [|x a IH]; intros [|y b] [|k]; cbn; auto.
    destruct (nth_error a k); auto. }
  destruct (swapl_lt _ _ _ E1) as [Hi Hj].
  destruct (@swapl_ok _ (combine l m) i j) as [c Ec]; rewrite ?combine_length; try lia.
  rewrite Ec. f_equal. apply nth_error_ext'. intros k.
  rewrite (swapl_nth _ _ _ k Ec), !N, (swapl_nth _ _ _ k E1), (swapl_nth _ _ _ k E2).
  destruct (k =? i); auto. destruct (k =? j); auto.
Qed.

Lemma shuffleCases_pairs {A} rnd cases ms (d : list A) :
  length d = length ms -> Forall (fun c => c < length ms) cases ->
  yields (shuffleCases rnd cases ms d) (fun '(ms', d') =>
    length ms' = length ms /\ length d' = length d
    /\ Permutation (combine ms d) (combine ms' d')).
Proof.
  intros Hl Hin. rewrite Forall_forall in Hin. unfold shuffleCases.
  eapply yields_weaken.
  1:{ apply (for_up_total (fun _ '((ms', d') : list bool * list A) =>
        length ms' = length ms /\ length d' = length d
        /\ Permutation (combine ms d) (combine ms' d'))).
      - intros j [ms' d'] Hj (H1 & H2 & Hp).
        destruct (@get_ok _ cases j) as (a & -> & Ha); [lia|]. cbn [bind].
        destruct (intn_ok (rnd j) (length cases - j)) as [-> Hlt]; [lia|]. cbn [bind].
        destruct (@get_ok _ cases (j + rnd j mod (length cases - j))) as (b & -> & Hb); [lia|]. cbn [bind].
        assert (Hal : a < length ms) by (apply Hin; eapply nth_error_In; eauto).
        assert (Hbl : b < length ms) by (apply Hin; eapply nth_error_In; eauto).
        unfold swap2.
        destruct (@swapl_ok _ ms' a b) as [ms2 Em]; [lia|lia|]. rewrite Em; cbn [bind].
        destruct (@swapl_ok _ d' a b) as [d2 Ed]; [lia|lia|]. rewrite Ed; cbn [bind].
        apply yields_ok. rewrite (swapl_length _ _ _ Em), (swapl_length _ _ _ Ed).
        repeat split; auto. rewrite Hp. eapply swapl_perm. apply swapl_combine; eauto. lia.
      - repeat split; auto. }
  intros [ms' d'] H; exact H.
Qed.

(** ** SampleFirstN *)
Lemma sampleFirstN_loop_ok rnd n nconst (deck : list nat) :
  forall fuel i cards last drawn,
  n - i <= fuel -> drawn + last = i -> (Z.of_nat i <= Z.max 0 (Z.of_nat (length deck) - Z.of_nat nconst))%Z ->
  i <= n ->
  Permutation deck cards ->
  skipn (length deck - nconst) cards = skipn (length deck - nconst) deck ->
  yields (sampleFirstN_loop rnd n (length deck) nconst fuel i (mkSFN cards last drawn))
    (fun s => Permutation deck (sfnCards s)
       /\ skipn (length deck - nconst) (sfnCards s) = skipn (length deck - nconst) deck
       /\ sfnLast s <= n /\ sfnLast s <= length deck - nconst
       /\ (nconst = 0 -> drawn = 0 -> sfnLast s = Nat.min n (length deck))).
Proof.
  induction fuel as [|fuel IH]; intros i cards last drawn Hf Hi Hb Hin Hp Hs;
    cbn [sampleFirstN_loop]; set (nn := (Z.of_nat (length deck) - Z.of_nat nconst)%Z) in *;
    destruct (Nat.ltb_spec i n) as [Hlt|Hge]; cbn [andb]; try lia.
  - apply yields_ok; cbn. repeat split; auto; lia.
  - destruct (Z.ltb_spec (Z.of_nat i) nn) as [Hz|Hz].
    2:{ apply yields_ok; cbn. repeat split; auto; lia. }
    cbn [sfnCards sfnLast sfnDrawn].
    replace (Z.of_nat (length deck) - Z.of_nat drawn - Z.of_nat last <=? 0)%Z with false
      by (symmetry; apply Z.leb_gt; lia).
    destruct (intn_ok (rnd i) (Z.to_nat (Z.of_nat (length deck) - Z.of_nat drawn - Z.of_nat last)))
      as [-> Hr]; [lia|]. cbn [bind].
    set (r := _ mod _) in *.
    destruct (Z.leb_spec nn (Z.of_nat (last + r))) as [Hc|Hc].
    + eapply yields_weaken; [apply IH; auto; lia|].
      intros s (H1 & H2 & H3 & H4 & H5). repeat split; auto.
      intros Hn0 Hd0. exfalso. subst nn. lia.
    + assert (Hlc : length cards = length deck) by (symmetry; apply Permutation_length; auto).
      destruct (@swapl_ok _ cards last (last + r)) as [cards' E]; [lia|lia|].
      rewrite E; cbn [bind].
      eapply yields_weaken; [apply IH; try lia|].
      * rewrite Hp. eapply swapl_perm; eauto.
      * rewrite <- Hs. apply nth_error_ext'. intros k.
        assert (Hsk : forall (l : list nat) m k, nth_error (skipn m l) k = nth_error l (m + k)).
        { clear. intros l m; revert l; induction m; intros l k; cbn; auto.
          destruct l; cbn; auto. destruct k; auto. }
        rewrite !Hsk. rewrite (swapl_nth _ _ _ _ E).
        replace (_ =? last) with false by (symmetry; apply Nat.eqb_neq; lia).
        replace (_ =? last + r) with false by (symmetry; apply Nat.eqb_neq; lia). auto.
      * intros s (H1 & H2 & H3 & H4 & H5). repeat split; auto.
  - apply yields_ok; cbn. repeat split; auto; lia.
Qed.

Lemma slice_firstn {A} (l : list A) k : k <= length l -> slice l 0 k = Ok (firstn k l).
Proof.
  intros H. unfold slice. cbn. replace (k <=? length l) with true by (symmetry; apply Nat.leb_le; auto).
  rewrite Nat.sub_0_r. auto.
Qed.

(** Without constants the loop is the exchange process. *)
Lemma sampleFirstN_loop_fy rnd n len : forall k i cards,
  length cards = len -> i + k = Nat.min n len ->
  forall fuel, k <= fuel ->
  sampleFirstN_loop rnd n len 0 fuel i (mkSFN cards i 0)
  = let* c := fy rnd len k i cards in Ok (mkSFN c (i + k) 0).
Proof.
  induction k as [|k IH]; intros i cards Hl Hk fuel Hf; destruct fuel as [|fuel]; try lia;
    cbn [sampleFirstN_loop].
  - replace ((i <? n) && (Z.of_nat i <? Z.of_nat len - Z.of_nat 0)%Z) with false.
    + unfold fy; cbn. rewrite Nat.add_0_r; auto.
    + symmetry. apply andb_false_iff. rewrite Nat.ltb_ge, Z.ltb_ge. lia.
  - replace ((i <? n) && (Z.of_nat i <? Z.of_nat len - Z.of_nat 0)%Z) with false.
    + unfold fy; cbn. rewrite Nat.add_0_r; auto.
    + symmetry. apply andb_false_iff. rewrite Nat.ltb_ge, Z.ltb_ge. lia.
  - replace ((i <? n) && (Z.of_nat i <? Z.of_nat len - Z.of_nat 0)%Z) with true.
    2:{ symmetry. apply andb_true_iff. rewrite Nat.ltb_lt, Z.ltb_lt. lia. }
    cbn [sfnCards sfnLast sfnDrawn].
    replace (Z.of_nat len - Z.of_nat 0 - Z.of_nat i <=? 0)%Z with false
      by (symmetry; apply Z.leb_gt; lia).
    replace (Z.to_nat (Z.of_nat len - Z.of_nat 0 - Z.of_nat i)) with (len - i) by lia.
    unfold fy. cbn [for_up].
    destruct (intn_ok (rnd i) (len - i)) as [-> Hr]; [lia|]. cbn [bind].
    set (r := _ mod _) in *.
    replace (Z.of_nat len - Z.of_nat 0 <=? Z.of_nat (i + r))%Z with false
      by (symmetry; apply Z.leb_gt; lia).
    destruct (swapl cards i (i + r)) as [cards'| |] eqn:E; cbn [bind]; auto.
    rewrite IH; try lia.
    + replace (S i + k) with (i + S k) by lia. reflexivity.
    + rewrite (swapl_length _ _ _ E); auto.
Qed.

Lemma fy_prefix {A} : forall (q pre post : list A) cap,
  cap = length pre + length post -> NoDup post -> NoDup q -> incl q post ->
  exists rnd, (forall j, length pre <= j < length pre + length q -> rnd j < cap - j)
    /\ (exists rest, fy rnd cap (length q) (length pre) (pre ++ post) = Ok (pre ++ q ++ rest))
    /\ forall rnd2, (forall j, length pre <= j < length pre + length q -> rnd2 j < cap - j) ->
        (exists rest, fy rnd2 cap (length q) (length pre) (pre ++ post) = Ok (pre ++ q ++ rest)) ->
        forall j, length pre <= j < length pre + length q -> rnd2 j = rnd j.
Proof.
  induction q as [|y q IH]; intros pre post cap Hc Hnd Hndq Hincl.
  - exists (fun _ => 0). split; [cbn; intros; lia|]. split; [exists post; reflexivity|cbn; intros; lia].
  - destruct post as [|x post]; [exfalso; apply (Hincl y); left; auto|].
    assert (Hyin : In y (x :: post)) by (apply Hincl; left; auto).
    apply In_nth_error in Hyin as [r Hr].
    assert (Hrlt : r < S (length post)) by (apply nth_error_some_lt in Hr; exact Hr).
    destruct (fy_step pre post x r Hrlt) as (y' & post1 & Esw & Hy' & Hp1).
    assert (y' = y) by congruence. subst y'.
    assert (Hlen : length post1 = length post) by (apply Permutation_length in Hp1; cbn in Hp1; lia).
    assert (Hnd1 : NoDup (y :: post1)) by (eapply Permutation_NoDup; eauto).
    apply NoDup_cons_iff in Hnd1 as [Hy1 Hnd1'].
    apply NoDup_cons_iff in Hndq as [Hyq Hndq].
    assert (Hincl1 : incl q post1).
    { intros z Hz. assert (In z (y :: post1)).
      { apply (Permutation_in _ Hp1). apply Hincl; right; auto. }
      destruct H; auto. subst; contradiction. }
    cbn [length] in *.
    destruct (IH (pre ++ [y]) post1 cap) as (rnd & Hl & [rest E] & Hu); auto.
    { rewrite app_length; cbn; lia. }
    rewrite app_length in *; cbn [length] in *.
    replace (length pre + 1) with (S (length pre)) in * by lia.
    rewrite <- !app_assoc in *. cbn [app] in *.
    exists (fun j => if j =? length pre then r else rnd j). split; [|split].
    + intros j Hj. destruct (Nat.eqb_spec j (length pre)); [subst; lia|apply Hl; lia].
    + exists rest. unfold fy. cbn [for_up]. rewrite Nat.eqb_refl.
      rewrite (intn_small r (cap - length pre)) by lia. cbn [bind].
      rewrite Esw; cbn [bind]. rewrite <- E. unfold fy. apply for_up_ext.
      intros i s Hi. replace (i =? length pre) with false; auto.
      symmetry; apply Nat.eqb_neq; lia.
    + intros rnd2 Hl2 [rest2 E2] j Hj. unfold fy in E2. cbn [for_up] in E2.
      assert (Hr2 : rnd2 (length pre) < cap - length pre) by (apply Hl2; lia).
      rewrite (intn_small _ _ Hr2) in E2. cbn [bind] in E2.
      destruct (fy_step pre post x (rnd2 (length pre))) as (y2 & post2 & Esw2 & Hy2 & Hp22); [lia|].
      rewrite Esw2 in E2. cbn [bind] in E2.
      assert (Ey : y2 = y).
      { assert (G : forall k j (l : list A) l', for_up k j (fun j l =>
            let* r := intn (rnd2 j) (cap - j) in swapl l j (j + r)) l = Ok l' ->
            length pre < j -> nth_error l' (length pre) = nth_error l (length pre)).
        { clear. induction k as [|k IH]; intros j l l' E Hj; cbn in E.
          - inversion E; auto.
          - apply bind_ok in E as (l1 & E1 & E2). apply bind_ok in E1 as (r & _ & E1).
            rewrite (IH _ _ _ E2) by lia. rewrite (swapl_nth _ _ _ _ E1).
            replace (length pre =? j) with false by (symmetry; apply Nat.eqb_neq; lia).
            replace (length pre =? j + r) with false by (symmetry; apply Nat.eqb_neq; lia). auto. }
        apply G in E2; [|lia]. rewrite !nth_error_mid in E2. congruence. }
      subst y2.
      assert (Err : rnd2 (length pre) = r).
      { rewrite NoDup_nth_error in Hnd. apply Hnd; cbn [length]; [lia|]. congruence. }
      destruct (Nat.eqb_spec j (length pre)) as [->|Hne]; auto.
      assert (post2 = post1).
      { rewrite Err in Esw2. rewrite Esw in Esw2. inversion Esw2 as [E4].
        apply app_inv_head in E4. inversion E4; auto. }
      subst post2.
      apply Hu; try lia.
      * intros i Hi. apply Hl2; lia.
      * exists rest2. rewrite <- app_assoc. exact E2.
Qed.

(** ** Bags *)
Lemma SampleWithReplacment_ok rnd n total : 0 < total ->
  yields (SampleWithReplacment rnd n total)
    (fun cs => cs = map (fun i => rnd i mod total) (seq 0 n)).
Proof.
  intros Ht. unfold SampleWithReplacment.
  eapply yields_weaken.
  - apply (for_up_total (fun i cs => cs = map (fun i => rnd i mod total) (seq 0 i))); auto.
    intros i cs Hi ->. destruct (intn_ok (rnd i) total Ht) as [-> _]. cbn [bind].
    apply yields_ok. rewrite seq_S, map_app. auto.
  - auto.
Qed.

Lemma foreach_mark cases : forall ib,
  Forall (fun c => c < length ib) cases ->
  yields (foreach cases (fun v ib => set ib v true) ib) (fun ib' =>
    length ib' = length ib /\
    forall i, i < length ib ->
      nth_error ib' i = Some true <-> (In i cases \/ nth_error ib i = Some true)).
Proof.
  induction cases as [|c cases IH]; intros ib Hf; cbn [foreach].
  - apply yields_ok. split; auto. intros; cbn; tauto.
  - inversion Hf; subst. rewrite set_ok by auto. cbn [bind].
    eapply yields_weaken; [apply IH; rewrite upd_length; auto|].
    rewrite upd_length. intros ib' [H3 H4]. split; auto. intros i Hi.
    rewrite (H4 i Hi), nth_error_upd.
    replace (c <? length ib) with true by (symmetry; apply Nat.ltb_lt; auto).
    rewrite andb_true_r. cbn [In]. destruct (Nat.eqb_spec i c).
    + subst. tauto.
    + intuition congruence.
Qed.

Lemma for_up_filter n (b : nat -> res bool) (p : nat -> bool) :
  (forall i, i < n -> b i = Ok (p i)) ->
  for_up n 0 (fun i l => let* v := b i in Ok (if v then l else l ++ [i])) []
  = Ok (filter (fun i => negb (p i)) (seq 0 n)).
Proof.
  intros Hb.
  destruct (@for_up_total _ (fun i l => l = filter (fun i => negb (p i)) (seq 0 i))
    (fun i l => let* v := b i in Ok (if v then l else l ++ [i])) n 0 []) as (l & E & ->).
  - intros i l Hi ->. rewrite Hb by lia. cbn [bind]. apply yields_ok.
    rewrite seq_S, filter_app. cbn. destruct (p i); cbn; rewrite ?app_nil_r; auto.
  - reflexivity.
  - exact E.
Qed.

Lemma oob_list_ok nCases cases :
  Forall (fun c => c < nCases) cases ->
  oob_list nCases cases = Ok (filter (fun i => negb (existsb (Nat.eqb i) cases)) (seq 0 nCases)).
Proof.
  intros Hf. unfold oob_list.
  destruct (foreach_mark cases (repeat false nCases)) as (ib & -> & Hl & Hib).
  { rewrite repeat_length; auto. }
  cbn [bind]. rewrite repeat_length in *.
  apply (for_up_filter nCases (fun i => get ib i) (fun i => existsb (Nat.eqb i) cases)).
  intros i Hi. destruct (@get_ok _ ib i) as (v & -> & Hv); [lia|]. f_equal.
  assert (Hrep : nth_error (repeat false nCases) i <> Some true).
  { intros Hx. apply nth_error_In in Hx. apply repeat_spec in Hx. discriminate. }
  destruct (existsb (Nat.eqb i) cases) eqn:E.
  - apply existsb_exists in E as (c & Hc & Hic). apply Nat.eqb_eq in Hic; subst c.
    assert (nth_error ib i = Some true) by (apply Hib; auto). congruence.
  - destruct v; auto. exfalso. apply Hib in Hv; auto. destruct Hv as [Hv|Hv]; [|contradiction].
    assert (existsb (Nat.eqb i) cases = true).
    { apply existsb_exists. exists i; split; auto. apply Nat.eqb_refl. }
    congruence.
Qed.

Lemma bag_ok rnd f nCases nSamples fuel cases :
  bag rnd f nCases nSamples fuel = Ok cases ->
  length cases = nSamples /\
  Forall (fun c => c < nCases /\ fIsMissing f c = Ok false) cases.
Proof.
  intros E. unfold bag in E.
  apply (@loop_partial _ _ (fun '((j, cs) : nat * list nat) => length cs <= nSamples /\
     Forall (fun c => c < nCases /\ fIsMissing f c = Ok false) cs)
    (fun cs => length cs = nSamples /\
     Forall (fun c => c < nCases /\ fIsMissing f c = Ok false) cs)) in E; auto.
  - intros [j cs] [H1 H2] x Hx. destruct (Nat.ltb_spec (length cs) nSamples).
    + destruct (intn (rnd j) nCases) as [r| |] eqn:Ei; try discriminate. cbn [bind] in Hx.
      destruct (fIsMissing f r) as [m| |] eqn:Em; try discriminate. cbn [bind] in Hx.
      inversion Hx; subst x. destruct m; [split; auto|].
      rewrite app_length; cbn. split; [lia|]. apply Forall_app; split; auto.
      constructor; auto. split; auto. unfold intn in Ei.
      destruct (Nat.eqb_spec nCases 0); [discriminate|]. inversion Ei.
      apply Nat.mod_upper_bound; auto.
    + inversion Hx; subst x. split; auto. lia.
  - cbn. split; auto. lia.
Qed.

(** ** Balanced samplers *)
Lemma newBalanced_ok f :
  length (cMissing f) = length (cData f) ->
  (forall i c, has_class (cMissing f) (cData f) c i -> c < NCats (cMap f)) ->
  yields (newBalanced f) (fun cs => length cs = NCats (cMap f) /\
    forall c, c < NCats (cMap f) ->
      nth_error cs c = Some (class_cases (cMissing f) (cData f) c)).
Proof.
  intros Hl Hv. unfold newBalanced.
  apply (for_up_total (fun k cs => length cs = NCats (cMap f) /\
    forall c, c < NCats (cMap f) ->
      nth_error cs c = Some (filter (has_classb (cMissing f) (cData f) c) (seq 0 k)))).
  - intros i cs Hi [H1 H2]. cbn in Hi.
    destruct (@get_ok _ (cData f) i) as (v & -> & Hd); [lia|]. cbn [bind].
    unfold cIsMissing. destruct (@get_ok _ (cMissing f) i) as (m & -> & Hm); [lia|]. cbn [bind].
    assert (Hb : forall c, has_classb (cMissing f) (cData f) c i = (negb m && (v =? c))%bool).
    { intros c. unfold has_classb. rewrite Hm, Hd. destruct m; auto. }
    destruct m.
    + apply yields_ok. split; auto. intros c Hc. rewrite H2 by auto.
      rewrite seq_S, filter_app. cbn. rewrite Hb. cbn. rewrite app_nil_r; auto.
    + assert (Hvlt : v < NCats (cMap f)) by (apply (Hv i); split; auto).
      rewrite (get_nth _ _ (H2 v Hvlt)). cbn [bind].
      rewrite set_ok by lia. apply yields_ok. rewrite upd_length. split; auto.
      intros c Hc. rewrite nth_error_upd.
      replace (v <? length cs) with true by (symmetry; apply Nat.ltb_lt; lia).
      rewrite andb_true_r. rewrite seq_S, filter_app. cbn. rewrite Hb. cbn [negb andb].
      destruct (Nat.eqb_spec c v).
      * subst. rewrite Nat.eqb_refl. auto.
      * replace (v =? c) with false by (symmetry; apply Nat.eqb_neq; auto).
        rewrite app_nil_r. auto.
  - rewrite repeat_length. split; auto. intros c Hc.
    rewrite nth_error_repeat; auto.
Qed.

Lemma nth_error_seq_list {A} (f : nat -> A) n i x :
  nth_error (map f (seq 0 n)) i = Some x -> i < n /\ x = f i.
Proof.
  intros H. assert (Hi : i < n).
  { apply nth_error_some_lt in H. rewrite map_length, seq_length in H. auto. }
  rewrite nth_error_map in H.
  rewrite (nth_error_nth' (seq 0 n) 0) in H by (rewrite seq_length; auto).
  rewrite seq_nth in H by auto. cbn in H. split; congruence.
Qed.

Lemma balancedSample_ok cs rnd n :
  cs <> [] -> (forall l, In l cs -> l <> []) ->
  yields (balancedSample cs rnd n) (fun samples => length samples = n /\
    forall i s, nth_error samples i = Some s ->
      let l := nth (rnd (2 * i) mod length cs) cs [] in
      rnd (2 * i) mod length cs < length cs /\
      nth_error l (rnd (2 * i + 1) mod length l) = Some s).
Proof.
  intros Hne Hl. unfold balancedSample.
  apply (for_up_total (fun k samples => length samples = k /\
    forall i s, nth_error samples i = Some s ->
      let l := nth (rnd (2 * i) mod length cs) cs [] in
      rnd (2 * i) mod length cs < length cs /\
      nth_error l (rnd (2 * i + 1) mod length l) = Some s)).
  - intros i samples Hi [H1 H2].
    assert (Hpos : 0 < length cs) by (destruct cs; [congruence|cbn; lia]).
    destruct (intn_ok (rnd (2 * i)) (length cs) Hpos) as [-> Hc]. cbn [bind].
    set (c := _ mod _) in *.
    destruct (@get_ok _ cs c Hc) as (l & -> & Hlc). cbn [bind].
    assert (Hlne : l <> []) by (apply Hl; eapply nth_error_In; eauto).
    assert (Hlpos : 0 < length l) by (destruct l; [congruence|cbn; lia]).
    destruct (intn_ok (rnd (2 * i + 1)) (length l) Hlpos) as [-> Hk]. cbn [bind].
    destruct (@get_ok _ l _ Hk) as (s & -> & Hs). cbn [bind]. apply yields_ok.
    rewrite app_length; cbn [length]. split; [lia|].
    intros j s' Hj. destruct (lt_dec j (length samples)).
    + rewrite nth_error_app1 in Hj by lia. apply H2; auto.
    + rewrite nth_error_app2 in Hj by lia.
      destruct (j - length samples) as [|jj] eqn:Ej; [|destruct jj; discriminate].
      cbn in Hj. inversion Hj; subst s'. assert (j = i) by lia. subst j.
      cbv zeta. fold c. split; auto. 
      rewrite (nth_error_nth _ _ _ Hlc). exact Hs.
  - split; auto. intros [|i] s; discriminate.
Qed.

(** The secondary sampler *)
Lemma walk_ok : forall counts j len r,
  len = j + length counts -> r < list_sum counts ->
  exists b, walk counts j len (Z.of_nat r) = Z.of_nat (j + b)
    /\ b < length counts /\ in_block counts r b.
Proof.
  induction counts as [|v counts IH]; intros j len r Hlen Hr.
  - cbn in Hr; lia.
  - cbn [walk]. destruct (Z.ltb_spec (Z.of_nat r - Z.of_nat v) 0) as [Hlt|Hge]; cbn [orb].
    + exists 0. split; [f_equal; lia|]. unfold in_block; cbn in *. lia.
    + destruct counts as [|v' counts'].
      * cbn in *. lia.
      * replace (j =? len - 1) with false by (symmetry; apply Nat.eqb_neq; cbn in Hlen; lia).
        destruct (IH (S j) len (r - v)) as (b & E & Hb & Hbl); [cbn in *; lia|cbn in *; lia|].
        replace (Z.of_nat (r - v)) with (Z.of_nat r - Z.of_nat v)%Z in E by lia.
        rewrite E. exists (S b). split; [f_equal; lia|].
        split; [cbn in *; lia|]. unfold in_block in *.
        cbn [firstn] in *. cbn [list_sum fold_right] in *.
        fold (list_sum (firstn b (v' :: counts'))) in *. lia.
Qed.

Lemma for_up_partial {St} (Inv : nat -> St -> Prop) (body : nat -> St -> res St) :
  forall n lo s s',
  (forall i s s', lo <= i < lo + n -> Inv i s -> body i s = Ok s' -> Inv (S i) s') ->
  Inv lo s -> for_up n lo body s = Ok s' -> Inv (lo + n) s'.
Proof.
  induction n as [|n IH]; intros lo s s' Hb Hs E; cbn in E.
  - inversion E; subst. rewrite Nat.add_0_r; auto.
  - apply bind_ok in E as (s1 & E1 & E2).
    replace (lo + S n) with (S lo + n) by lia.
    apply (IH (S lo) s1); auto.
    + intros; eapply Hb; eauto; lia.
    + eapply Hb; eauto; lia.
Qed.

Lemma list_sum_upd l : forall b n x, nth_error l b = Some n ->
  list_sum (upd l b x) + n = list_sum l + x.
Proof.
  induction l as [|a l IH]; intros [|b] n x H; cbn in *; try discriminate.
  - inversion H; subst. lia.
  - specialize (IH b n x H). unfold list_sum in IH. lia.
Qed.

Section Secondary.
  Variables target balanceby : catF.
  Let tm := cMissing target.
  Let td := cData target.
  Let bm := cMissing balanceby.
  Let bd := cData balanceby.
  Hypothesis Hlt : length tm = length td.
  Hypothesis Hlb : length bm = length bd.
  Hypothesis Hle : length td = length bd.
  Hypothesis Hvt : forall i c, has_class tm td c i -> c < NCats (cMap target).
  Hypothesis Hvb : forall i c, has_class bm bd c i -> c < NCats (cMap balanceby).

  Definition cellb (b c i : nat) : bool := has_classb tm td c i && has_classb bm bd b i.
  Definition rowb (b i : nat) : bool :=
    match nth_error tm i with Some false => has_classb bm bd b i | _ => false end.

  Record sec_ok (k : nat) (s : secondary) : Prop := {
    so_total : secTotal s = list_sum (secCounts s);
    so_lenc : length (secCounts s) = NCats (cMap balanceby);
    so_lens : length (secSamplers s) = NCats (cMap balanceby);
    so_counts : forall b, b < NCats (cMap balanceby) ->
      nth_error (secCounts s) b = Some (length (filter (rowb b) (seq 0 k)));
    so_rows : forall b, b < NCats (cMap balanceby) ->
      exists row, nth_error (secSamplers s) b = Some row /\
        length row = NCats (cMap target) /\
        forall c, c < NCats (cMap target) ->
          nth_error row c = Some (filter (cellb b c) (seq 0 k))
  }.

  Lemma sum_repeat0 n : list_sum (repeat 0 n) = 0.
  Proof. induction n; cbn; auto. Qed.

  Lemma newSecondary_ok : yields (newSecondary target balanceby) (sec_ok (length td)).
  Proof.
    unfold newSecondary, cLength. fold tm. rewrite Hlt.
    apply (for_up_total (fun k s => sec_ok k s)).
    - intros i s Hi [H1 H2 H3 H4 H5]. cbn in Hi.
      unfold cIsMissing, cGeti. fold tm bm td bd.
      destruct (@get_ok _ tm i) as (m1 & -> & Hm1); [lia|]. cbn [bind].
      destruct (@get_ok _ bm i) as (m2 & -> & Hm2); [lia|].
      assert (Hno : (forall b, rowb b i = false) -> (forall b c, cellb b c i = false) -> sec_ok (S i) s).
      { intros Hr Hc. split; auto.
        - intros b Hb. rewrite H4, seq_S, filter_app by auto. cbn. rewrite Hr, app_nil_r. auto.
        - intros b Hb. destruct (H5 b Hb) as (row & E1 & E2 & E3). exists row. repeat split; auto.
          intros c Hc'. rewrite E3, seq_S, filter_app by auto. cbn. rewrite Hc, app_nil_r. auto. }
      destruct m1.
      { apply yields_ok. apply Hno.
        - intros b. unfold rowb. rewrite Hm1; auto.
        - intros b c. unfold cellb, has_classb. rewrite Hm1; auto. }
      cbn [bind]. destruct m2.
      { apply yields_ok. apply Hno.
        - intros b. unfold rowb, has_classb. rewrite Hm1, Hm2; auto.
        - intros b c. unfold cellb, has_classb. rewrite Hm2. apply andb_false_r. }
      destruct (@get_ok _ bd i) as (bc & -> & Hbc); [lia|]. cbn [bind].
      destruct (@get_ok _ td i) as (tc & -> & Htc); [lia|]. cbn [bind].
      assert (Hbl : bc < NCats (cMap balanceby)) by (apply (Hvb i); split; auto).
      assert (Htl : tc < NCats (cMap target)) by (apply (Hvt i); split; auto).
      pose proof (H4 bc Hbl) as Hn. rewrite (get_nth _ _ Hn). cbn [bind].
      rewrite set_ok by lia. cbn [bind].
      destruct (H5 bc Hbl) as (row & Hrow & Hrl & Hcell).
      rewrite (get_nth _ _ Hrow). cbn [bind].
      rewrite (get_nth _ _ (Hcell tc Htl)). cbn [bind].
      rewrite set_ok by lia. cbn [bind]. rewrite set_ok by lia. cbn [bind].
      apply yields_ok.
      assert (Hrb : forall b, rowb b i = (bc =? b)).
      { intros b. unfold rowb, has_classb. rewrite Hm1, Hm2, Hbc; auto. }
      assert (Hcb : forall b c, cellb b c i = ((tc =? c) && (bc =? b))%bool).
      { intros b c. unfold cellb, has_classb. rewrite Hm1, Htc, Hm2, Hbc; auto. }
      split; cbn [secTotal secCounts secSamplers]; rewrite ?upd_length; auto.
      + pose proof (list_sum_upd _ _ _ (length (filter (rowb bc) (seq 0 i)) + 1) Hn). lia.
      + intros b Hb. rewrite nth_error_upd.
        replace (bc <? length (secCounts s)) with true by (symmetry; apply Nat.ltb_lt; lia).
        rewrite andb_true_r, seq_S, filter_app, app_length. cbn. rewrite Hrb.
        destruct (Nat.eqb_spec b bc).
        * subst. rewrite Nat.eqb_refl. auto.
        * replace (bc =? b) with false by (symmetry; apply Nat.eqb_neq; auto).
          rewrite H4 by auto. cbn. f_equal; lia.
      + intros b Hb. rewrite nth_error_upd.
        replace (bc <? length (secSamplers s)) with true by (symmetry; apply Nat.ltb_lt; lia).
        rewrite andb_true_r. destruct (Nat.eqb_spec b bc).
        * subst b. eexists; split; [reflexivity|]. rewrite upd_length. split; auto.
          intros c Hc. rewrite nth_error_upd.
          replace (tc <? length row) with true by (symmetry; apply Nat.ltb_lt; lia).
          rewrite andb_true_r, seq_S, filter_app. cbn. rewrite Hcb, Nat.eqb_refl, andb_true_r.
          destruct (Nat.eqb_spec c tc).
          -- subst. rewrite Nat.eqb_refl. auto.
          -- replace (tc =? c) with false by (symmetry; apply Nat.eqb_neq; auto).
             rewrite app_nil_r. auto.
        * destruct (H5 b Hb) as (row' & E1 & E2 & E3). exists row'. repeat split; auto.
          intros c Hc'. rewrite E3, seq_S, filter_app by auto. cbn. rewrite Hcb.
          replace (bc =? b) with false by (symmetry; apply Nat.eqb_neq; auto).
          rewrite andb_false_r, app_nil_r. auto.
    - split; cbn; rewrite ?repeat_length; auto.
      + rewrite sum_repeat0; auto.
      + intros b Hb. rewrite nth_error_repeat; auto.
      + intros b Hb. rewrite nth_error_repeat by auto. eexists; split; [reflexivity|].
        rewrite repeat_length. split; auto. intros c Hc. rewrite nth_error_repeat; auto.
  Qed.

  (** What one sample looks like. *)
  Definition sample_ok (s : secondary) (rnd : nat -> nat) (i x : nat) : Prop :=
    exists b, in_block (secCounts s) (rnd (3 * i) mod secTotal s) b
      /\ has_class bm bd b x
      /\ has_class tm td (rnd (3 * i + 1) mod NCats (cMap target)) x.

  Lemma in_cell b c k x : In x (filter (cellb b c) (seq 0 k)) ->
    has_class bm bd b x /\ has_class tm td c x.
  Proof.
    intros Hx. apply filter_In in Hx as [_ Hx]. unfold cellb in Hx.
    apply andb_true_iff in Hx as [H1 H2].
    apply has_classb_spec in H1. apply has_classb_spec in H2. auto.
  Qed.

  Lemma secondarySample_partial k s rnd n samples :
    sec_ok k s -> secondarySample s rnd n = Ok samples ->
    length samples = n /\
    forall i x, nth_error samples i = Some x -> sample_ok s rnd i x.
  Proof.
    intros [H1 H2 H3 H4 H5] E. unfold secondarySample in E.
    apply (for_up_partial (fun k samples => length samples = k /\
      forall i x, nth_error samples i = Some x -> sample_ok s rnd i x)) in E; auto.
    - intros i l l' Hi [Hl Hs] Eb.
      apply bind_ok in Eb as (r & Er & Eb).
      unfold intn in Er. destruct (Nat.eqb_spec (secTotal s) 0); [discriminate|].
      assert (Er' : r = rnd (3 * i) mod secTotal s) by congruence. clear Er.
      assert (Hr : r < list_sum (secCounts s)).
      { rewrite <- H1, Er'. apply Nat.mod_upper_bound; auto. }
      destruct (walk_ok (secCounts s) 0 (length (secCounts s)) r) as (b & Ew & Hb & Hblk); auto.
      cbv zeta in Eb. rewrite Ew in Eb. unfold getZ in Eb.
      replace (Z.of_nat (0 + b) <? 0)%Z with false in Eb by (symmetry; apply Z.ltb_ge; lia).
      rewrite Nat2Z.id in Eb. cbn [Nat.add] in Eb.
      destruct (H5 b) as (row & Erow & Hrl & Hcell); [lia|].
      rewrite (get_nth _ _ Erow) in Eb. cbn [bind] in Eb.
      apply bind_ok in Eb as (c & Ec & Eb). unfold intn in Ec. rewrite Hrl in Ec.
      destruct (Nat.eqb_spec (NCats (cMap target)) 0); [discriminate|].
      assert (Ec' : c = rnd (3 * i + 1) mod NCats (cMap target)) by congruence. clear Ec.
      assert (Hc : c < NCats (cMap target)) by (subst; apply Nat.mod_upper_bound; auto).
      rewrite (get_nth _ _ (Hcell c Hc)) in Eb. cbn [bind] in Eb.
      apply bind_ok in Eb as (q & Eq & Eb). apply bind_ok in Eb as (x & Ex & Eb).
      inversion Eb; subst l'. rewrite app_length; cbn [length]. split; [lia|].
      intros j y Hj. destruct (lt_dec j (length l)).
      + rewrite nth_error_app1 in Hj by lia. apply Hs; auto.
      + rewrite nth_error_app2 in Hj by lia.
        destruct (j - length l) as [|jj] eqn:Ej; [|destruct jj; discriminate].
        cbn in Hj. inversion Hj; subst y. assert (j = i) by lia. subst j.
        exists b. rewrite <- Er', <- Ec'. split; auto.
        apply get_inv in Ex. apply nth_error_In in Ex. apply in_cell in Ex. tauto.
    - split; auto. intros [|i] x; discriminate.
  Qed.

  Lemma secondarySample_total s rnd n :
    sec_ok (length td) s ->
    0 < secTotal s -> 0 < NCats (cMap target) ->
    (forall b c, c < NCats (cMap target) ->
       (exists i, i < length td /\ rowb b i = true) ->
       exists i, i < length td /\ cellb b c i = true) ->
    exists samples, secondarySample s rnd n = Ok samples.
  Proof.
    intros [H1 H2 H3 H4 H5] Ht Hn Hcells.
    destruct (@for_up_total _ (fun _ (_ : list nat) => True) (fun i samples =>
      let* r := intn (rnd (3 * i)) (secTotal s) in
      let b := walk (secCounts s) 0 (length (secCounts s)) (Z.of_nat r) in
      let* row := getZ (secSamplers s) b in
      let* c := intn (rnd (3 * i + 1)) (length row) in
      let* l := get row c in
      let* k := intn (rnd (3 * i + 2)) (length l) in
      let* x := get l k in
      Ok (samples ++ [x])) n 0 []) as (l & E & _); auto; [|exists l; exact E].
    intros i l Hi _.
    destruct (intn_ok (rnd (3 * i)) (secTotal s) Ht) as [-> Hr]. cbn [bind]. cbv zeta.
    set (r := _ mod _) in *.
    destruct (walk_ok (secCounts s) 0 (length (secCounts s)) r) as (b & Ew & Hb & Hblk); auto; [lia|].
    rewrite Ew. unfold getZ.
    replace (Z.of_nat (0 + b) <? 0)%Z with false by (symmetry; apply Z.ltb_ge; lia).
    rewrite Nat2Z.id. cbn [Nat.add].
    destruct (H5 b) as (row & Erow & Hrl & Hcell); [lia|].
    rewrite (get_nth _ _ Erow). cbn [bind]. rewrite Hrl.
    destruct (intn_ok (rnd (3 * i + 1)) (NCats (cMap target)) Hn) as [-> Hc]. cbn [bind].
    rewrite (get_nth _ _ (Hcell _ Hc)). cbn [bind].
    set (c := rnd (3 * i + 1) mod _) in *. set (cell := filter _ _).
    assert (Hpos : 0 < length cell).
    { assert (Hrow : exists i, i < length td /\ rowb b i = true).
      { pose proof (H4 b ltac:(lia)) as Hcnt. unfold in_block in Hblk.
        assert (Hfs : list_sum (firstn (S b) (secCounts s)) =
                list_sum (firstn b (secCounts s)) + length (filter (rowb b) (seq 0 (length td)))).
        { clear - Hcnt. revert b Hcnt. generalize (secCounts s) as l.
          intros l b. generalize (length (filter (rowb b) (seq 0 (length td)))) as v.
          revert b. induction l as [|a l IH]; intros [|b] v H; cbn in *; try discriminate.
          - inversion H; subst. lia.
          - rewrite <- Nat.add_assoc. f_equal. apply (IH b v H). }
        destruct (filter (rowb b) (seq 0 (length td))) as [|x xs] eqn:Ef; [cbn in *; lia|].
        assert (Hx : In x (filter (rowb b) (seq 0 (length td)))) by (rewrite Ef; left; auto).
        apply filter_In in Hx as [Hx1 Hx2]. apply in_seq in Hx1. exists x; split; auto; lia. }
      destruct (Hcells b c Hc Hrow) as (x & Hx1 & Hx2).
      assert (Hx : In x cell) by (apply filter_In; split; auto; apply in_seq; lia).
      destruct cell; [contradiction|cbn; lia]. }
    destruct (intn_ok (rnd (3 * i + 2)) (length cell) Hpos) as [-> Hk]. cbn [bind].
    destruct (@get_ok _ cell _ Hk) as (x & -> & _). cbn [bind]. apply yields_ok; auto.
  Qed.
End Secondary.
