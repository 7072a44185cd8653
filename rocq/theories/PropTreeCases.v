(** C122: the cases a tree is grown from, as asked for on the command line. *)
From Verif Require Import Go GoLemmas F64 ModelFeature ModelSample SampleSpec SampleProofs PropSample ModelFold PropFold PropNobag
  ModelText ModelCommands ModelCommands2.
Local Open Scope string_scope.
Local Open Scope nat_scope.
Local Open Scope list_scope.

(** ** C122.  The claim in full: every tree is grown from as many cases as -nSamples says,
    a count or a portion of the cases whose target is known, all of them known and, when
    asked for, balanced; by default from as many as there are known cases.  If no value can
    be read the default is used. *)

(** The number asked for: empty, unreadable and non-positive numbers mean all known cases; a
    term with a point is a portion, any other one a count. *)
Definition asked (PF : string -> option f64) (PI : string -> option Z) (ceil : f64 -> Z) (term : string) (known : nat) : nat :=
  let given :=
    if string_dec term "" then None
    else if in_dec Ascii.ascii_dec "."%char (list_ascii_of_string term) then
      match PF term with Some p => Some (ceil (fmul p (f_of_Z (Z.of_nat known)))) | None => None end
    else PI term in
  match given with
  | Some z => if Z_lt_dec 0 z then Z.to_nat z else known
  | None => known
  end.
(** The cases whose target is known. *)
Definition known_of (f : feature) : list nat := filter (usable f) (seq 0 (length (mask_of f))).

Lemma has_point term : existsb (Ascii.eqb "."%char) (B term) = true <-> In "."%char (list_ascii_of_string term).
Proof.
  unfold B. rewrite existsb_exists. split.
  - intros (c & H & E). apply Ascii.eqb_eq in E. subst. exact H.
  - intros H. eexists. split; [exact H|apply Ascii.eqb_refl].
Qed.
Lemma nSamples_asked PF PI ceil term known :
  Z.to_nat (nSamples_of PF PI ceil term (Z.of_nat known)) = asked PF PI ceil term known.
Proof.
  unfold nSamples_of, asked, ParseAsIntOrFractionOfTotal.
  destruct (String.eqb_spec term "") as [->|Hne].
  { destruct (string_dec "" "") as [_|]; [|congruence]. cbn. apply Nat2Z.id. }
  destruct (string_dec term "") as [|_]; [contradiction|].
  destruct (existsb (Ascii.eqb "."%char) (B term)) eqn:E.
  - apply has_point in E. destruct (in_dec _ _ _) as [_|]; [|contradiction].
    destruct (PF term) as [p|]; [|cbn; apply Nat2Z.id].
    destruct (Z.leb_spec (ceil (fmul p (f_of_Z (Z.of_nat known)))) 0), (Z_lt_dec 0 (ceil (fmul p (f_of_Z (Z.of_nat known))))); try lia; auto.
  - destruct (in_dec _ _ _) as [H|_]; [apply has_point in H; congruence|].
    destruct (PI term) as [z|]; [|cbn; apply Nat2Z.id].
    destruct (Z.leb_spec z 0), (Z_lt_dec 0 z); try lia; auto.
Qed.

Lemma balancedSample_known f rnd n cs samples : valid_column f -> newBalanced f = Ok cs -> balancedSample cs rnd n = Ok samples ->
  length samples = n /\ forall c, In c samples -> exists k, has_class (cMissing f) (cData f) k c.
Proof.
  intros [H1 H2] E E2. destruct (newBalanced_ok f H1 H2) as (cs' & E' & Hl & Hcs). rewrite E in E'. inversion E'; subst cs'; clear E'.
  unfold balancedSample in E2.
  apply (for_up_partial (fun k samples => length samples = k /\ forall c, In c samples -> exists k, has_class (cMissing f) (cData f) k c)) in E2; auto.
  - intros i l l' _ [Hll Hs] Eb. apply bind_ok in Eb as (c & Ec & Eb). apply bind_ok in Eb as (cl & Ecl & Eb).
    apply bind_ok in Eb as (k & _ & Eb). apply bind_ok in Eb as (s & Es & Eb). inversion Eb; subst l'; clear Eb.
    rewrite app_length. cbn [length]. split; [lia|]. intros x Hx. apply in_app_or in Hx as [Hx|[<-|[]]]; [auto|].
    apply get_inv in Ecl. pose proof (nth_error_some_lt _ _ Ecl) as Hc. rewrite Hl in Hc.
    rewrite (Hcs c Hc) in Ecl. inversion Ecl; subst cl. apply get_inv in Es. apply nth_error_In in Es.
    unfold class_cases in Es. apply filter_In in Es as [_ Es]. apply has_classb_spec in Es. eauto.
  - split; [reflexivity|]. intros c [].
Qed.

(** When growing takes samples (the default), with or without balancing: as many cases as
    asked for, every one of them known. *)
Theorem C122_sampled_cases : forall PF PI ceil term balance by_ rnd f fuel cs,
  (forall c, f = FCat c -> valid_column c) ->
  (forall g, by_ = Some g -> length (mask_of g) = length (mask_of f) /\ forall c, g = FCat c -> valid_column c) ->
  tree_cases PF PI ceil term false balance by_ rnd f (length (mask_of f)) fuel = Ok cs ->
  length cs = asked PF PI ceil term (length (known_of f)) /\ forall c, In c cs -> In c (known_of f).
Proof.
  intros PF PI ceil term balance by_ rnd f fuel cs Hf Hg E. unfold tree_cases in E.
  apply bind_ok in E as (bs & Ebs & E). rewrite count_loop in E by auto. cbn [bind] in E.
  fold (known_of f) in E. rewrite nSamples_asked in E.
  assert (Hkn : forall d c, f = FCat d -> forall k, has_class (cMissing d) (cData d) k c -> In c (known_of f)).
  { intros d c -> k [H1 _]. unfold known_of. apply filter_In. cbn [mask_of].
    split; [apply in_seq; apply nth_error_some_lt in H1; lia|]. unfold usable. cbn [mask_of]. rewrite H1. reflexivity. }
  destruct bs as [[cls|s]|].
  - assert (exists d, f = FCat d /\ newBalanced d = Ok cls) as (d & -> & En).
    { unfold bSampler in Ebs. apply bind_ok in Ebs as (b & Eb & Ebs). destruct by_ as [g|].
      - destruct f; [discriminate|]. destruct g; [discriminate|]. apply bind_ok in Ebs as (? & _ & Ebs). discriminate.
      - inversion Ebs; subst b. destruct balance; [|discriminate]. destruct f as [|d]; [discriminate|].
        apply bind_ok in Eb as (x & En & Eb). inversion Eb; subst x. eauto. }
    destruct (balancedSample_known d rnd _ cls cs (Hf d eq_refl) En E) as [L H]. split; [exact L|].
    intros c Hc. destruct (H c Hc) as [k Hk]. eapply Hkn; eauto.
  - assert (exists d g, f = FCat d /\ by_ = Some (FCat g) /\ newSecondary d g = Ok s) as (d & g & -> & -> & En).
    { unfold bSampler in Ebs. apply bind_ok in Ebs as (b & Eb & Ebs). destruct by_ as [g|].
      - destruct f as [|d]; [discriminate|]. destruct g as [|g]; [discriminate|]. apply bind_ok in Ebs as (x & En & Ebs).
        inversion Ebs; subst x. eauto.
      - inversion Ebs; subst b. destruct balance; [|discriminate]. destruct f as [|d]; [discriminate|].
        apply bind_ok in Eb as (x & _ & Eb). discriminate. }
    destruct (Hg _ eq_refl) as [Hl Hv]. specialize (Hv g eq_refl). specialize (Hf d eq_refl). cbn [mask_of] in Hl.
    assert (Hdl : length (cData d) = length (cData g)) by (destruct Hf as [L1 _], Hv as [L2 _]; lia).
    destruct (C15_secondary d g rnd _ cs s Hf Hv Hdl En E) as [L H]. split; [exact L|].
    intros c Hc. apply In_nth_error in Hc as [i Hi]. destruct (H i c Hi) as (b & _ & _ & Hk). eapply Hkn; eauto.
  - destruct (C14_bag _ _ _ _ _ _ E) as [L H]. split; [exact L|]. intros c Hc. destruct (H c Hc) as [H1 H2].
    unfold known_of. apply filter_In. split; [apply in_seq; lia|]. unfold usable. rewrite fIsMissing_mask in H2.
    apply get_inv in H2. rewrite H2. reflexivity.
Qed.

(** With -nobag and nothing (readable) said about -nSamples every known case, once. *)
Theorem C122_all_known_cases : forall PF PI ceil term rnd f fuel,
  asked PF PI ceil term (length (known_of f)) = length (known_of f) ->
  exists cs, tree_cases PF PI ceil term true false None rnd f (length (mask_of f)) fuel = Ok cs /\ Permutation (known_of f) cs.
Proof.
  intros PF PI ceil term rnd f fuel Ha. unfold tree_cases, bSampler. cbn [bind].
  destruct (C74_default_uses_all_partial f rnd) as (n & cs & E1 & E2 & Hp).
  rewrite E1. cbn [bind]. rewrite count_loop in E1 by auto. inversion E1; subst n. rewrite nSamples_asked.
  fold (known_of f) in *. rewrite Ha. eauto.
Qed.

(** Without -nobag and with no known case, any number asked for makes the loop endless. *)
Theorem C122_no_known_case_refuted : forall PF PI ceil term rnd f fuel,
  mask_of f <> [] -> known_of f = [] -> 0 < asked PF PI ceil term 0 ->
  tree_cases PF PI ceil term false false None rnd f (length (mask_of f)) fuel = Spin.
Proof.
  intros PF PI ceil term rnd f fuel Hne Hk Ha. unfold tree_cases, bSampler. cbn [bind].
  rewrite count_loop by auto. cbn [bind]. fold (known_of f). rewrite nSamples_asked, Hk. cbn [length].
  unfold bag. assert (Hl : 0 < length (mask_of f)) by (destruct (mask_of f); [congruence|cbn; lia]).
  set (n := asked PF PI ceil term 0) in *. clearbody n. rename Ha into Hn.
  match goal with |- loop _ ?b _ = _ => enough (G : forall j, loop fuel b (j, []) = Spin) by apply G end.
  induction fuel as [|fuel IH]; intros j; [reflexivity|]. cbn [loop].
  replace (length [] <? n) with true by (symmetry; apply Nat.ltb_lt; cbn; lia).
  set (r := rnd j mod length (mask_of f)).
  assert (Ei : intn (rnd j) (length (mask_of f)) = Ok r).
  { unfold intn. destruct (Nat.eqb_spec (length (mask_of f)) 0); [lia|reflexivity]. }
  rewrite Ei. cbn [bind]. rewrite fIsMissing_mask.
  assert (Hr : r < length (mask_of f)) by (apply Nat.mod_upper_bound; lia).
  destruct (@get_ok _ (mask_of f) r Hr) as (m & Em & En). rewrite Em. cbn [bind].
  destruct m; [apply IH|]. exfalso.
  assert (In r (known_of f)) as Hin.
  { unfold known_of. apply filter_In. split; [apply in_seq; lia|]. unfold usable. rewrite En. reflexivity. }
  rewrite Hk in Hin. destruct Hin.
Qed.

(** -nobag switches balancing off without a word. *)
Theorem C122_unbalanced_refuted : forall PF PI ceil term balance by_ rnd f nCases fuel bs,
  bSampler balance by_ f = Ok bs ->
  tree_cases PF PI ceil term true balance by_ rnd f nCases fuel = tree_cases PF PI ceil term true false None rnd f nCases fuel.
Proof. intros PF PI ceil term balance by_ rnd f nCases fuel bs E. unfold tree_cases. rewrite E. reflexivity. Qed.

(** A portion written without a point, 5e-1 say, is no count and asks for all cases. *)
Theorem C122_exponent_refuted : forall PF PI ceil term known,
  PI term = None -> ~ In "."%char (list_ascii_of_string term) -> asked PF PI ceil term known = known.
Proof.
  intros PF PI ceil term known E H. unfold asked. destruct (string_dec term ""); [reflexivity|].
  destruct (in_dec _ _ _); [contradiction|]. rewrite E. reflexivity.
Qed.

(** Three cases of which two are known: half of them is one case, an unreadable number all
    of them; and a target nothing is known of. *)
Example C122_ex :
  let PF s := if String.eqb s ".5" then Some (fdiv f1 f2) else None in
  let PI s := if String.eqb s "7" then Some 7%Z else None in
  let ceil x := if feqb x f1 then 1%Z else 0%Z in
  known_of bag_target = [1; 2] /\ asked PF PI ceil ".5" 2 = 1 /\ asked PF PI ceil "7" 2 = 7 /\ asked PF PI ceil "5e-1" 2 = 2 /\
  tree_cases PF PI ceil "7" false false None (fun j => j) bag_target 3 20 = Ok [1; 2; 1; 2; 1; 2; 1] /\
  tree_cases PF PI ceil "" true false None (fun j => 0) bag_target 3 20 = Ok [1; 2] /\
  known_of (FNum (mkNum [f0] [true] "N:t" true)) = [] /\ 0 < asked PF PI ceil "7" 0.
Proof. cbv zeta. do 7 (split; [vm_compute; reflexivity|]). vm_compute. lia. Qed.
(** A balanced sample: one a and three b, and a draw of each class. *)
Example C122_balanced_ex :
  let f := mkCat (mkCM [("a", 0); ("b", 1)] ["a"; "b"]) [0; 1; 1; 1] [false; false; false; false] "C:t" false true in
  valid_column f /\
  tree_cases (fun _ => None) (fun _ => None) (fun _ => 0%Z) "" false true None (fun j => j) (FCat f) 4 0 = Ok [0; 0; 0; 0].
Proof.
  cbv zeta. split; [|vm_compute; reflexivity]. split; [reflexivity|].
  intros i c [_ H]. cbn in *. destruct i as [|[|[|[|i]]]]; cbn in H; inversion H; cbn; try lia. destruct i; discriminate.
Qed.

Print Assumptions C122_sampled_cases.
Print Assumptions C122_all_known_cases.
Print Assumptions C122_no_known_case_refuted.
Print Assumptions C122_unbalanced_refuted.
Print Assumptions C122_exponent_refuted.
