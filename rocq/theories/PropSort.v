(** C01, C02: sortby.SortBy. *)
From Verif Require Import Go F64 F64Order ModelSort SortSpec SortProofs.

Theorem C01_sortby_sorts_and_keeps_pairs :
  forall (cases : list nat) (vals : list f64),
    length cases <= length vals ->
    Forall nn (firstn (length cases) vals) ->
    exists cases' vals',
      SortBy cases vals = Ok (cases', vals') /\
      Permutation (combine cases vals) (combine cases' vals') /\
      ascending (firstn (length cases) vals').
Proof. exact SortBy_sorts. Qed.
Print Assumptions C01_sortby_sorts_and_keeps_pairs.

(** A case with ties, infinities, both zeros, more than 7 entries (so that the
    pivoting branch runs) and a longer value slice. *)
Definition ex_vals : list f64 :=
  [f2; f1; S754_infinity true; S754_zero true; f1; f0; f2; S754_infinity false; f1; f1e_7; S754_nan].
Example C01_example :
  length (seq 0 10) <= length ex_vals /\
  Forall nn (firstn (length (seq 0 10)) ex_vals) /\
  exists c v, SortBy (seq 0 10) ex_vals = Ok (c, v) /\ c <> seq 0 10.
Proof.
  repeat split.
  - cbn; lia.
  - cbn. repeat constructor.
  - eexists; eexists. split; [vm_compute; reflexivity|discriminate].
Qed.

Theorem C02_sortby_total_and_frame :
  (forall (cases : list nat) (vals : list f64),
     length cases <= length vals ->
     exists cases' vals',
       SortBy cases vals = Ok (cases', vals') /\
       length cases' = length cases /\ length vals' = length vals /\
       Permutation (combine cases vals) (combine cases' vals') /\
       skipn (length cases) vals' = skipn (length cases) vals) /\
  (forall (cases : list nat) (vals : list f64), SortBy cases vals <> Spin).
Proof. split; [exact SortBy_total|exact nospin_SortBy]. Qed.
Print Assumptions C02_sortby_total_and_frame.

(** NaNs everywhere: still total. *)
Example C02_example :
  exists c v, SortBy (seq 0 9) (S754_nan :: f1 :: S754_nan :: ex_vals) = Ok (c, v).
Proof. eexists; eexists. vm_compute. reflexivity. Qed.
(** A value slice that is too short panics. *)
Example C02_example_short : SortBy [0; 1; 2] [f1] = Panic.
Proof. vm_compute. reflexivity. Qed.
