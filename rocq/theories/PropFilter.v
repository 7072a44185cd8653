(** C125: filtering out missing cases. *)
From Verif Require Import Go GoLemmas F64 ModelFeature.
Local Open Scope nat_scope.
Local Open Scope list_scope.

(** ** C125.  FilterMissing appends the cases whose value is known, in their order, to
    what was filtered before, and also works when both slices share an array. *)

Definition known (missing : list bool) (c : nat) : bool := match nth_error missing c with Some m => negb m | None => false end.
Definition filter_missing (missing : list bool) (cases filtered : list nat) : res (list nat) :=
  foreach cases (fun c acc => let* m := get missing c in Ok (if m then acc else acc ++ [c])) filtered.
Lemma filter_missing_ok missing : forall cases filtered, Forall (fun c => c < length missing) cases ->
  filter_missing missing cases filtered = Ok (filtered ++ filter (known missing) cases).
Proof.
  intros cases filtered H. revert filtered. induction H as [|c cases Hc H IH]; intros filtered; cbn.
  - rewrite app_nil_r. reflexivity.
  - unfold known at 1. destruct (nth_error missing c) as [m|] eqn:E; [|apply nth_error_None in E; lia].
    rewrite (get_nth _ _ E). cbn [bind]. unfold filter_missing in IH. rewrite IH. destruct m; cbn [negb]; auto.
    rewrite <- app_assoc. reflexivity.
Qed.
Lemma filter_missing_panics missing : forall cases filtered, Exists (fun c => length missing <= c) cases ->
  filter_missing missing cases filtered = Panic.
Proof.
  intros cases filtered H. revert filtered. induction cases as [|c cases IH]; intros filtered; [inversion H|].
  unfold filter_missing in *. cbn [foreach]. unfold get at 1. destruct (nth_error missing c) as [m|] eqn:E; [|reflexivity].
  cbn [bind]. apply IH. inversion H; subst; auto. apply nth_error_some_lt in E. lia.
Qed.

Theorem C125_cat : forall f cases filtered,
  (Forall (fun c => c < length (cMissing f)) cases ->
   cFilterMissing f cases filtered = Ok (filtered ++ filter (known (cMissing f)) cases)) /\
  (Exists (fun c => length (cMissing f) <= c) cases -> cFilterMissing f cases filtered = Panic).
Proof. intros. split; [apply filter_missing_ok|apply filter_missing_panics]. Qed.
Theorem C125_num : forall f cases filtered,
  (Forall (fun c => c < length (nMissing f)) cases ->
   nFilterMissing f cases filtered = Ok (filtered ++ filter (known (nMissing f)) cases)) /\
  (Exists (fun c => length (nMissing f) <= c) cases -> nFilterMissing f cases filtered = Panic).
Proof. intros. split; [apply filter_missing_ok|apply filter_missing_panics]. Qed.

(** densecatfeature.go:929-936, densenumfeature.go:378-385 with filtered the slice
    cases[:0] of the same array [arr]: append stores in the array. *)
Definition filter_in_place (missing : list bool) (arr : list nat) : res (list nat * nat) :=
  for_up (length arr) 0 (fun i '((arr, k) : list nat * nat) =>
    let* c := get arr i in
    let* m := get missing c in
    if m then Ok (arr, k) else let* arr := set arr k c in Ok (arr, S k)) (arr, 0).

Theorem C125_in_place : forall missing arr, Forall (fun c => c < length missing) arr ->
  exists arr', filter_in_place missing arr = Ok (arr', length (filter (known missing) arr)) /\
    length arr' = length arr /\ firstn (length (filter (known missing) arr)) arr' = filter (known missing) arr.
Proof.
  intros missing arr H. unfold filter_in_place.
  assert (G : forall todo front gap, Forall (fun c => c < length missing) todo ->
    exists arr', for_up (length todo) (length front + length gap) (fun i '((arr, k) : list nat * nat) =>
      let* c := get arr i in
      let* m := get missing c in
      if m then Ok (arr, k) else let* arr := set arr k c in Ok (arr, S k)) (front ++ gap ++ todo, length front)
    = Ok (arr', length front + length (filter (known missing) todo)) /\
    length arr' = length front + length gap + length todo /\
    firstn (length front + length (filter (known missing) todo)) arr' = front ++ filter (known missing) todo).
  { induction todo as [|c todo IH]; intros front gap Ht.
    - exists (front ++ gap ++ []). cbn. rewrite !app_nil_r, !app_length, Nat.add_0_r. split; [reflexivity|]. split; [lia|].
      rewrite firstn_app, Nat.sub_diag, firstn_all, firstn_O, app_nil_r. reflexivity.
    - inversion Ht as [|? ? Hc Ht']; subst. cbn [length for_up].
      assert (Eg : nth_error (front ++ gap ++ c :: todo) (length front + length gap) = Some c).
      { rewrite app_assoc, <- app_length, nth_error_app2, Nat.sub_diag by lia. reflexivity. }
      rewrite (get_nth _ _ Eg). cbn [bind].
      destruct (nth_error missing c) as [m|] eqn:Em; [|apply nth_error_None in Em; lia].
      rewrite (get_nth _ _ Em). cbn [bind filter].
      assert (Ek : known missing c = negb m) by (unfold known; rewrite Em; reflexivity). rewrite !Ek. clear Ek. destruct m; cbn [negb].
      + destruct (IH front (gap ++ [c]) Ht') as (arr' & E & L & F).
        rewrite app_length in E, L. cbn [length] in E, L. rewrite <- app_assoc in E. cbn [app] in E.
        replace (S (length front + length gap)) with (length front + (length gap + 1)) by lia.
        exists arr'. split; [exact E|]. split; [lia|exact F].
      + destruct gap as [|g gap].
        * cbn [app length] in *. rewrite Nat.add_0_r in *.
          rewrite set_ok by (rewrite app_length; cbn; lia). cbn [bind].
          rewrite (upd_same _ _ Eg).
          destruct (IH (front ++ [c]) [] Ht') as (arr' & E & L & F). rewrite !app_length in *. cbn [length app] in *.
          rewrite <- app_assoc in E. cbn [app] in E. rewrite Nat.add_0_r in E.
          replace (S (length front)) with (length front + 1) by lia.
          exists arr'. rewrite E. split; [f_equal; f_equal; lia|]. split; [lia|].
          replace (length front + S (length (filter (known missing) todo))) with (length front + 1 + length (filter (known missing) todo)) by lia.
          rewrite F, <- app_assoc. reflexivity.
        * rewrite set_ok by (rewrite !app_length; cbn; lia). cbn [bind].
          assert (Eu : upd (front ++ (g :: gap) ++ c :: todo) (length front) c = (front ++ [c]) ++ (gap ++ [c]) ++ todo).
          { clear. rewrite <- !app_assoc. cbn [app]. induction front; cbn; [|rewrite IHfront]; reflexivity. }
          rewrite Eu. destruct (IH (front ++ [c]) (gap ++ [c]) Ht') as (arr' & E & L & F). rewrite !app_length in *. cbn [length] in *.
          replace (S (length front + S (length gap))) with (length front + 1 + (length gap + 1)) by lia.
          replace (S (length front)) with (length front + 1) by lia.
          exists arr'. rewrite E. split; [f_equal; f_equal; lia|]. split; [lia|].
          replace (length front + S (length (filter (known missing) todo))) with (length front + 1 + length (filter (known missing) todo)) by lia.
          rewrite F, <- app_assoc. reflexivity. }
  destruct (G arr [] [] H) as (arr' & E & L & F). exists arr'. auto.
Qed.

Example C125_ex : filter_in_place [true; false; true; false] [3; 0; 1; 1; 2] = Ok ([3; 1; 1; 1; 2], 3)
  /\ nFilterMissing (mkNum [] [true; false; true; false] EmptyString true) [3; 0; 1; 1; 2] [7] = Ok [7; 3; 1; 1].
Proof. split; vm_compute; reflexivity. Qed.

Print Assumptions C125_cat.
Print Assumptions C125_num.
Print Assumptions C125_in_place.
