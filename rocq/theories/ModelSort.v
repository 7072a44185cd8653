(** Model of sortby/sortby.go, function by function.

    The two slices [*cases] and [*vals] are a pair of lists that every function
    returns in its final state.  Index expressions that the Go code keeps
    non-negative are [nat]. *)
From Verif Require Import Go F64.

(** Contents of [*cases] and [*vals]. *)
Definition st : Type := (list nat * list f64)%type.

(** sortby.go:25-36 swap; also the inlined swaps of doPivot (95-100, 115-120,
    146-152, 164-170, 182-188), which exchange the same two positions of both
    slices. *)
Definition swap (s : st) (i j : nat) : res st :=
  let (cs, vs) := s in
  let* cs' := swapl cs i j in
  let* vs' := swapl vs i j in
  Ok (cs', vs').

(** sortby.go:198-215 medianOfThree *)
Definition medianOfThree (s : st) (a b c : nat) : res st :=
  let m0 := b in
  let m1 := a in
  let m2 := c in
  let* x1 := get (snd s) m1 in
  let* x0 := get (snd s) m0 in
  let* s := (if fltb x1 x0 then swap s m1 m0 else Ok s) in
  let* x2 := get (snd s) m2 in
  let* x1 := get (snd s) m1 in
  let* s := (if fltb x2 x1 then swap s m2 m1 else Ok s) in
  let* x1 := get (snd s) m1 in
  let* x0 := get (snd s) m0 in
  if fltb x1 x0 then swap s m1 m0 else Ok s.

(** sortby.go:89-107, first inner loop of doPivot; state is (slices, a, b). *)
Definition pivot_up (fuel : nat) (pivotv : f64) (c : nat) (s : st * nat * nat)
  : res (st * nat * nat) :=
  loop fuel (fun '(s, a, b) =>
    if b <? c then
      let* swapf := get (snd s) b in
      if fltb swapf pivotv then Ok (Next (s, a, S b))
      else if feqb pivotv swapf then
        let* s' := swap s b a in Ok (Next (s', S a, S b))
      else Ok (Done (s, a, b))
    else Ok (Done (s, a, b))) s.

(** sortby.go:108-139, second inner loop of doPivot; state is (slices, c, d).
    [c-1] and [d-1] are only formed when [b < c <= d]. *)
Definition pivot_down (fuel : nat) (pivotv : f64) (b : nat) (s : st * nat * nat)
  : res (st * nat * nat) :=
  loop fuel (fun '(s, c, d) =>
    if b <? c then
      let c' := c - 1 in
      let* swapf := get (snd s) c' in
      if fltb pivotv swapf then Ok (Next (s, c', d))
      else if feqb swapf pivotv then
        let d' := d - 1 in
        let* s' := swap s c' d' in Ok (Next (s', c', d'))
      else Ok (Done (s, c, d))
    else Ok (Done (s, c, d))) s.

(** sortby.go:88-155, outer loop of doPivot; state is (slices, a, b, c, d). *)
Definition pivot_loop (fuel : nat) (pivotv : f64) (s : st * nat * nat * nat * nat)
  : res (st * nat * nat * nat * nat) :=
  loop fuel (fun '(s, a, b, c, d) =>
    let* (s, a, b) := pivot_up fuel pivotv c (s, a, b) in
    let* (s, c, d) := pivot_down fuel pivotv b (s, c, d) in
    if c <=? b then Ok (Done (s, a, b, c, d))
    else
      let c := c - 1 in
      let* s := swap s c b in
      Ok (Next (s, a, S b, c, d))) s.

(** sortby.go:160-174 and 178-192 (inlined swapRange, 217-242). *)
Definition swapRange (s : st) (a2 b2 n : nat) : res st :=
  for_up n 0 (fun i s => swap s (a2 + i) (b2 + i)) s.

(** sortby.go:61-195 doPivot *)
Definition doPivot (s : st) (lo hi : nat) : res (st * nat * nat) :=
  let m := lo + (hi - lo) / 2 in
  let* s :=
    (if 40 <? hi - lo then
       let s8 := (hi - lo) / 8 in
       let* s := medianOfThree s lo (lo + s8) (lo + 2 * s8) in
       let* s := medianOfThree s m (m - s8) (m + s8) in
       medianOfThree s (hi - 1) (hi - 1 - s8) (hi - 1 - 2 * s8)
     else Ok s) in
  let* s := medianOfThree s lo m (hi - 1) in
  let* pivotv := get (snd s) lo in
  let* (s, a, b, c, d) := pivot_loop (S hi) pivotv (s, lo + 1, lo + 1, hi, hi) in
  let n := Nat.min (b - a) (a - lo) in
  let* s := swapRange s lo (b - n) n in
  let n := Nat.min (hi - d) (d - c) in
  let* s := swapRange s c (hi - n) n in
  Ok (s, lo + b - a, hi - (d - c)).

(** sortby.go:249-251, inner loop of insertionSort: sink element [j]. *)
Definition sink (s : st) (a i : nat) : res st :=
  loop (S i) (fun '(s, j) =>
    if a <? j then
      let* x := get (snd s) j in
      let* y := get (snd s) (j - 1) in
      if fltb x y then let* s' := swap s j (j - 1) in Ok (Next (s', j - 1))
      else Ok (Done s)
    else Ok (Done s)) (s, i).

(** sortby.go:245-253 insertionSort *)
Definition insertionSort (s : st) (a b : nat) : res st :=
  for_up (b - (a + 1)) (a + 1) (fun i s => sink s a i) s.

(** sortby.go:257-274 siftDown *)
Definition siftDown (s : st) (lo hi first : nat) : res st :=
  loop (S hi) (fun '(s, root) =>
    let child := 2 * root + 1 in
    if hi <=? child then Ok (Done s)
    else
      let* child :=
        (if child + 1 <? hi then
           let* x := get (snd s) (first + child) in
           let* y := get (snd s) (first + child + 1) in
           if fltb x y then Ok (child + 1) else Ok child
         else Ok child) in
      let* xr := get (snd s) (first + root) in
      let* xc := get (snd s) (first + child) in
      if fleb xc xr then Ok (Done s)
      else
        let* s' := swap s (first + root) (first + child) in
        Ok (Next (s', child))) (s, lo).

(** sortby.go:276-291 heapSort *)
Definition heapSort (s : st) (a b : nat) : res st :=
  let first := a in
  let hi := b - a in
  let* s := for_down (S ((hi - 1) / 2)) (fun i s => siftDown s i hi first) s in
  for_down hi (fun i s =>
    let* s := swap s first (first + i) in
    siftDown s 0 i first) s.

(** sortby.go:38-59 quickSort.  Continuing the loop with [a = mhi] or [b = mlo]
    and the decremented [maxDepth] is a call with these arguments. *)
Fixpoint quickSort (maxDepth : nat) (s : st) (a b : nat) : res st :=
  if 7 <? b - a then
    match maxDepth with
    | O => heapSort s a b
    | S md =>
        let* (s, mlo, mhi) := doPivot s a b in
        if mlo - a <? b - mhi then
          let* s := quickSort md s a mlo in
          quickSort md s mhi b
        else
          let* s := quickSort md s mhi b in
          quickSort md s a mlo
    end
  else if 1 <? b - a then insertionSort s a b
  else Ok s.

(** sortby.go:14-18, the depth limit; [i >>= 1] is [i / 2]. *)
Definition maxDepth_loop (n : nat) : res nat :=
  loop (S n) (fun '(i, md) =>
    if 0 <? i then Ok (Next (i / 2, S md)) else Ok (Done md)) (n, 0).

(** sortby.go:11-22 SortBy *)
Definition SortBy (cases : list nat) (vals : list f64) : res st :=
  let n := length cases in
  let* md := maxDepth_loop n in
  quickSort (md * 2) (cases, vals) 0 n.
