(** Model of the worker goroutines of growforest (growforest/growforest.go) that
    grow one forest, and of the goroutines of leafcount (leafcount/leafcount.go).

    Both are transition systems: [wstep c t s] is the state after thread [t]
    executed its next step, or [None] if it cannot move now (it is blocked, it has
    returned, or the program has crashed).  A schedule is any list of threads.
    Growing tree number k = 1, 2, ... is one step that stores k in the tree object
    (a new object holds 0); what the tree looks like is the subject of ModelGrow.  All other steps read or
    write shared data at most once. *)
From Verif Require Import Go.
Local Open Scope nat_scope.
Local Open Scope list_scope.

(** ** growforest *)

(** Program counter of a worker.  Lines of growforest/growforest.go. *)
Inductive wpc :=
| PGrow                 (* 622-678: sample and grow into the tree object *)
| PBoost                (* 680-691: the section under boostMutex; decides on the weight *)
| PClose                (* 687-688: close(treechan); break *)
| PLock                 (* 699-701 *)
| PWrite                (* 703-705 *)
| PRecord               (* 713-714 *)
| PFresh                (* 716-720 *)
| PCount                (* 722-723 *)
| PCheck                (* 726 *)
| PInc                  (* 727: read of treesStarted++ *)
| PIncW (v : nat)       (* 727: write of treesStarted++ *)
| PUnlock               (* 736-738, then round again *)
| PStop                 (* 729-730 *)
| PDone                 (* 731 *)
| PGone.                (* the goroutine has returned *)

(** The flags: -nTrees, -nCores, boosting, -test/-selftest, -progress, and which
    trees get an infinite weight when boosting. *)
Record wconf := mkWC {
  cTrees : nat;
  cCores : nat;
  cBoost : bool;
  cTest : bool;
  cProgress : bool;
  cInf : nat -> bool
}.

Record wstate := mkW {
  wStarted : nat;            (* treesStarted *)
  wFinished : nat;           (* treesFinished *)
  wLocked : bool;            (* recordingTree *)
  wWait : nat;               (* the counter of waitGroup *)
  wClosed : bool;            (* treechan is closed *)
  wCrashed : bool;           (* a panic has ended the program *)
  wMain : bool;              (* the main goroutine has passed lines 745-754 *)
  wHeap : list nat;          (* contents of the tree objects, by address *)
  wGrown : nat;              (* number of trees grown so far *)
  wTrees : list nat;         (* the slice trees: addresses *)
  wFile : list (nat * nat);  (* what was given to WriteTree: contents, number *)
  wThreads : list (wpc * nat) (* program counter and address of [tree] *)
}.

(** Line 580-619: the state when all workers have been started.  The [nCores]
    tree objects of line 600 are the addresses 0 .. nCores-1. *)
Definition winit (c : wconf) : wstate :=
  mkW (cCores c) 0 false (cCores c) false false false (repeat 0 (cCores c)) 0 [] []
      (map (fun t => (PGrow, t)) (seq 0 (cCores c))).

Definition set_pc (s : wstate) (t : nat) (pc : wpc) (a : nat) : wstate :=
  mkW (wStarted s) (wFinished s) (wLocked s) (wWait s) (wClosed s) (wCrashed s) (wMain s)
      (wHeap s) (wGrown s) (wTrees s) (wFile s) (upd (wThreads s) t (pc, a)).

(** One step of worker [t], which is at [pc] with its tree object at [a]. *)
Definition worker_step (c : wconf) (t : nat) (pc : wpc) (a : nat) (s : wstate) : option wstate :=
  let many := 1 <? cCores c in
  match pc with
  | PGrow =>
      Some (set_pc (mkW (wStarted s) (wFinished s) (wLocked s) (wWait s) (wClosed s) (wCrashed s) (wMain s)
                        (upd (wHeap s) a (S (wGrown s))) (S (wGrown s)) (wTrees s) (wFile s) (wThreads s))
                   t (if cBoost c then PBoost else PLock) a)
  | PBoost => Some (set_pc s t (if cInf c (nth a (wHeap s) 0) then PClose else PLock) a)
  | PClose =>
      if wClosed s then
        Some (mkW (wStarted s) (wFinished s) (wLocked s) (wWait s) (wClosed s) true (wMain s)
                  (wHeap s) (wGrown s) (wTrees s) (wFile s) (wThreads s))
      else
        Some (set_pc (mkW (wStarted s) (wFinished s) (wLocked s) (wWait s) true (wCrashed s) (wMain s)
                          (wHeap s) (wGrown s) (wTrees s) (wFile s) (wThreads s)) t PGone a)
  | PLock =>
      if many then
        if wLocked s then None
        else Some (set_pc (mkW (wStarted s) (wFinished s) true (wWait s) (wClosed s) (wCrashed s) (wMain s)
                               (wHeap s) (wGrown s) (wTrees s) (wFile s) (wThreads s)) t PWrite a)
      else Some (set_pc s t PWrite a)
  | PWrite =>
      Some (set_pc (mkW (wStarted s) (wFinished s) (wLocked s) (wWait s) (wClosed s) (wCrashed s) (wMain s)
                        (wHeap s) (wGrown s) (wTrees s) (wFile s ++ [(nth a (wHeap s) 0, wFinished s)]) (wThreads s))
                   t (if cTest c then PRecord else PCount) a)
  | PRecord =>
      Some (set_pc (mkW (wStarted s) (wFinished s) (wLocked s) (wWait s) (wClosed s) (wCrashed s) (wMain s)
                        (wHeap s) (wGrown s) (wTrees s ++ [a]) (wFile s) (wThreads s)) t PFresh a)
  | PFresh =>
      if wStarted s <? cTrees c - 1 then
        Some (set_pc (mkW (wStarted s) (wFinished s) (wLocked s) (wWait s) (wClosed s) (wCrashed s) (wMain s)
                          (wHeap s ++ [0]) (wGrown s) (wTrees s) (wFile s) (wThreads s)) t PCount (length (wHeap s)))
      else Some (set_pc s t PCount a)
  | PCount =>
      Some (set_pc (mkW (wStarted s) (if cProgress c then S (wFinished s) else wFinished s) (wLocked s) (wWait s) (wClosed s)
                        (wCrashed s) (wMain s) (wHeap s) (wGrown s) (wTrees s) (wFile s) (wThreads s)) t PCheck a)
  | PCheck => Some (set_pc s t (if wStarted s <? cTrees c then PInc else PStop) a)
  | PInc => Some (set_pc s t (PIncW (wStarted s)) a)
  | PIncW v =>
      Some (set_pc (mkW (S v) (wFinished s) (wLocked s) (wWait s) (wClosed s) (wCrashed s) (wMain s)
                        (wHeap s) (wGrown s) (wTrees s) (wFile s) (wThreads s)) t PUnlock a)
  | PUnlock =>
      Some (set_pc (mkW (wStarted s) (wFinished s) (if many then false else wLocked s) (wWait s) (wClosed s) (wCrashed s) (wMain s)
                        (wHeap s) (wGrown s) (wTrees s) (wFile s) (wThreads s)) t PGrow a)
  | PStop =>
      if many then
        Some (set_pc (mkW (wStarted s) (wFinished s) false (wWait s) (wClosed s) (wCrashed s) (wMain s)
                          (wHeap s) (wGrown s) (wTrees s) (wFile s) (wThreads s)) t PDone a)
      else Some (set_pc s t PGone a)
  | PDone =>
      Some (set_pc (mkW (wStarted s) (wFinished s) (wLocked s) (wWait s - 1) (wClosed s) (wCrashed s) (wMain s)
                        (wHeap s) (wGrown s) (wTrees s) (wFile s) (wThreads s)) t PGone a)
  | PGone => None
  end.

(** Lines 745-754: with one core the main goroutine runs [grow] itself and goes on
    when it has returned; otherwise it waits for the counter of the wait group. *)
Definition main_ready (c : wconf) (s : wstate) : bool :=
  if 1 <? cCores c then wWait s =? 0
  else forallb (fun w => match fst w with PGone => true | _ => false end) (wThreads s).

(** A step of thread [t]: a worker, or the main goroutine for any other number. *)
Definition wstep (c : wconf) (t : nat) (s : wstate) : option wstate :=
  if (wCrashed s || wMain s)%bool then None
  else match nth_error (wThreads s) t with
       | Some (pc, a) => worker_step c t pc a s
       | None =>
           if main_ready c s then
             Some (mkW (wStarted s) (wFinished s) (wLocked s) (wWait s) (wClosed s) (wCrashed s) true
                       (wHeap s) (wGrown s) (wTrees s) (wFile s) (wThreads s))
           else None
       end.

Fixpoint wrun (c : wconf) (sched : list nat) (s : wstate) : option wstate :=
  match sched with
  | [] => Some s
  | t :: sched' => match wstep c t s with Some s' => wrun c sched' s' | None => None end
  end.

(** Lines 904-923: the forest that votes on the test data. *)
Definition tested (s : wstate) : list nat := map (fun a => nth a (wHeap s) 0) (wTrees s).

(** ** leafcount *)

(** A worker of leafcount/leafcount.go:56-112: waiting for a file name (58),
    working on one (60-109), or offering its token (110). *)
Inductive lpc := LWait | LWork (f : nat) | LOffer.

Record lstate := mkL {
  lNext : nat;            (* how many names the feeder (48-52) has handed over *)
  lTokens : nat;          (* how often the main goroutine (116-118) has received *)
  lCounted : list nat;    (* the files counted so far, by position in the list *)
  lWorkers : list lpc
}.
Definition linit (threads : nat) : lstate := mkL 0 0 [] (repeat LWait threads).

(** One step of worker [t].  Both channels are unbuffered, so handing over a
    name is one step of the worker together with the feeder, and handing over
    a token is one of the worker together with the main goroutine.  Steps are
    only taken while the main goroutine still waits: after that it writes its
    files and the program ends. *)
Definition lstep (nfiles : nat) (t : nat) (s : lstate) : option lstate :=
  if lTokens s =? nfiles then None
  else match nth_error (lWorkers s) t with
       | Some LWait =>
           if lNext s <? nfiles then Some (mkL (S (lNext s)) (lTokens s) (lCounted s) (upd (lWorkers s) t (LWork (lNext s))))
           else None
       | Some (LWork f) => Some (mkL (lNext s) (lTokens s) (lCounted s ++ [f]) (upd (lWorkers s) t LOffer))
       | Some LOffer => Some (mkL (lNext s) (S (lTokens s)) (lCounted s) (upd (lWorkers s) t LWait))
       | None => None
       end.
Fixpoint lrun (nfiles : nat) (sched : list nat) (s : lstate) : option lstate :=
  match sched with
  | [] => Some s
  | t :: sched' => match lstep nfiles t s with Some s' => lrun nfiles sched' s' | None => None end
  end.
