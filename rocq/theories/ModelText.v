(** Byte strings and the functions of package strings and bufio used by the readers
    and writers.  A text is the list of its bytes. *)
From Verif Require Import Go.
Local Open Scope nat_scope.
Local Open Scope list_scope.

Definition bytes := list ascii.
Definition B (s : string) : bytes := list_ascii_of_string s.
Definition T (b : bytes) : string := string_of_list_ascii b.

Definition nl : ascii := ascii_of_nat 10.
Definition tab : ascii := ascii_of_nat 9.
Definition quote : ascii := ascii_of_nat 34.

(** strings.Split(s, sep) for a separator of one byte *)
Fixpoint split (sep : ascii) (s : bytes) : list bytes :=
  match s with
  | [] => [[]]
  | c :: s' =>
      if Ascii.eqb c sep then [] :: split sep s'
      else match split sep s' with
           | [] => [[c]]
           | w :: ws => (c :: w) :: ws
           end
  end.

(** strings.Join(ws, sep) *)
Fixpoint join (sep : bytes) (ws : list bytes) : bytes :=
  match ws with
  | [] => []
  | [w] => w
  | w :: ws' => w ++ sep ++ join sep ws'
  end.

Fixpoint trim_left (p : ascii -> bool) (s : bytes) : bytes :=
  match s with
  | [] => []
  | c :: s' => if p c then trim_left p s' else s
  end.
Definition trim (p : ascii -> bool) (s : bytes) : bytes := rev (trim_left p (rev (trim_left p s))).

(** The white space of ASCII; unicode.IsSpace has further code points (from U+0085),
    which are not modelled. *)
Definition is_space (c : ascii) : bool :=
  let n := nat_of_ascii c in ((9 <=? n) && (n <=? 13)) || (n =? 32).
(** strings.TrimSpace *)
Definition trim_space : bytes -> bytes := trim is_space.
(** strings.Trim of double quotes *)
Definition trim_quotes : bytes -> bytes := trim (fun c => Ascii.eqb c quote).

(** strings.Count(s, c) for a single byte *)
Definition count_byte (c : ascii) (s : bytes) : nat := length (filter (Ascii.eqb c) s).

(** strings.HasPrefix *)
Fixpoint has_prefix (p s : bytes) : bool :=
  match p, s with
  | [], _ => true
  | a :: p', b :: s' => Ascii.eqb a b && has_prefix p' s'
  | _, [] => false
  end.

(** bufio.Reader.ReadString up to a newline: the line with its newline and the rest;
    [None] when the input ends before a newline. *)
Fixpoint read_line (s : bytes) : option (bytes * bytes) :=
  match s with
  | [] => None
  | c :: s' =>
      if Ascii.eqb c nl then Some ([c], s')
      else match read_line s' with
           | Some (l, r) => Some (c :: l, r)
           | None => None
           end
  end.

(** A map[string]string: assignments, the latest first. *)
Definition strmap := list (bytes * bytes).
Definition bytes_eqb (a b : bytes) : bool := if list_eq_dec ascii_dec a b then true else false.
Fixpoint lookup (k : bytes) (m : strmap) : option bytes :=
  match m with
  | [] => None
  | (k', v) :: m' => if bytes_eqb k k' then Some v else lookup k m'
  end.
(** [m[k]] without a second result *)
Definition lookup0 (k : bytes) (m : strmap) : bytes :=
  match lookup k m with Some v => v | None => [] end.
