(** The part of Python's module re that the driver uses (share/smack/top.py,
    errtrace.py, replay.py): matching with backtracking, where alternatives are tried
    from left to right and repetitions are greedy.  Characters are bytes (Python's \d
    and \w also accept other Unicode characters). *)
From Coq Require Import List String Ascii Bool Arith.
From Verif.Spec Require Import Regex.
Import ListNotations.
Open Scope string_scope.
Open Scope list_scope.

(** What the groups matched, latest first, and the text that is left. *)
Definition captures := list (nat * string).

Definition consumed (s rest : string) : string := substring 0 (String.length s - String.length rest) s.

(** All matches of a prefix of [s], in the order in which they are tried. *)
Fixpoint ms (r : re) (s : string) : list (captures * string) :=
  match r with
  | Chr p => match s with String c s' => if p c then [([], s')] else [] | EmptyString => [] end
  | Eps => [([], s)]
  | Cat a b => flat_map (fun '(c, s1) => map (fun '(d, s2) => (d ++ c, s2)) (ms b s1)) (ms a s)
  | Alt a b => ms a s ++ ms b s
  | Star a =>
      (fix star (k : nat) (s : string) : list (captures * string) :=
         match k with
         | O => [([], s)]
         | S k' =>
             flat_map (fun '(c, s1) => if Nat.ltb (String.length s1) (String.length s) then map (fun '(d, s2) => (d ++ c, s2)) (star k' s1) else []) (ms a s)
             ++ [([], s)]
         end) (String.length s) s
  | Grp n a => map (fun '(c, s1) => ((n, consumed s s1) :: c, s1)) (ms a s)
  end.

(** re.match: at the beginning of the text; the first match that is tried. *)
Definition py_match (r : re) (s : string) : option (captures * string) := hd_error (ms r s).

(** re.search: at the first position where there is a match.  The result also has the
    text before it. *)
Fixpoint py_search (r : re) (s : string) : option (string * captures * string) :=
  match ms r s with
  | (c, rest) :: _ => Some (EmptyString, c, rest)
  | [] =>
      match s with
      | EmptyString => None
      | String x s' => match py_search r s' with Some (pre, c, rest) => Some (String x pre, c, rest) | None => None end
      end
  end.
Definition searches (r : re) (s : string) : bool := match py_search r s with Some _ => true | None => false end.

(** m.group(n) *)
Fixpoint group (n : nat) (c : captures) : option string :=
  match c with [] => None | (k, x) :: c' => if Nat.eqb k n then Some x else group n c' end.
