(** Specification: programs as far as their memory accesses are concerned, and
    their executions.  Which ranges of bytes are valid, what instructions do to
    the state and which way branches go are parameters.  Nothing here refers to
    SMACK's pass; its two check functions appear as the instructions [Check] and
    [LeakCheck], which do nothing but fail. *)
From Coq Require Import ZArith List String Bool.
Import ListNotations.
Open Scope list_scope.
Open Scope Z_scope.

(** Operands: a register, or a constant. *)
Inductive operand := Reg (x : string) | Const (z : Z).

(** [ty]: the number of bits of a first-class type. *)
Inductive inst :=
| Load (x : string) (bits : Z) (p : operand)
| Store (bits : Z) (v p : operand)
| MemSet (d v len : operand)
| MemTransfer (move : bool) (d s len : operand)
| AtomicRMW (x : string) (bits : Z) (p v : operand)
| CmpXchg (x : string) (bits : Z) (p c n : operand)
| Call (f : string)
| Br (targets : list nat)
| Ret
| Other (id : Z)
| Check (p n : operand)
| LeakCheck.

Record func := Func { fname : string; fblocks : list (list inst) }.
Definition module := list func.

(** The bytes of a value of so many bits. *)
Definition bytes_of (bits : Z) : Z := (bits + 7) / 8.

Section Semantics.
  Variable state : Type.
  Variable reg : state -> string -> Z.
  Definition eval (s : state) (o : operand) : Z := match o with Reg x => reg s x | Const z => z end.
  (** the range (address, length) is in a live object *)
  Variable valid : state -> Z -> Z -> bool.
  (** no heap object is live *)
  Variable freed : state -> bool.
  (** what an instruction may do to the state; which targets a branch may take *)
  Variable effect : state -> inst -> state -> Prop.
  Variable takes : state -> string -> nat -> Prop.

  (** The byte ranges an instruction reads or writes. *)
  Definition touches (s : state) (i : inst) : list (Z * Z) :=
    match i with
    | Load _ w p | Store w _ p | AtomicRMW _ w p _ | CmpXchg _ w p _ _ => [(eval s p, bytes_of w)]
    | MemSet d _ len => [(eval s d, eval s len)]
    | MemTransfer _ d src len => [(eval s d, eval s len); (eval s src, eval s len)]
    | _ => []
    end.
  Definition access_ok (s : state) (i : inst) : bool := forallb (fun r => valid s (fst r) (snd r)) (touches s i).

  (** A function that is being executed, with the instructions to come. *)
  Definition frame := (string * list inst)%type.
  Definition find_func (M : module) (f : string) : option func := find (fun F => String.eqb (fname F) f) M.
  Definition code_at (M : module) (f : string) (b : nat) : option (list inst) :=
    match find_func M f with Some F => nth_error (fblocks F) b | None => None end.

  (** [Check] and [LeakCheck] let the execution continue only if they pass. *)
  Inductive step (M : module) : state * list frame -> state * list frame -> Prop :=
  | step_plain : forall s s' f i r fs,
      match i with Call _ | Br _ | Ret | Check _ _ | LeakCheck => False | _ => True end ->
      effect s i s' -> step M (s, (f, i :: r) :: fs) (s', (f, r) :: fs)
  | step_call : forall s f g r fs c, code_at M g 0 = Some c ->
      step M (s, (f, Call g :: r) :: fs) (s, (g, c) :: (f, r) :: fs)
  | step_external : forall s s' f g r fs, code_at M g 0 = None -> effect s (Call g) s' ->
      step M (s, (f, Call g :: r) :: fs) (s', (f, r) :: fs)
  | step_br : forall s f ls l r fs c, In l ls -> takes s f l -> code_at M f l = Some c ->
      step M (s, (f, Br ls :: r) :: fs) (s, (f, c) :: fs)
  | step_ret : forall s f r fs, step M (s, (f, Ret :: r) :: fs) (s, fs)
  | step_check : forall s f p n r fs, valid s (eval s p) (eval s n) = true ->
      step M (s, (f, Check p n :: r) :: fs) (s, (f, r) :: fs)
  | step_leak : forall s f r fs, freed s = true -> step M (s, (f, LeakCheck :: r) :: fs) (s, (f, r) :: fs).

  Inductive steps (M : module) : state * list frame -> state * list frame -> Prop :=
  | steps_refl : forall c, steps M c c
  | steps_next : forall a b c, steps M a b -> step M b c -> steps M a c.

  (** Starting the function [main]. *)
  Definition reaches (M : module) (main : string) (s0 : state) (c : state * list frame) : Prop :=
    exists c0, code_at M main 0 = Some c0 /\ steps M (s0, [(main, c0)]) c.

  (** A configuration whose next instruction is a check that fails. *)
  Definition check_fails (c : state * list frame) : Prop :=
    match c with
    | (s, (f, Check p n :: _) :: _) => valid s (eval s p) (eval s n) = false
    | (s, (f, LeakCheck :: _) :: _) => freed s = false
    | _ => False
    end.
End Semantics.
