(** Specification: whole programs (Spec/Program.v) with checked arithmetic
    (Spec/Overflow.v), and where their executions overflow.  Nothing here refers
    to how SMACK checks. *)
From Coq Require Import ZArith List String Bool.
From Verif.Spec Require Import LLVMInt IR CFG BitVectorIR ByteMemory Program.
From Verif.Spec Require Overflow.
From Verif.Model Require Import Boogie PreludeInt.
Import ListNotations.
Open Scope list_scope.
Open Scope Z_scope.

(** The result of llvm.{s,u}{add,sub,mul}.with.overflow.iN, a structure {iN, i1},
    as n + 1 bits: the flag is the highest one. *)
Definition pair_of (n value flag : Z) : val := VBv (n + 1) (flag * 2 ^ n + value).

(** Operands and side-effect free instructions: those of Spec/BitVectorIR.v, and
    extractvalue of a part of the result [d] of a checked operation. *)
Inductive oexp := Plain (o : operand) | Part (d : string) (n : Z) (flagPart : bool).
Definition oexp_regs (e : oexp) : list string :=
  match e with
  | Plain (Op v) => value_regs v
  | Plain (Instr i) => inst_regs i
  | Part d _ _ => [d]
  end.
Definition part (r : string -> option val) (d : string) (n : Z) (flagPart : bool) : option val :=
  match r d with
  | Some (VBv m a) =>
      if (m =? n + 1) && (0 <=? a) && (a <? 2 ^ (n + 1))
      then Some (if flagPart then VBv 1 (a / 2 ^ n) else VBv n (a mod 2 ^ n)) else None
  | _ => None
  end.
Definition operand_den (W : string -> option Z) (r : string -> option val) (o : operand) : option val :=
  match o with
  | Op v => match value_den (bits W r) v with Some a => Some (VBv (vwidth v) a) | None => None end
  | Instr i => match inst_den (bits W r) i with Some a => Some (VBv (iwidth i) a) | None => None end
  end.
Definition oexp_den (W : string -> option Z) (r : string -> option val) (e : oexp) : option val :=
  match e with Plain o => operand_den W r o | Part d n fl => part r d n fl end.

(** Instructions with side effects: those of Spec/Program.v; a checked operation
    on iN; a call of the sanitizer's handler for shifts or divisions that
    overflow. *)
Inductive oop := OBase (o : op) | With (sg : bool) (op : Overflow.ovf_op) (n : Z) | Handler.

(** [Overflow]: an operation overflows where this is to be reported. *)
Inductive oevent := Overflow | OFailed | OUndefined.
Definition olift (e : event) : oevent := match e with Failed => OFailed | Undefined => OUndefined end.

Definition oeffect := list val -> mem -> list oevent -> val -> mem -> Prop.
Definition no_callee : string -> effect := fun _ _ _ _ _ _ => False.

(** What the instructions do.  [report]: overflows are to be reported in this
    function; in others, checked operations just compute, and an execution that
    gets to a handler is not followed any further. *)
Inductive exec_oop (report : bool) (call : string -> oeffect) : oop -> oeffect :=
| O_base : forall o vs m t v m', exec_op no_callee o vs m t v m' -> exec_oop report call (OBase o) vs m (map olift t) v m'
| O_call : forall f vs m t v m', call f vs m t v m' -> exec_oop report call (OBase (Call f)) vs m t v m'
| O_with : forall sg op n a b m, is_iN n a -> is_iN n b -> report && Overflow.overflows sg op n a b = false ->
    exec_oop report call (With sg op n) [VBv n a; VBv n b] m []
      (pair_of n (Overflow.ovf_value sg op n a b) (Overflow.ovf_flag sg op n a b)) m
| O_overflow : forall sg op n a b m u, is_iN n a -> is_iN n b -> report && Overflow.overflows sg op n a b = true ->
    exec_oop report call (With sg op n) [VBv n a; VBv n b] m [Overflow] u m
| O_handler : forall m u, report = true -> exec_oop report call Handler [] m [Overflow] u m.

Definition no_oinvoke : oop -> list val -> mem -> list oevent -> val -> bool -> mem -> Prop :=
  fun _ _ _ _ _ _ _ => False.

(** [pairs]: for the registers that hold results of checked operations, the width
    of the operation. *)
Record ofn := OFn {
  owidths : string -> option Z;
  opairs : string -> option Z;
  ocode : func val oexp oop;
  oloops : list loop }.
Definition oprogram := list (string * ofn).
Fixpoint find_ofn (p : oprogram) (f : string) : option ofn :=
  match p with [] => None | (g, F) :: p' => if String.eqb f g then Some F else find_ofn p' f end.

Section Executions.
  (** [reported]: the functions in which overflows are to be reported *)
  Context (reported : string -> bool) (p : oprogram).
  Definition oruns (call : string -> oeffect) (f : string) (F : ofn) :=
    behaves (oexp_den (owidths F)) (exec_oop (reported f) call) no_oinvoke bv_true bv_eq (ocode F).
  Definition oruns_undefined (call : string -> oeffect) (f : string) (F : ofn) :=
    undefined_after (oexp_den (owidths F)) (exec_oop (reported f) call) no_oinvoke bv_true bv_eq (ocode F).

  (** Executions of a call with fewer than [n] active calls: it returns; it stops
      after something went wrong; behaviour is undefined. *)
  Fixpoint ocalls (n : nat) (f : string) (args : list val) (m : mem) (t : list oevent) (v : val) (m' : mem) : Prop :=
    match n with
    | O => False
    | S n => exists F, find_ofn p f = Some F /\ List.length args = List.length (params (ocode F)) /\
        ((exists r, oruns (ocalls n) f F args m t (Some (Returned r, m')) /\ returns r v) \/
         (oruns (ocalls n) f F args m t None /\ t <> []) \/
         (exists t0, t = t0 ++ [OUndefined] /\ oruns_undefined (ocalls n) f F args m t0))
    end.

  (** Called with these arguments and this memory, [f] can get to this event, and
      nothing went wrong before. *)
  Definition can_get_to (e : oevent) (f : string) (args : list val) (m : mem) : Prop :=
    exists n v m', ocalls n f args m [e] v m'.
  Definition ocan_return (f : string) (args : list val) (m : mem) (v : val) (m' : mem) : Prop :=
    exists n, ocalls n f args m [] v m'.
End Executions.

(** ** Types: what LLVM establishes. *)
Section Typing.
  (** [named]: names that registers can have *)
  Context (named : string -> Prop) (W P : string -> option Z).
  Definition oexp_ok (e : oexp) : Prop :=
    match e with Plain o => wt_operand W width_ok o | Part d n _ => P d = Some n end.
  (** a register for a value that is no pair *)
  Definition plain_reg (x : string) : Prop := named x /\ P x = None.
  (** the checked operations: the integer types used for them are there in twice
      the width *)
  Definition stmt_ok (s : stmt oexp oop) : Prop :=
    match s with
    | SAssign x e => plain_reg x /\ oexp_ok e
    | SPrim x (OBase o) es => (forall y, x = Some y -> plain_reg y) /\ Forall oexp_ok es
    | SPrim x (With sg op n) es => exists d a b, x = Some d /\ named d /\ P d = Some n /\ width_ok n /\ width_ok (n * 2) /\
        es = [Plain (Op a); Plain (Op b)] /\ wt_value W width_ok a /\ vwidth a = n /\ wt_value W width_ok b /\ vwidth b = n
    | SPrim x Handler es => exists u, x = Some u /\ named u /\ P u = None /\ W u = None /\ es = []
    end.
  Definition term_ok (t : term val oexp oop) : Prop :=
    match t with
    | TRet None | TBr _ | TUnreachable => True
    | TRet (Some e) | TCond e _ _ | TSwitch e _ _ | TResume e => oexp_ok e
    | TInvoke x o es _ _ => (forall y, x = Some y -> plain_reg y) /\ Forall oexp_ok es
    end.
  Definition phi_ok (ph : string * list (label * oexp)) : Prop :=
    plain_reg (fst ph) /\ forall l e, In (l, e) (snd ph) -> oexp_ok e.
  Definition block_ok (b : block val oexp oop) : Prop :=
    Forall phi_ok (phis b) /\ Forall stmt_ok (body b) /\ term_ok (bterm b).
  Record fn_ok (f : func val oexp oop) : Prop := {
    fn_regs : forall x n, W x = Some n -> plain_reg x;
    fn_widths : forall d n, P d = Some n -> named d /\ width_ok n;
    fn_params : forall x, In x (params f) -> plain_reg x;
    fn_blocks : forall l b, In (l, b) (blocks f) -> block_ok b }.
End Typing.

Record owell_formed (named : string -> Prop) (p : oprogram) : Prop := {
  ow_ssa : forall f F, In (f, F) p -> ssa_form oexp_regs (ocode F);
  ow_lowered : forall f F, In (f, F) p -> lowered (ocode F);
  ow_original : forall f F, In (f, F) p -> original (ocode F);
  ow_loops : forall f F, In (f, F) p -> loop_forest (ocode F) (oloops F);
  ow_typed : forall f F, In (f, F) p -> fn_ok named (owidths F) (opairs F) (ocode F) }.
