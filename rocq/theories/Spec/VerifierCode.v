(** Specification for C56: which instructions of a program exist only for the
    verifier, and what a run of a function costs. *)
From Coq Require Import ZArith List String Bool.
Import ListNotations.
Open Scope string_scope.
Open Scope list_scope.
Open Scope Z_scope.

(** The instructions of a module, as data flow: what each computes from. *)
Inductive opcode :=
| GetElementPtr | Ret | PHI | Br | Arithmetic | Select | Compare | Store | Load | Cast
| ExtractElement | InsertElement | ShuffleVector
| CallIntrinsic | CallOther
| Other.                       (* switch, invoke, alloca, atomics, fneg, ... *)
Inductive operand := Inst (i : nat) | Elsewhere.    (* constants, arguments, blocks, metadata *)
Record instr := Instr {
  id : nat;
  op : opcode;
  callee : option string;      (* of a call: the name of the function, unless it is a pointer *)
  operands : list operand;
  loc : option (string * Z * Z)  (* the debug location: file, line, column *)
}.
Definition is_call (i : instr) : Prop := op i = CallIntrinsic \/ op i = CallOther.
Definition begins (p s : string) : Prop := exists r, s = (p ++ r)%string.

(** A call of a function of the verifier. *)
Definition verifier_call (i : instr) : Prop :=
  is_call i /\ exists f, callee i = Some f /\ (begins "__VERIFIER_" f \/ begins "__SMACK_" f \/ begins "__CONTRACT_" f).
Definition uses (u i : instr) : Prop := In (Inst (id i)) (operands u).

(** The instructions that exist only for the verifier: its calls, and those
    computations whose result is used, and only by instructions that exist only for
    the verifier. *)
Inductive verifier_only (m : list instr) : instr -> Prop :=
| only_call i : In i m -> verifier_call i -> verifier_only m i
| only_used i : In i m -> ~ is_call i -> (exists u, In u m /\ uses u i) ->
    (forall u, In u m -> uses u i -> verifier_only m u) -> verifier_only m i.

(** The instructions whose cost the target description gives. *)
Definition priced (o : opcode) : bool :=
  match o with
  | ExtractElement | InsertElement | ShuffleVector | CallOther | Other => false
  | _ => true
  end.
(** [c] is the cost of [i]: 0 for the verifier's own code, the target's price for
    the rest, 0 if it has none. *)
Definition cost (m : list instr) (price : instr -> option Z) (i : instr) (c : Z) : Prop :=
  (verifier_only m i /\ c = 0) \/
  (~ verifier_only m i /\ c = if priced (op i) then match price i with Some p => p | None => 0 end else 0).
(** The costs of a sequence of instructions *)
Inductive total (m : list instr) (price : instr -> option Z) : list instr -> Z -> Prop :=
| total_nil : total m price [] 0
| total_cons i l c t : cost m price i c -> total m price l t -> total m price (i :: l) (c + t).

(** Calls that carry debugging information and are no code. *)
Definition debug_functions : list string := ["llvm.dbg.declare"; "llvm.dbg.value"; "llvm.dbg.addr"; "llvm.dbg.label"].
Definition debug_call (i : instr) : Prop := op i = CallIntrinsic /\ exists f, callee i = Some f /\ In f debug_functions.
(** No other function is named like these. *)
Definition plain_names (m : list instr) : Prop :=
  forall i f, In i m -> is_call i -> callee i = Some f -> (exists a b, f = (a ++ "llvm.dbg." ++ b)%string) -> debug_call i.
(** The instructions of a block that are code *)
Inductive code : list instr -> list instr -> Prop :=
| code_nil : code [] []
| code_skip i b c : debug_call i -> code b c -> code (i :: b) c
| code_keep i b c : ~ debug_call i -> code b c -> code (i :: b) (i :: c).
(** The first one that has a source location *)
Definition first_located (b : list instr) (i : instr) : Prop :=
  exists b1 b2, b = b1 ++ i :: b2 /\ loc i <> None /\ ~ debug_call i /\ forall j, In j b1 -> loc j = None \/ debug_call j.
