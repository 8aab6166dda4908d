(** Specification: which operations SMACK translates approximately, which
    options of smack.py change that, and what a warning has to say. *)
From Coq Require Import ZArith List String Bool.
From Verif.Spec Require Import LLVMInt IR Encodings Template BitCount.
From Verif.Model Require Import BoogieAst.
Import ListNotations.
Open Scope string_scope.
Open Scope list_scope.
Open Scope Z_scope.

(** The settings of a run of smack.py that matter here. *)
Inductive verbosity := Quiet | Approximations | Information.   (* --warn *)
Record settings := Settings {
  integers : encoding;      (* --integer-encoding *)
  floats : bool;            (* --float *)
  rewrites : bool;          (* --rewrite-bitwise-ops *)
  verbose : verbosity }.

(** Adding an option to the command line. *)
Definition given_too (option : string) (u : settings) : settings :=
  if String.eqb option "--integer-encoding=bit-vector" then Settings BitVector (floats u) (rewrites u) (verbose u)
  else if String.eqb option "--float" then Settings (integers u) true (rewrites u) (verbose u)
  else if String.eqb option "--rewrite-bitwise-ops" then Settings (integers u) (floats u) true (verbose u)
  else u.
Definition given (option : string) (u : settings) : Prop := given_too option u = u.
Fixpoint all_given_too (options : list string) (u : settings) : settings :=
  match options with [] => u | o :: l => all_given_too l (given_too o u) end.

(** Operations of a program. *)
Inductive float_op := FAdd | FSub | FMul | FDiv | FRem.
Inductive intrinsic :=
  Assume | BitReverse | BSwap | FromFP16 | ToFP16 | CtLZ | CtPop | CtTZ | DbgDeclare | DbgLabel | Expect
| FAbs | FMA | Sqrt | MaxNum | MinNum | Ceil | Floor | NearbyInt | RInt | Round | TruncF | OtherIntrinsic.
Inductive operation :=
| IntegerOp (op : binop) (n : Z)
| FloatOp (op : float_op)
| FloatNeg
| Intrinsic (i : intrinsic) (name : string)
| InlineAsm (text : string)
| CallBr (text : string)
| LandingPad.

Definition bitwise_operation (op : binop) : Prop := In op [Shl; LShr; AShr; And; Or; Xor].

(** What it takes for the operation to be modelled. *)
Inductive requirement := Nothing | AllOf (options : list string) | OneOf (options : list string) | Impossible.
Definition needs_intrinsic (i : intrinsic) : requirement :=
  match i with
  | Assume | DbgDeclare | DbgLabel | Expect => Nothing
  | BitReverse | BSwap | CtLZ | CtTZ => AllOf ["--integer-encoding=bit-vector"]
  | CtPop => OneOf ["--integer-encoding=bit-vector"; "--rewrite-bitwise-ops"]
  | FromFP16 | ToFP16 => AllOf ["--float"; "--integer-encoding=bit-vector"]
  | FAbs | FMA | Sqrt | MaxNum | MinNum | Ceil | Floor | NearbyInt | RInt | Round | TruncF => AllOf ["--float"]
  | OtherIntrinsic => Impossible
  end.
Definition needs (o : operation) : requirement :=
  match o with
  | IntegerOp (Shl | LShr | AShr | And | Or | Xor) n =>
      if n =? 1 then Nothing else AllOf ["--integer-encoding=bit-vector"]
  | IntegerOp _ _ => Nothing
  | FloatOp FRem => Nothing
  | FloatOp _ | FloatNeg => AllOf ["--float"]
  | Intrinsic i _ => needs_intrinsic i
  | InlineAsm _ | CallBr _ | LandingPad => Impossible
  end.
Definition modelled (u : settings) (o : operation) : Prop :=
  match needs o with
  | Nothing => True
  | AllOf l => Forall (fun x => given x u) l
  | OneOf l => Exists (fun x => given x u) l
  | Impossible => False
  end.

(** The line a warning consists of: where, what, and advice naming options. *)
Definition listed (options : list string) : string := String.concat "" (map (fun x => x +++ " ") options).
Definition advice (all : bool) (options : list string) : string :=
  " try adding " +++ (if all then "all the " else "any ") +++ "flag(s) in: { " +++ listed options +++ "}".

(** Where: [dec] is decimal notation (Model/BoogieAst.v). *)
Definition position (loc : option (string * Z * Z)) : string :=
  match loc with
  | Some (file, line, column) => file +++ ":" +++ dec line +++ ":" +++ dec column +++ ": "
  | None => ""
  end.
(** What the warning says about the operation. *)
Definition operator_name (op : binop) : string :=
  match op with
  | Add => "add" | Sub => "sub" | Mul => "mul" | UDiv => "udiv" | SDiv => "sdiv" | URem => "urem" | SRem => "srem"
  | Shl => "shl" | LShr => "lshr" | AShr => "ashr" | And => "and" | Or => "or" | Xor => "xor"
  end.
Definition float_operator_name (op : float_op) : string :=
  match op with FAdd => "fadd" | FSub => "fsub" | FMul => "fmul" | FDiv => "fdiv" | FRem => "frem" end.
Definition only_false_alarms (what : string) : string := "overapproximating " +++ what +++ " (can lead to false alarms)".
Definition wrong_both_ways (what : string) : string :=
  "approximating " +++ what +++ " (can lead to both false alarms and missed detections)".
Definition description (o : operation) : string :=
  match o with
  | IntegerOp op _ => only_false_alarms ("bitwise operation " +++ operator_name op)
  | FloatOp op => only_false_alarms ("floating-point operation " +++ float_operator_name op)
  | FloatNeg => only_false_alarms "floating-point operation fneg"
  | Intrinsic OtherIntrinsic name => wrong_both_ways name
  | Intrinsic _ name => only_false_alarms ("call to " +++ name)
  | InlineAsm text => wrong_both_ways ("inline asm call " +++ text)
  | CallBr text => wrong_both_ways ("callbr instruction " +++ text)
  | LandingPad => wrong_both_ways "landingpad clauses"
  end.
(** Every option missing is named, and only those. *)
Definition right_hint (u : settings) (o : operation) (hint : string) : Prop :=
  let missing l os := forall x, In x os <-> In x l /\ ~ given x u in
  match needs o with
  | AllOf l => exists os, missing l os /\ hint = advice true os
  | OneOf l => exists os, missing l os /\ hint = advice false os
  | Nothing | Impossible => hint = ""
  end.
Definition options_of (r : requirement) : list string :=
  match r with AllOf l | OneOf l => l | _ => [] end.

(** The bit-manipulation intrinsics ([x]: operand of width [w], [r]: result). *)
Definition bit_result (i : intrinsic) (w x r : Z) : Prop :=
  match i with
  | BitReverse => is_bitreverse w x r
  | BSwap => is_bswap w x r
  | CtLZ => is_ctlz w x r
  | CtTZ => is_cttz w x r
  | CtPop => r = popcount w x
  | _ => False
  end.
