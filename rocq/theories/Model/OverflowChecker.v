(** lib/smack/IntegerOverflowChecker.cpp *)
From Coq Require Import ZArith List String Ascii Bool.
From Verif.Spec Require Import LLVMInt IR Overflow.
Import ListNotations.
Open Scope Z_scope.

(** New instructions are unnamed LLVM values, distinct from all others.  Here
    they are named after the rewritten call, with a first character that no
    source register starts with. *)
Definition fresh (k : nat) (d : string) : string := String (ascii_of_nat k) d.
Definition EO1 := fresh 1. Definition EO2 := fresh 2. Definition AI := fresh 3.
Definition RES := fresh 4. Definition GT := fresh 5. Definition LT := fresh 6.
Definition FLAG := fresh 7. Definition ARG := fresh 8. Definition NOTF := fresh 9.

(** 29-32: INSTRUCTION_TABLE *)
Definition OVF_TABLE (op : ovf_op) : binop :=
  match op with OAdd => Add | OSub => Sub | OMul => Mul end.
(** 34-47: getMax, getMin as mathematical integers *)
Definition getMax (bits : Z) (isSigned : bool) : Z := if isSigned then 2 ^ (bits - 1) - 1 else 2 ^ bits - 1.
Definition getMin (bits : Z) (isSigned : bool) : Z := if isSigned then - 2 ^ (bits - 1) else 0.
(** 53-62: extendBitWidth *)
Definition extendBitWidth (v : value) (bits : Z) (isSigned : bool) : inst :=
  ICast (if isSigned then SExt else ZExt) bits (bits * 2) v.
(** 68-86: createFlag; ConstantInt::get of a decimal string is its bit pattern. *)
Definition createFlag (d : string) (bits : Z) (isSigned : bool) : code :=
  [ (GT d, IIcmp (if isSigned then SGT else UGT) (bits * 2) (VReg (bits * 2) (AI d))
             (VConst (bits * 2) (pat (bits * 2) (getMax bits isSigned))));
    (LT d, IIcmp (if isSigned then SLT else ULT) (bits * 2) (VReg (bits * 2) (AI d))
             (VConst (bits * 2) (pat (bits * 2) (getMin bits isSigned))));
    (FLAG d, IBin Or false 1 (VReg 1 (GT d)) (VReg 1 (LT d))) ].
(** 91-95: createResult *)
Definition createResult (d : string) (bits : Z) : inst := ICast Trunc (bits * 2) bits (VReg (bits * 2) (AI d)).

(** 163-178: the code computing value and flag *)
Definition checked_arith (d : string) (isSigned : bool) (op : ovf_op) (bits : Z) (a b : value) : code :=
  [ (EO1 d, extendBitWidth a bits isSigned);
    (EO2 d, extendBitWidth b bits isSigned);
    (AI d, IBin (OVF_TABLE op) false (bits * 2) (VReg (bits * 2) (EO1 d)) (VReg (bits * 2) (EO2 d)));
    (RES d, createResult d bits) ] ++ createFlag d bits isSigned.

(** Instructions of the result: assignments, calls of __SMACK_check_overflow
    (share/smack/lib/smack.c:1407-1410: assert arg == 0) and __VERIFIER_assume
    (smack.c:43-47: assume arg != 0). *)
Inductive tinst := TAssign (x : string) (i : inst) | TCheck (v : value) | TAssume (v : value).

(** 101-107: addCheck, the parameter is a 32-bit int *)
Definition addCheck (d : string) (flag : value) : list tinst :=
  [ TAssign (ARG d) (ICast ZExt 1 32 flag); TCheck (VReg 32 (ARG d)) ].
(** 113-120: addBlockingAssume; CreateNot is xor with all ones *)
Definition addBlockingAssume (d : string) (flag : value) : list tinst :=
  [ TAssign (NOTF d) (IBin Xor false 1 flag (VConst 1 1));
    TAssign (ARG d) (ICast ZExt 1 32 (VReg 1 (NOTF d))); TAssume (VReg 32 (ARG d)) ].

(** 182-199: replaceAllUsesWith on the extractvalue users of the call.  The
    substitution for all calls of a sequence: extracted register to new one. *)
Definition subst := string -> option string.
Fixpoint uses_map (c : ocode) : subst :=
  match c with
  | [] => fun _ => None
  | OExtract x d fl :: c' =>
      fun y => if String.eqb x y then Some (if fl then FLAG d else RES d) else uses_map c' y
  | _ :: c' => uses_map c'
  end.
Definition rename (s : subst) (x : string) : string := match s x with Some y => y | None => x end.
Fixpoint rename_value (s : subst) (v : value) : value :=
  match v with
  | VReg n x => VReg n (rename s x)
  | VConst n c => VConst n c
  | CBin op n a b => CBin op n (rename_value s a) (rename_value s b)
  | CIcmp p n a b => CIcmp p n (rename_value s a) (rename_value s b)
  | CCast c n1 n2 a => CCast c n1 n2 (rename_value s a)
  | CSelect n c a b => CSelect n (rename_value s c) (rename_value s a) (rename_value s b)
  end.
Definition rename_inst (s : subst) (i : inst) : inst :=
  match i with
  | IBin op nsw n a b => IBin op nsw n (rename_value s a) (rename_value s b)
  | IIcmp p n a b => IIcmp p n (rename_value s a) (rename_value s b)
  | ICast c n1 n2 a => ICast c n1 n2 (rename_value s a)
  | ISelect n c a b => ISelect n (rename_value s c) (rename_value s a) (rename_value s b)
  end.

(** 122-209: runOnModule on one instruction sequence of a function.
    [integerOverflow]: the option; [checked]: shouldCheckFunction of its name. *)
Definition rewrite_one (integerOverflow checked : bool) (s : subst) (i : oinst) : list tinst :=
  match i with
  | OPlain x i => [TAssign x (rename_inst s i)]
  | OWith d sg op n a b =>
      map (fun xi => TAssign (fst xi) (snd xi))
          (checked_arith d sg op n (rename_value s a) (rename_value s b)) ++
      (if integerOverflow && checked then addCheck d (VReg 1 (FLAG d)) else [])
  | OExtract _ _ _ => []
  | OUbsan u =>
      if integerOverflow
      then (if checked then addCheck u (VConst 1 1) else []) ++ addBlockingAssume u (VConst 1 1)
      else []
  end.
Definition overflow_pass (integerOverflow checked : bool) (c : ocode) : list tinst :=
  flat_map (rewrite_one integerOverflow checked (uses_map c)) c.

(** Executing the result. *)
Fixpoint run_tinsts (r : regs) (c : list tinst) : ending :=
  match c with
  | [] => Completed r
  | TAssign x i :: c' => match inst_den r i with Some v => run_tinsts (set_reg r x v) c' | None => Undefined end
  | TCheck v :: c' =>
      match value_den r v with
      | Some z => if z =? 0 then run_tinsts r c' else OverflowReported
      | None => Undefined
      end
  | TAssume v :: c' =>
      match value_den r v with
      | Some z => if z =? 0 then Abandoned else run_tinsts r c'
      | None => Undefined
      end
  end.

(** source registers do not start with a reserved character *)
Definition plain (x : string) : Prop := forall k d, (1 <= k <= 9)%nat -> x <> fresh k d.

(** [b], an ending of the rewritten sequence, is what the reference ending [a]
    calls for; [R]: the registers compared, [s]: their new names.  Nothing is
    promised for undefined source behaviour. *)
Definition same_ending (s : subst) (R : list string) (a b : ending) : Prop :=
  match a, b with
  | Completed r, Completed r' => forall x, In x R -> r' (rename s x) = r x
  | Undefined, _ => True
  | OverflowReported, OverflowReported | Abandoned, Abandoned => True
  | _, _ => False
  end.
