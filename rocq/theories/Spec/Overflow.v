(** Specification: LLVM's checked arithmetic, and programs that use it.
    Nothing here refers to SMACK. *)
From Coq Require Import ZArith List String Bool.
From Verif.Spec Require Import LLVMInt IR.
Import ListNotations.
Open Scope Z_scope.

Inductive ovf_op := OAdd | OSub | OMul.

(** The mathematical result. *)
Definition math_result (sg : bool) (op : ovf_op) (n a b : Z) : Z :=
  let x := if sg then signed n a else a in
  let y := if sg then signed n b else b in
  match op with OAdd => x + y | OSub => x - y | OMul => x * y end.
Definition representable (sg : bool) (n m : Z) : bool :=
  if sg then (- 2 ^ (n - 1) <=? m) && (m <? 2 ^ (n - 1)) else (0 <=? m) && (m <? 2 ^ n).
Definition overflows (sg : bool) (op : ovf_op) (n a b : Z) : bool :=
  negb (representable sg n (math_result sg op n a b)).
(** llvm.{s,u}{add,sub,mul}.with.overflow.iN: value part and flag part *)
Definition ovf_value (sg : bool) (op : ovf_op) (n a b : Z) : Z := pat n (math_result sg op n a b).
Definition ovf_flag (sg : bool) (op : ovf_op) (n a b : Z) : Z := b2z (overflows sg op n a b).

(** Instruction sequences with checked arithmetic; [OUbsan] is a call to one of
    the sanitizer's shift / signed-division overflow handlers. *)
Inductive oinst :=
| OPlain (x : string) (i : inst)
| OWith (d : string) (sg : bool) (op : ovf_op) (n : Z) (a b : value)
| OExtract (x d : string) (flagPart : bool)
| OUbsan (u : string).
Definition ocode := list oinst.

Definition pairs := string -> option (Z * Z).
Definition set_pair (p : pairs) (d : string) (v : Z * Z) : pairs :=
  fun y => if String.eqb d y then Some v else p y.

(** How a run of a sequence ends. *)
Inductive ending :=
| Completed (r : regs)
| OverflowReported
| Abandoned        (* execution is not continued, nothing is reported *)
| Undefined.

(** Reference behaviour.  [report]: overflows are to be reported here;
    [stop]: the sanitizer's handlers end the execution. *)
Fixpoint reference (report stop : bool) (r : regs) (p : pairs) (c : ocode) : ending :=
  match c with
  | [] => Completed r
  | OPlain x i :: c' =>
      match inst_den r i with Some v => reference report stop (set_reg r x v) p c' | None => Undefined end
  | OWith d sg op n a b :: c' =>
      match value_den r a, value_den r b with
      | Some x, Some y =>
          if report && overflows sg op n x y then OverflowReported
          else reference report stop r (set_pair p d (ovf_value sg op n x y, ovf_flag sg op n x y)) c'
      | _, _ => Undefined
      end
  | OExtract x d fl :: c' =>
      match p d with
      | Some (v, f) => reference report stop (set_reg r x (if fl then f else v)) p c'
      | None => Undefined
      end
  | OUbsan u :: c' =>
      if stop then (if report then OverflowReported else Abandoned) else reference report stop r p c'
  end.

(** ** SSA form and typing of a sequence.
    [R]: registers defined so far, [D]: call results defined so far. *)
Fixpoint value_regs (v : value) : list string :=
  match v with
  | VReg _ x => [x]
  | VConst _ _ => []
  | CBin _ _ a b | CIcmp _ _ a b => value_regs a ++ value_regs b
  | CCast _ _ _ a => value_regs a
  | CSelect _ c a b => value_regs c ++ value_regs a ++ value_regs b
  end.
Definition inst_regs (i : inst) : list string :=
  match i with
  | IBin _ _ _ a b | IIcmp _ _ a b => value_regs a ++ value_regs b
  | ICast _ _ _ a => value_regs a
  | ISelect _ c a b => value_regs c ++ value_regs a ++ value_regs b
  end.
Definition positive (n : Z) : Prop := 1 <= n.
Fixpoint ssa (G : string -> option Z) (R : list string) (D : list (string * Z)) (c : ocode) : Prop :=
  match c with
  | [] => True
  | OPlain x i :: c' =>
      incl (inst_regs i) R /\ ~ In x R /\ wt_inst G positive i /\ G x = Some (iwidth i) /\
      ssa G (x :: R) D c'
  | OWith d sg op n a b :: c' =>
      incl (value_regs a ++ value_regs b) R /\ ~ In d (map fst D) /\
      wt_value G positive a /\ vwidth a = n /\ wt_value G positive b /\ vwidth b = n /\ 1 <= n /\
      ssa G R ((d, n) :: D) c'
  | OExtract x d fl :: c' =>
      ~ In x R /\ (exists n, In (d, n) D /\ G x = Some (if fl then 1 else n)) /\ ssa G (x :: R) D c'
  | OUbsan u :: c' => ~ In u (map fst D) /\ ssa G R ((u, 0) :: D) c'
  end.

(** The registers of a sequence. *)
Fixpoint defs (c : ocode) : list string :=
  match c with
  | [] => []
  | OPlain x _ :: c' => x :: defs c'
  | OExtract x _ _ :: c' => x :: defs c'
  | _ :: c' => defs c'
  end.
