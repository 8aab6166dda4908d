(** Specification: the integer fragment of LLVM IR – values, constant
    expressions, instructions, straight-line code – and its meaning.
    Nothing here refers to SMACK. *)
From Coq Require Import ZArith List String Bool.
From Verif.Spec Require Import LLVMInt.
Import ListNotations.
Open Scope Z_scope.

(** Operands: virtual registers, constants (as bit patterns) and constant
    expressions. *)
Inductive value :=
| VReg (n : Z) (x : string)
| VConst (n : Z) (c : Z)
| CBin (op : binop) (n : Z) (a b : value)
| CIcmp (p : icmp_pred) (n : Z) (a b : value)
| CCast (c : castop) (n1 n2 : Z) (a : value)
| CSelect (n : Z) (c a b : value).

(** Instructions; [nsw] is the "no signed wrap" flag. *)
Inductive inst :=
| IBin (op : binop) (nsw : bool) (n : Z) (a b : value)
| IIcmp (p : icmp_pred) (n : Z) (a b : value)
| ICast (c : castop) (n1 n2 : Z) (a : value)
| ISelect (n : Z) (c a b : value).

Definition regs := string -> option Z.
Definition set_reg (r : regs) (x : string) (v : Z) : regs :=
  fun y => if String.eqb x y then Some v else r y.

(** The mathematical result fits the signed range (condition of [nsw]). *)
Definition in_srange (n x : Z) : bool := (- 2 ^ (n - 1) <=? x) && (x <? 2 ^ (n - 1)).
Definition nsw_ok (op : binop) (n a b : Z) : bool :=
  match op with
  | Add => in_srange n (signed n a + signed n b)
  | Sub => in_srange n (signed n a - signed n b)
  | Mul => in_srange n (signed n a * signed n b)
  | _ => true
  end.

Definition opt2 {A B C} (f : A -> B -> option C) (x : option A) (y : option B) : option C :=
  match x, y with Some a, Some b => f a b | _, _ => None end.

Definition b2z (b : bool) : Z := if b then 1 else 0.

(** [None]: undefined behaviour, poison or an undefined register. *)
Fixpoint value_den (r : regs) (v : value) : option Z :=
  match v with
  | VReg n x => r x
  | VConst n c => Some c
  | CBin op n a b => opt2 (llvm_binop op n) (value_den r a) (value_den r b)
  | CIcmp p n a b => opt2 (fun x y => Some (b2z (llvm_icmp p n x y))) (value_den r a) (value_den r b)
  | CCast c n1 n2 a => match value_den r a with Some x => Some (llvm_cast c n1 n2 x) | None => None end
  | CSelect n c a b =>
      match value_den r c, value_den r a, value_den r b with
      | Some z, Some x, Some y => Some (if z =? 1 then x else y)
      | _, _, _ => None
      end
  end.

Definition inst_den (r : regs) (i : inst) : option Z :=
  match i with
  | IBin op nsw n a b =>
      opt2 (fun x y => if nsw && negb (nsw_ok op n x y) then None else llvm_binop op n x y)
           (value_den r a) (value_den r b)
  | IIcmp p n a b => value_den r (CIcmp p n a b)
  | ICast c n1 n2 a => value_den r (CCast c n1 n2 a)
  | ISelect n c a b => value_den r (CSelect n c a b)
  end.

(** Straight-line code: assignments executed in order. *)
Definition code := list (string * inst).
Fixpoint run_code (r : regs) (c : code) : option regs :=
  match c with
  | [] => Some r
  | (x, i) :: c' => match inst_den r i with Some v => run_code (set_reg r x v) c' | None => None end
  end.

(** Types: every operand has the width its user expects. *)
Definition vwidth (v : value) : Z :=
  match v with
  | VReg n _ | VConst n _ | CBin _ n _ _ | CSelect n _ _ _ => n
  | CIcmp _ _ _ _ => 1
  | CCast _ _ n2 _ => n2
  end.
Definition cast_ok (c : castop) (n1 n2 : Z) : Prop :=
  match c with Trunc => n2 < n1 | ZExt | SExt => n1 < n2 end.

Section Typing.
  (** register widths and the set of available integer widths *)
  Context (G : string -> option Z) (W : Z -> Prop).
  Fixpoint wt_value (v : value) : Prop :=
    match v with
    | VReg n x => G x = Some n /\ W n
    | VConst n c => is_iN n c /\ W n
    | CBin op n a b => wt_value a /\ wt_value b /\ vwidth a = n /\ vwidth b = n /\ W n
    | CIcmp p n a b => wt_value a /\ wt_value b /\ vwidth a = n /\ vwidth b = n /\ W n
    | CCast c n1 n2 a => wt_value a /\ vwidth a = n1 /\ W n1 /\ W n2 /\ cast_ok c n1 n2
    | CSelect n c a b =>
        wt_value c /\ wt_value a /\ wt_value b /\ vwidth c = 1 /\ vwidth a = n /\ vwidth b = n /\ W n
    end.
  Definition iwidth (i : inst) : Z :=
    match i with
    | IBin _ _ n _ _ | ISelect n _ _ _ => n
    | IIcmp _ _ _ _ => 1
    | ICast _ _ n2 _ => n2
    end.
  Definition wt_inst (i : inst) : Prop :=
    match i with
    | IBin op _ n a b => wt_value (CBin op n a b)
    | IIcmp p n a b => wt_value (CIcmp p n a b)
    | ICast c n1 n2 a => wt_value (CCast c n1 n2 a)
    | ISelect n c a b => wt_value (CSelect n c a b)
    end.
  Definition wt_code (c : code) : Prop :=
    forall x i, In (x, i) c -> G x = Some (iwidth i) /\ wt_inst i.
End Typing.

(** ** What a run does: the operations applied, with their operand values. *)
Inductive event :=
| EvBin (op : binop) (n x y : Z)
| EvCmp (p : icmp_pred) (n x y : Z)
| EvCast (c : castop) (n1 n2 x : Z).

Definition ev2 (r : regs) (mk : Z -> Z -> event) (a b : value) : list event :=
  match value_den r a, value_den r b with Some x, Some y => [mk x y] | _, _ => [] end.
Fixpoint value_events (r : regs) (v : value) : list event :=
  match v with
  | VReg _ _ | VConst _ _ => []
  | CBin op n a b => value_events r a ++ value_events r b ++ ev2 r (EvBin op n) a b
  | CIcmp p n a b => value_events r a ++ value_events r b ++ ev2 r (EvCmp p n) a b
  | CCast c n1 n2 a =>
      value_events r a ++ match value_den r a with Some x => [EvCast c n1 n2 x] | None => [] end
  | CSelect n c a b => value_events r c ++ value_events r a ++ value_events r b
  end.
Definition inst_events (r : regs) (i : inst) : list event :=
  match i with
  | IBin op _ n a b => value_events r (CBin op n a b)
  | IIcmp p n a b => value_events r (CIcmp p n a b)
  | ICast c n1 n2 a => value_events r (CCast c n1 n2 a)
  | ISelect n c a b => value_events r (CSelect n c a b)
  end.
Fixpoint code_events (r : regs) (c : code) : list event :=
  match c with
  | [] => []
  | (x, i) :: c' =>
      inst_events r i ++
      match inst_den r i with Some v => code_events (set_reg r x v) c' | None => [] end
  end.

(** ** The constants a program mentions, with the place they stand in. *)
Inductive place :=
| InBin (op : binop) (nsw : bool)   (* operand of a binary instruction *)
| InConstBin (op : binop)           (* operand of a constant expression *)
| InCmp (p : icmp_pred)
| InCast
| InSelectCond | InSelectArm.
Fixpoint value_consts (pl : place) (v : value) : list (place * Z * Z) :=
  match v with
  | VReg _ _ => []
  | VConst n c => [(pl, n, c)]
  | CBin op n a b => value_consts (InConstBin op) a ++ value_consts (InConstBin op) b
  | CIcmp p n a b => value_consts (InCmp p) a ++ value_consts (InCmp p) b
  | CCast c n1 n2 a => value_consts InCast a
  | CSelect n c a b =>
      value_consts InSelectCond c ++ value_consts InSelectArm a ++ value_consts InSelectArm b
  end.
Definition inst_consts (i : inst) : list (place * Z * Z) :=
  match i with
  | IBin op nsw n a b => value_consts (InBin op nsw) a ++ value_consts (InBin op nsw) b
  | IIcmp p n a b => value_consts (InCmp p) a ++ value_consts (InCmp p) b
  | ICast c n1 n2 a => value_consts InCast a
  | ISelect n c a b =>
      value_consts InSelectCond c ++ value_consts InSelectArm a ++ value_consts InSelectArm b
  end.
Definition code_consts (c : code) : list (place * Z * Z) := flat_map (fun xi => inst_consts (snd xi)) c.
