(** Specification: executions of whole programs (Spec/Program.v) that the default
    encoding – unbounded integers, memory as cells of one type each – can be
    expected to get right.

    An execution leaves what the encoding describes when its behaviour is
    undefined, when an integer operation is not the mathematical one on the
    signed values (overflow, and the other conditions of [unbounded_exact] in
    Spec/Encodings.v), or when an address is accessed with different types. *)
From Coq Require Import ZArith List String Bool.
From Verif.Spec Require Import LLVMInt IR CFG BitVectorIR ByteMemory Encodings Program.
From Verif.Model Require Import Boogie PreludeInt.
Import ListNotations.
Open Scope list_scope.
Open Scope Z_scope.

(** ** Operations *)
(** The conditions of Spec/Encodings.v, as tests. *)
Definition in_rangeb (n z : Z) : bool :=
  if n =? 1 then (0 <=? z) && (z <=? 1) else (- 2 ^ (n - 1) <=? z) && (z <? 2 ^ (n - 1)).
(** [bw]: the bitwise operations that are right. *)
Definition event_exact (bw : binop -> Z -> bool) (e : IR.event) : bool :=
  match e with
  | EvBin Add n x y => in_rangeb n (int_value n x + int_value n y)
  | EvBin Sub n x y => in_rangeb n (int_value n x - int_value n y)
  | EvBin Mul n x y => in_rangeb n (int_value n x * int_value n y)
  | EvBin (UDiv | URem) n x y => (0 <=? int_value n x) && (0 <=? int_value n y)
  | EvBin SDiv n x y => (0 <=? signed n x) || (Z.rem (signed n x) (signed n y) =? 0)
  | EvBin SRem _ _ _ => true
  | EvBin ((Shl | LShr | AShr | And | Or | Xor) as op) n x y => bw op n
  | EvCmp (EQ | NE) _ _ _ => true
  | EvCmp (UGT | UGE | ULT | ULE) n x y => (0 <=? int_value n x) && (0 <=? int_value n y)
  | EvCmp (SGT | SGE | SLT | SLE) n _ _ => negb (n =? 1)
  | EvCast Trunc n1 n2 x => in_rangeb n2 (int_value n1 x)
  | EvCast ZExt n1 n2 x => 0 <=? int_value n1 x
  | EvCast SExt n1 n2 x => negb (n1 =? 1) || (x =? 0)
  end.
Definition const_exact (t : place * Z * Z) : bool :=
  let '(pl, n, c) := t in
  let nonneg := (c <? 2 ^ (n - 1)) || (n =? 1) in
  match pl with
  | InBin (SDiv | SRem) _ => true
  | InBin (UDiv | URem | Sub) _ => nonneg
  | InBin _ nsw => nsw || nonneg || (c =? 2 ^ n - 1)
  | InConstBin (UDiv | URem | Sub) => nonneg
  | InConstBin _ => true
  | InCmp (UGT | UGE | ULT | ULE) => nonneg
  | InCmp _ => true
  | InCast | InSelectCond => true
  | InSelectArm => nonneg
  end.
(** Which bitwise operations: all of them, or those the axioms of the prelude
    determine (and, or, xor on i1). *)
Definition known_bitwise (all : bool) (op : binop) (n : Z) : bool :=
  all || ((n =? 1) && match op with And | Or | Xor => true | _ => false end).

Definition operand_events (r : IR.regs) (o : operand) : list IR.event :=
  match o with Op v => value_events r v | Instr i => inst_events r i end.
Definition operand_consts (o : operand) : list (place * Z * Z) :=
  match o with Op v => value_consts InCast v | Instr i => inst_consts i end.
Definition operand_exact (all : bool) (r : IR.regs) (o : operand) : bool :=
  forallb (event_exact (known_bitwise all)) (operand_events r o) && forallb const_exact (operand_consts o).

(** The meaning of an operand; none if an operation in it is inexact. *)
Definition exact_den (all : bool) (G : string -> option Z) (r : string -> option val) (e : typed G width_ok) : option val :=
  if operand_exact all (bits G r) (proj1_sig e) then typed_den G width_ok r e else None.

(** ** Memory *)
(** The type of what is at an address. *)
Definition layout := Z -> option access.
(** The objects do not overlap. *)
Definition layout_ok (ly : layout) : Prop :=
  (forall a w, ly a = Some w -> 0 <= a < 2 ^ 64) /\
  forall a w a' w' i j, ly a = Some w -> ly a' = Some w' -> 0 <= i < bytes_needed (width w) ->
    0 <= j < bytes_needed (width w') -> bytes_at a i = bytes_at a' j -> a = a'.

(** The arguments have the types of the instruction, and memory is accessed with
    its type. *)
Definition typed_access (ly : layout) (o : op) (vs : list val) : Prop :=
  match o, vs with
  | Load w, [VBv n a] => n = 64 /\ ly a = Some w
  | Store w, [VBv k _; VBv n a] => k = width w /\ n = 64 /\ ly a = Some w
  | (Assume | Assert), [VBv n _] => n = 32
  | Input _, [] => True
  | Call _, _ => True
  | _, _ => False
  end.
Inductive exact_op (ly : layout) (call : string -> effect) : op -> effect :=
| E_exact : forall o vs m t v m', exec_op call o vs m t v m' -> typed_access ly o vs -> exact_op ly call o vs m t v m'
| E_inexact : forall o vs m v m', ~ typed_access ly o vs -> exact_op ly call o vs m [Undefined] v m'.

(** ** Executions, with [Undefined] wherever the encoding is inexact *)
Section Executions.
  Context (all : bool) (ly : layout) (p : program).
  Definition exact_runs (call : string -> effect) (F : fn) :=
    behaves (exact_den all (reg_widths F)) (exact_op ly call) no_invoke bv_true bv_eq (code F).
  Definition exact_undefined (call : string -> effect) (F : fn) :=
    undefined_after (exact_den all (reg_widths F)) (exact_op ly call) no_invoke bv_true bv_eq (code F).
  Fixpoint exact_calls (n : nat) (f : string) (args : list val) (m : mem) (t : list event) (v : val) (m' : mem) : Prop :=
    match n with
    | O => False
    | S n => exists F, find_fn p f = Some F /\ List.length args = List.length (params (code F)) /\
        ((exists r, exact_runs (exact_calls n) F args m t (Some (Returned r, m')) /\ returns r v) \/
         (exact_runs (exact_calls n) F args m t None /\ (In Failed t \/ In Undefined t)) \/
         (exists t0, t = t0 ++ [Undefined] /\ exact_undefined (exact_calls n) F args m t0))
    end.
  (** Some execution leaves what the encoding describes before it fails. *)
  Definition can_be_inexact (f : string) (args : list val) (m : mem) : Prop :=
    exists n t v m', exact_calls n f args m (t ++ [Undefined]) v m' /\ ~ In Failed t /\ ~ In Undefined t.
End Executions.

(** Conditions of branches are of type i1; there is no i0. *)
Definition operand_width (o : operand) : Z := match o with Op v => vwidth v | Instr i => iwidth i end.
Record well_typed (p : program) : Prop := {
  wt_conditions : forall f F l b e l1 l2, In (f, F) p -> block_of (code F) l = Some b -> bterm b = TCond e l1 l2 ->
    operand_width (proj1_sig e) = 1;
  wt_registers : forall f F x n, In (f, F) p -> reg_widths F x = Some n -> 1 <= n }.

(** ** The encoding of values and memory *)
Definition machine_int (v : val) : Prop := exists n a, v = VBv n a /\ 1 <= n /\ is_iN n a.
Definition as_int (v : val) : val := match v with VBv n a => VInt (int_value n a) | _ => v end.
(** [M] holds the signed value of each object, at the signed value of its
    address. *)
Definition same_memory (ly : layout) (m : mem) (M : Z -> Z) : Prop :=
  forall a w v, ly a = Some w -> reads_as (bytes_at a) (bytes_needed (width w)) (proj1_sig m) v ->
    M (int_value 64 a) = int_value (width w) (pat (width w) v).
