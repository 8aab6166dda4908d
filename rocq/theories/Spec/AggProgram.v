(** Specification: straight-line LLVM code with aggregate values, in static single
    assignment form.  A path through a function is such code once the instances of
    its instructions are numbered apart.  Nothing here refers to SMACK. *)
From Coq Require Import ZArith List Bool.
From Verif.Spec Require Import ByteMemory Aggregates Gep LLVMInt.
Import ListNotations.
Open Scope list_scope.
Open Scope Z_scope.

Fixpoint zero (t : ty) : agg :=
  match t with
  | TScalar _ _ => Sc (Some 0)
  | TArray n t => Ag (repeat (zero t) (Z.to_nat n))
  | TStruct _ ts => Ag (map zero ts)
  end.

(** Constants: undef, zeroinitializer, arrays and structs given by constants, and
    all others (scalars, constant expressions, data arrays). *)
Inductive const := CUndef (t : ty) | CZero (t : ty) | CAgg (l : list const) | COther (v : agg).
Fixpoint cval (c : const) : agg :=
  match c with
  | CUndef t => undef t
  | CZero t => zero t
  | CAgg l => Ag (map cval l)
  | COther v => v
  end.

Inductive operand := OC (c : const) | OV (x : nat).

(** [IOther d k ops]: any other instruction (arithmetic, store, call, branch, phi),
    with result d. *)
Inductive inst :=
| IExtract (d : nat) (a : operand) (idx : list Z)
| IInsert (d : nat) (a v : operand) (idx : list Z)
| ILoad (d : nat) (t : ty) (p : operand)
| IGep (d : nat) (t : ty) (p : operand) (idx : list Z)   (* indices: i32 constants *)
| IOther (d : nat) (k : nat) (ops : list operand).

Definition dest (i : inst) : nat :=
  match i with IExtract d _ _ | IInsert d _ _ _ | ILoad d _ _ | IGep d _ _ _ | IOther d _ _ => d end.
Definition ovar (o : operand) (x : nat) : Prop := o = OV x.
Definition uses (i : inst) (x : nat) : Prop :=
  match i with
  | IExtract _ a _ | ILoad _ _ a | IGep _ _ a _ => ovar a x
  | IInsert _ a v _ => ovar a x \/ ovar v x
  | IOther _ _ ops => In (OV x) ops
  end.

(** Every value is assigned once, and not used before. *)
Fixpoint ssa (p : list inst) : Prop :=
  match p with
  | [] => True
  | i :: p' => (forall j, In j p' -> dest j <> dest i) /\ (forall j, In j (i :: p') -> ~ uses i (dest j)) /\ ssa p'
  end.

(** ** Execution *)
Definition env := nat -> agg.
Definition upd (e : env) (d : nat) (v : agg) : env := fun x => if Nat.eqb x d then v else e x.
Definition eval (e : env) (o : operand) : agg := match o with OC c => cval c | OV x => e x end.

(** What other instructions do is left open: [sem k args m r m']. *)
Definition semantics := nat -> list agg -> (Z -> Z) -> agg -> (Z -> Z) -> Prop.
(** What is seen from outside: other instructions, with their arguments and
    results, and memory. *)
Definition event := (nat * list agg * agg)%type.

(** The types of loads are proper types; indices are in the positive range of i32. *)
Definition proper (i : inst) : Prop :=
  match i with
  | ILoad _ t _ => ty_ok t
  | IExtract _ _ idx => Forall (fun k => 0 <= k < 2 ^ 31) idx
  | _ => True
  end.

(** i32 constants used as indices are taken as signed numbers. *)
Definition i32 (i : Z) : Z := signed 32 (pat 32 i).

Inductive exec (P : Z) (sem : semantics) : inst -> env -> (Z -> Z) -> list event -> env -> (Z -> Z) -> Prop :=
| x_extract : forall d a idx e m v, extractvalue (eval e a) idx = Some v ->
    exec P sem (IExtract d a idx) e m [] (upd e d v) m
| x_insert : forall d a v idx e m w, insertvalue (eval e a) idx (eval e v) = Some w ->
    exec P sem (IInsert d a v idx) e m [] (upd e d w) m
| x_load : forall d t p e m b v, eval e p = Sc (Some b) -> 0 <= b -> b + asize t < 2 ^ P -> object_value m b t v ->
    exec P sem (ILoad d t p) e m [] (upd e d v) m
| x_gep : forall d t p idx e m b c, eval e p = Sc (Some b) -> gep_address P b t (map i32 idx) = Some c ->
    exec P sem (IGep d t p idx) e m [] (upd e d (Sc (Some c))) m
| x_other : forall d k ops e m r m', sem k (map (eval e) ops) m r m' ->
    exec P sem (IOther d k ops) e m [(k, map (eval e) ops, r)] (upd e d r) m'.
Inductive execs (P : Z) (sem : semantics) : list inst -> env -> (Z -> Z) -> list event -> env -> (Z -> Z) -> Prop :=
| xs_nil : forall e m, execs P sem [] e m [] e m
| xs_cons : forall i p e m t e1 m1 t1 e2 m2, exec P sem i e m t e1 m1 -> execs P sem p e1 m1 t1 e2 m2 ->
    execs P sem (i :: p) e m (t ++ t1) e2 m2.
