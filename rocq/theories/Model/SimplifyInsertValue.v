(** lib/utils/SimplifyInsertValue.cpp: a store of the result of insertvalue becomes
    stores of the inserted values. *)
From Coq Require Import ZArith List Bool.
From Verif.Spec Require Import ByteMemory Aggregates Gep AggProgram.
Import ListNotations.
Open Scope list_scope.
Open Scope Z_scope.

(** The value stored: insertvalues into a base, innermost (first executed) first.
    The pass starts at the last one, if its only use is the store (:60-71). *)
Record insertion := Insertion { in_idx : list Z; in_type : ty; in_val : agg }.
Fixpoint built (base : agg) (l : list insertion) : option agg :=
  match l with
  | [] => Some base
  | i :: l' => match insertvalue base (in_idx i) (in_val i) with Some v => built v l' | None => None end
  end.

(** The emitted stores, in program order: the loop goes from the last insertvalue to
    its aggregate operand, and stops when that is not an insertvalue – :74-88.
    Each is a getelementptr with i32 constants and a store. *)
Record iv_store := IvStore { iv_gep : list Z; iv_type : ty; iv_val : agg }.
Definition emitted (l : list insertion) : list iv_store :=
  map (fun i => IvStore (0 :: in_idx i) (in_type i) (in_val i)) (rev l).

(** *** Meaning: a store of a value writes an object. *)
Definition object_written (a : Z) (t : ty) (v : agg) (m m' : Z -> Z) : Prop :=
  object_holds m' a t v /\ forall q, ~ (a <= q < a + asize t) -> m' q = m q.
Inductive run_iv (a : Z) (T : ty) : list iv_store -> (Z -> Z) -> (Z -> Z) -> Prop :=
| iv_nil : forall m, run_iv a T [] m m
| iv_cons : forall e l m m1 m2 o, gep_walk T (map i32 (iv_gep e)) = Some (o, iv_type e) ->
    object_written (a + o) (iv_type e) (iv_val e) m m1 -> run_iv a T l m1 m2 -> run_iv a T (e :: l) m m2.
