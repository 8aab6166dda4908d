(** lib/smack/SplitAggregateValue.cpp: loads and stores of aggregates become loads
    and stores of their scalar components. *)
From Coq Require Import ZArith List Bool.
From Verif.Spec Require Import Aggregates.
Import ListNotations.
Open Scope list_scope.
Open Scope Z_scope.

(** IndexT (SplitAggregateValue.h): index constants with their numbers. *)
Definition IndexT := list (Z * Z).
(** InfoT: the indices of a scalar, and its constant if known. *)
Definition InfoT := (IndexT * option agg)%type.

(** getFirsts, getSeconds – :10-23 *)
Definition getFirsts (l : IndexT) : list Z := map fst l.
Definition getSeconds (l : IndexT) : list Z := map snd (tl l).

(** Constant::getAggregateElement(i) on a possibly null pointer – :143, 152 *)
Definition getAggregateElement (baseVal : option agg) (i : Z) : option agg :=
  match baseVal with Some v => element v i | None => None end.

(** :144-147 and :153-156 *)
Definition extend (idxs : IndexT) (i : Z) : IndexT :=
  let lidxs := match idxs with [] => [(0, 0)] | _ => idxs end in lidxs ++ [(i, i)].

(** visitAggregateValue – :132-162.  The loops count with an unsigned int up to a
    64-bit number: arrays with more than 2^32 elements (the loop does not end) are
    not modelled. *)
Fixpoint visitAggregateValue (baseVal : option agg) (T : ty) (idxs : IndexT) : list InfoT :=
  match T with
  | TScalar _ _ => [(idxs, baseVal)]
  | TArray n T' =>
      flat_map (fun i => visitAggregateValue (getAggregateElement baseVal i) T' (extend idxs i))
        (map Z.of_nat (seq 0 (Z.to_nat n)))
  | TStruct _ Ts =>
      (fix go i Ts :=
         match Ts with
         | [] => []
         | T' :: Ts' => visitAggregateValue (getAggregateElement baseVal i) T' (extend idxs i) ++ go (i + 1) Ts'
         end) 0 Ts
  end.

(** The emitted code for a load – :86-97: insertvalue of a load from the element's
    address, for all elements, starting with undef. *)
Record load_part := LoadPart { lp_gep : list Z; lp_insert : list Z }.
Definition splitAggregateLoad (info : list InfoT) : list load_part :=
  map (fun e => LoadPart (getFirsts (fst e)) (getSeconds (fst e))) info.

(** The emitted code for a store – :99-115: a store of the constant, or of an
    extractvalue of the stored value. *)
Inductive store_val := StoreConst (c : agg) | StoreExtract (idxs : list Z).
Record store_part := StorePart { sp_val : store_val; sp_gep : list Z }.
Definition splitAggregateStore (info : list InfoT) : list store_part :=
  map (fun e => StorePart (match snd e with Some c => StoreConst c | None => StoreExtract (getSeconds (fst e)) end)
                          (getFirsts (fst e))) info.

(** runOnFunction – :25-75: aggregate loads, and stores of a value [c] that is a
    constant or ([None]) not. *)
Definition split_load (T : ty) : list load_part := splitAggregateLoad (visitAggregateValue None T []).
Definition split_store (T : ty) (c : option agg) : list store_part := splitAggregateStore (visitAggregateValue c T []).

(** createInsertedValue – :117-123, for constant return values and arguments: the
    constant is stored to a new stack variable and loaded from it. *)
Definition split_constant (T : ty) (c : agg) : list store_part * list load_part :=
  let info := visitAggregateValue (Some c) T [] in (splitAggregateStore info, splitAggregateLoad info).

(** *** Meaning of the emitted code *)

(** A load of a scalar; what an undef byte reads as is left open. *)
Definition run_load_part (m : Z -> Z) (P : Z) (T : ty) (e : load_part) (V V' : agg) : Prop :=
  exists o bits a z, gep_offset T (lp_gep e) = Some (o, TScalar bits a) /\
    ByteMemory.reads_as (fun i => P + o + i) (ByteMemory.bytes_needed bits) m z /\
    insertvalue V (lp_insert e) (Sc (Some z)) = Some V'.
Inductive run_load_parts (m : Z -> Z) (P : Z) (T : ty) : list load_part -> agg -> agg -> Prop :=
| rl_nil : forall V, run_load_parts m P T [] V V
| rl_cons : forall e l V V1 V2, run_load_part m P T e V V1 -> run_load_parts m P T l V1 V2 ->
    run_load_parts m P T (e :: l) V V2.

Definition run_store_part (P : Z) (T : ty) (V : agg) (e : store_part) (m m' : Z -> Z) : Prop :=
  exists o bits a x, gep_offset T (sp_gep e) = Some (o, TScalar bits a) /\
    match sp_val e with StoreConst c => Some c | StoreExtract p => extractvalue V p end = Some (Sc x) /\
    stored (P + o) bits x m m'.
Inductive run_store_parts (P : Z) (T : ty) (V : agg) : list store_part -> (Z -> Z) -> (Z -> Z) -> Prop :=
| rs_nil : forall m, run_store_parts P T V [] m m
| rs_cons : forall e l m m1 m2, run_store_part P T V e m m1 -> run_store_parts P T V l m1 m2 ->
    run_store_parts P T V (e :: l) m m2.
