(** Specification: aggregate types and values of LLVM, their layout in memory,
    getelementptr, extractvalue and insertvalue.  Nothing here refers to SMACK. *)
From Coq Require Import ZArith List Bool.
From Verif.Spec Require Import ByteMemory.
Import ListNotations.
Open Scope list_scope.
Open Scope Z_scope.

(** A scalar type (integer, pointer, floating point; a vector counts as one): its
    bits and its alignment. *)
Inductive ty := TScalar (bits align : Z) | TArray (n : Z) (t : ty) | TStruct (packed : bool) (ts : list ty).

(** Constants and run-time values; [Sc None] is undef. *)
Inductive agg := Sc (v : option Z) | Ag (l : list agg).

(** ** Layout *)
Definition roundup (x a : Z) : Z := (x + a - 1) / a * a.

Fixpoint align (t : ty) : Z :=
  match t with
  | TScalar _ a => a
  | TArray _ t => align t
  | TStruct true _ => 1
  | TStruct false ts => fold_right (fun t m => Z.max (align t) m) 1 ts
  end.

(** The distance between consecutive objects of the type. *)
Fixpoint asize (t : ty) : Z :=
  match t with
  | TScalar b a => roundup (bytes_needed b) a
  | TArray n t => n * asize t
  | TStruct packed ts =>
      roundup
        ((fix fields o ts :=
            match ts with
            | [] => o
            | t :: ts' => fields (roundup o (if packed then 1 else align t) + asize t) ts'
            end) 0 ts)
        (align t)
  end.

(** The offsets of the fields of a struct. *)
Fixpoint field_offsets (packed : bool) (o : Z) (ts : list ty) : list Z :=
  match ts with
  | [] => []
  | t :: ts' =>
      let o' := roundup o (if packed then 1 else align t) in
      o' :: field_offsets packed (o' + asize t) ts'
  end.

(** Component [i] of an aggregate: its offset and type. *)
Definition child (t : ty) (i : Z) : option (Z * ty) :=
  match t with
  | TScalar _ _ => None
  | TArray n t => if (0 <=? i) && (i <? n) then Some (i * asize t, t) else None
  | TStruct packed ts =>
      if 0 <=? i then nth_error (combine (field_offsets packed 0 ts) ts) (Z.to_nat i) else None
  end.

(** The component reached by a path. *)
Fixpoint component (t : ty) (p : list Z) : option (Z * ty) :=
  match p with
  | [] => Some (0, t)
  | i :: p' =>
      match child t i with
      | Some (o, t') => match component t' p' with Some (o', s) => Some (o + o', s) | None => None end
      | None => None
      end
  end.

(** getelementptr t, P, idxs: the first index steps over whole objects. *)
Definition gep_offset (t : ty) (idxs : list Z) : option (Z * ty) :=
  match idxs with
  | [] => Some (0, t)
  | k :: p => match component t p with Some (o, s) => Some (k * asize t + o, s) | None => None end
  end.

(** A scalar component: path, offset and number of bits. *)
Definition scalar_at (t : ty) (p : list Z) (o bits : Z) : Prop := exists a, component t p = Some (o, TScalar bits a).

Fixpoint ty_ok (t : ty) : Prop :=
  match t with
  | TScalar b a => 1 <= b /\ 1 <= a
  | TArray n t => 0 <= n /\ ty_ok t
  | TStruct _ ts => fold_right (fun t P => ty_ok t /\ P) True ts
  end.

(** ** Values *)

(** The value has the shape of the type. *)
Fixpoint shaped (t : ty) (v : agg) : Prop :=
  match t, v with
  | TScalar _ _, Sc _ => True
  | TArray n t, Ag l => Z.of_nat (length l) = n /\ Forall (shaped t) l
  | TStruct _ ts, Ag l => Forall2 (fun f v => f v) (map shaped ts) l
  | _, _ => False
  end.

Fixpoint undef (t : ty) : agg :=
  match t with
  | TScalar _ _ => Sc None
  | TArray n t => Ag (repeat (undef t) (Z.to_nat n))
  | TStruct _ ts => Ag (map undef ts)
  end.

Definition element (v : agg) (i : Z) : option agg :=
  match v with Ag l => if 0 <=? i then nth_error l (Z.to_nat i) else None | Sc _ => None end.

Fixpoint extractvalue (v : agg) (p : list Z) : option agg :=
  match p with
  | [] => Some v
  | i :: p' => match element v i with Some w => extractvalue w p' | None => None end
  end.

Fixpoint update (l : list agg) (i : nat) (x : agg) : list agg :=
  match l, i with
  | [], _ => []
  | _ :: l', O => x :: l'
  | y :: l', S i' => y :: update l' i' x
  end.
Fixpoint insertvalue (v : agg) (p : list Z) (x : agg) : option agg :=
  match p with
  | [] => Some x
  | i :: p' =>
      match v, element v i with
      | Ag l, Some w => match insertvalue w p' x with Some w' => Some (Ag (update l (Z.to_nat i) w')) | None => None end
      | _, _ => None
      end
  end.

(** A value of the type: its scalars are in range. *)
Definition typed (t : ty) (v : agg) : Prop :=
  shaped t v /\
  forall p o bits z, scalar_at t p o bits -> extractvalue v p = Some (Sc (Some z)) -> 0 <= z < 2 ^ bits.

(** ** Memory *)

(** The bytes at [a] are those of the scalar [v] (anything if it is undef). *)
Definition holds (m : Z -> Z) (a bits : Z) (v : option Z) : Prop :=
  match v with Some z => reads_as (fun i => a + i) (bytes_needed bits) m z | None => True end.

(** All scalar components of the object of type [t] at [a] have the values they
    have in [v]. *)
Definition object_holds (m : Z -> Z) (a : Z) (t : ty) (v : agg) : Prop :=
  forall p o bits, scalar_at t p o bits -> exists x, extractvalue v p = Some (Sc x) /\ holds m (a + o) bits x.

(** [v] is what a load of the object gives. *)
Definition object_value (m : Z -> Z) (a : Z) (t : ty) (v : agg) : Prop :=
  shaped t v /\
  forall p o bits, scalar_at t p o bits ->
    exists z, extractvalue v p = Some (Sc (Some z)) /\ reads_as (fun i => a + o + i) (bytes_needed bits) m z.

(** [m'] is [m] after storing a scalar (for undef any bytes may be written). *)
Definition stored (a bits : Z) (v : option Z) (m m' : Z -> Z) : Prop :=
  exists z, (forall z', v = Some z' -> z = z') /\ written (fun i => a + i) (bytes_needed bits) z m m'.
