(** Specification: what the points-to graph has to get right about an execution.
    An execution is seen as the sequence of its loads and stores, each made by an
    operand of the program ([d_static]) at a concrete address. *)
From Coq Require Import ZArith List Bool.
From Verif.Model Require Import Regions.
From Verif.Spec Require Import LLVMInt Aliasing FlatMemory.
From Verif.Props Require Import RegionProps.
Import ListNotations.
Open Scope Z_scope.

Record dyn := Dyn { d_static : access; d_ty : atype; d_addr : Z; d_val : option Z }.

(** Two executed accesses have a byte in common. *)
Definition touch (P : Z) (x y : dyn) : Prop :=
  exists i j, 0 <= i < size P (d_ty x) /\ 0 <= j < size P (d_ty y) /\
    byte_at P (d_addr x) i = byte_at P (d_addr y) j.
(** Their addresses are as far apart as the offsets recorded for their operands. *)
Definition same_base (P : Z) (x y : dyn) : Prop :=
  (d_addr x - d_addr y) mod 2 ^ P = (ac_off (d_static x) - ac_off (d_static y)) mod 2 ^ P.

(** The node stands for exactly one object: a single global, not an array. *)
Definition one_object (n : node_info) : Prop :=
  nd_heap n = false /\ nd_alloca n = false /\ nd_globals n = 1 /\ nd_array n = false /\ known_object n.

Record points_to_sound (P : Z) (dsa : nat -> node_info) (l : list access) (D : list dyn) : Prop := {
  (** every executed access belongs to an operand the analysis has seen, of the same size *)
  pt_seen : forall x, In x D -> In (d_static x) l;
  pt_size : forall x, In x D -> ac_len (d_static x) = size P (d_ty x);
  pt_type : forall x y, In x D -> In y D -> ac_type (d_static x) = ac_type (d_static y) -> d_ty x = d_ty y;
  (** the recorded types of each node *)
  pt_nodes : forall k, proper_types (dsa k);
  pt_recorded : forall a k, In a l -> ac_node a = Some k -> known_object (dsa k) ->
    accessed (dsa k) (ac_off a) (ac_type a) (ac_len a);
  (** accesses with a common byte are in one object, at the recorded offsets
      unless its fields are not distinguished *)
  pt_overlap : forall x y, In x D -> In y D -> touch P x y ->
    (is_incomplete dsa (d_static x) /\ is_incomplete dsa (d_static y)) \/
    (is_complicated dsa (d_static x) /\ is_complicated dsa (d_static y)) \/
    exists k, ac_node (d_static x) = Some k /\ ac_node (d_static y) = Some k /\
      (nd_collapsed (dsa k) = true \/ same_base P x y);
  pt_one : forall x y k, In x D -> In y D -> ac_node (d_static x) = Some k -> ac_node (d_static y) = Some k ->
    one_object (dsa k) -> same_base P x y }.
