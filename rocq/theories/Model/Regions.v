(** Memory regions (lib/smack/Regions.cpp) and the type-safety analysis
    (lib/smack/DSAWrapper.cpp:121-197).  The sea-dsa points-to graph is an input:
    what the code reads of it is in [node_info] and [access]. *)
From Coq Require Import ZArith List Bool Arith.
From Verif.Model Require Import Globals.
Import ListNotations.
Open Scope list_scope.
Open Scope Z_scope.

(** What is read of a node of the points-to graph.  [nd_types]: node->types(), a
    map from offsets to the types accessed there, each with its store size. *)
Record node_info := NodeInfo {
  nd_heap : bool; nd_alloca : bool; nd_inttoptr : bool; nd_ptrtoint : bool;
  nd_external : bool; nd_unknown : bool; nd_incomplete : bool; nd_collapsed : bool;
  nd_array : bool; nd_memopd : bool; nd_globals : Z;
  nd_types : list (Z * list (Z * Z)) }.

(** A pointer operand: its node (None: a null constant or a value without a
    cell), offset, the access length, and its element type: an identifier and
    whether it is i8. *)
Record access := Access { ac_node : option nat; ac_off : Z; ac_len : Z; ac_type : Z; ac_i8 : bool }.

(** ** DSAWrapper::isTypeSafe – DSAWrapper.cpp:121-197 *)

(** std::set<unsigned>: sorted, without duplicates. *)
Fixpoint insert (x : Z) (l : list Z) : list Z :=
  match l with
  | [] => [x]
  | y :: l' => if x <? y then x :: l else if x =? y then l else y :: insert x l'
  end.
Definition offset_set (types : list (Z * list (Z * Z))) : list Z :=
  fold_right (fun t s => insert (fst t) s) [] types.
(** types.find(offset)->second *)
Fixpoint types_at (types : list (Z * list (Z * Z))) (o : Z) : list (Z * Z) :=
  match types with [] => [] | (o', ts) :: l => if o' =? o then ts else types_at l o end.

(** FieldMap *)
Definition fieldmap := Z -> option bool.
Definition fm_set (fm : fieldmap) (o : Z) (b : bool) : fieldmap := fun x => if x =? o then Some b else fm x.

(** :154-162 *)
Definition field_length (ts : list (Z * Z)) : Z :=
  fold_left (fun acc t => if acc <? snd t then snd t else acc) ts 0.
Definition multiple (ts : list (Z * Z)) : bool := match ts with _ :: _ :: _ => true | _ => false end.

(** :165-176 *)
Fixpoint check_next (o len : Z) (rest : list Z) (fm : fieldmap) : fieldmap :=
  match rest with
  | [] => fm
  | nx :: rest' =>
      if nx <? u32 (o + len) then check_next o len rest' (fm_set (fm_set fm o false) nx false) else fm
  end.

(** :142-180 *)
Fixpoint check_fields (types : list (Z * list (Z * Z))) (offs : list Z) (fm : fieldmap) : fieldmap :=
  match offs with
  | [] => fm
  | o :: rest =>
      let ts := types_at types o in
      let fm1 := if multiple ts then fm_set fm o false else fm in
      let fm2 := check_next o (field_length ts) rest fm1 in
      let fm3 := match fm2 o with None => fm_set fm2 o true | Some _ => fm2 end in
      check_fields types rest fm3
  end.

Definition isTypeSafe (n : node_info) (off : Z) : bool :=
  if nd_collapsed n || nd_external n || nd_incomplete n || nd_unknown n ||
     nd_inttoptr n || nd_ptrtoint n || nd_memopd n then false
  else match check_fields (nd_types n) (offset_set (nd_types n)) (fun _ => None) off with
       | Some b => b
       | None => false
       end.

(** ** Regions *)

(** The members of Region – Regions.h:24-42. *)
Record reg := Reg {
  representative : option nat; type : option Z; offset : Z; length : Z;
  rsingleton : bool; allocated : bool; rbytewise : bool;
  incomplete : bool; complicated : bool; collapsed : bool }.

Section Regions.
  Context (bitPrecise noByteAccessInference : bool) (dsa : nat -> node_info).

  (** Regions.cpp:29-37 *)
  Definition isAllocated (n : node_info) : bool := nd_heap n || nd_alloca n.
  Definition isComplicated (n : node_info) : bool :=
    nd_inttoptr n || nd_ptrtoint n || nd_external n || nd_unknown n.
  (** Regions.cpp:21-27 *)
  Definition isSingleton (n : node_info) (off : Z) : bool :=
    negb (isAllocated n) && (nd_globals n =? 1) && negb (nd_array n) && isTypeSafe n off && negb (nd_memopd n).

  (** Regions.cpp:39-58, with region splitting on (DSA and DL set) *)
  Definition init (a : access) : reg :=
    match ac_node a with
    | Some k =>
        let n := dsa k in
        Reg (Some k) (Some (ac_type a)) (ac_off a) (ac_len a)
          (isSingleton n (ac_off a)) (isAllocated n)
          (bitPrecise && (noByteAccessInference || negb (isTypeSafe n (ac_off a)) || ac_i8 a))
          (nd_incomplete n) (isComplicated n) (nd_collapsed n)
    | None =>
        Reg None (Some (ac_type a)) (ac_off a) (ac_len a) false true bitPrecise true true true
    end.

  (** Regions.cpp:68-71; unsigned sums *)
  Definition isDisjoint (g : reg) (off len : Z) : bool :=
    (u32 (offset g + length g) <=? off) || (u32 (off + len) <=? offset g).

  Definition type_eqb (a b : option Z) : bool :=
    match a, b with Some x, Some y => x =? y | None, None => true | _, _ => false end.
  Definition node_eqb (a b : option nat) : bool :=
    match a, b with Some x, Some y => Nat.eqb x y | None, None => true | _, _ => false end.

  (** Regions.cpp:73-86 *)
  Definition merge (g R : reg) : reg :=
    let collapse := negb (type_eqb (type g) (type R)) in
    let low := Z.min (offset g) (offset R) in
    let high := Z.max (u32 (offset g + length g)) (u32 (offset R + length R)) in
    let bw := bitPrecise && (rbytewise g || rbytewise R || collapse) in
    Reg (representative g) (if bw || collapse then None else type g) low (u32 (high - low))
      (rsingleton g && rsingleton R) (allocated g || allocated R) bw
      (incomplete g || incomplete R) (complicated g || complicated R) (collapsed g || collapsed R).

  (** Regions.cpp:88-92 *)
  Definition overlaps (g R : reg) : bool :=
    (incomplete g && incomplete R) || (complicated g && complicated R) ||
    (node_eqb (representative g) (representative R) && (collapsed g || negb (isDisjoint g (offset R) (length R)))).

  (** Regions.cpp:181-236: the loop over the regions after the one found. *)
  Fixpoint absorb (g : reg) (rest : list reg) : reg * list reg :=
    match rest with
    | [] => (g, [])
    | q :: rest' =>
        if overlaps g q then absorb (merge g q) rest'
        else let (g', rest'') := absorb g rest' in (g', q :: rest'')
    end.
  (** Regions::idx(Region&): the index and the new list of regions. *)
  Fixpoint idx (regions : list reg) (R : reg) : nat * list reg :=
    match regions with
    | [] => (0%nat, [R])
    | g :: gs =>
        if overlaps g R then let (g', gs') := absorb (merge g R) gs in (0%nat, g' :: gs')
        else let (n, gs') := idx gs R in (S n, g :: gs')
    end.

  (** Regions.cpp:238-300: all accesses of the module, in order. *)
  Fixpoint visit (regions : list reg) (l : list access) : list reg :=
    match l with [] => regions | a :: l' => visit (snd (idx regions (init a))) l' end.
End Regions.
