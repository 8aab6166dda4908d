(** lib/smack/VectorOperations.cpp: load and store. *)
From Coq Require Import ZArith List Bool.
From Verif.Spec Require Import VectorMem.
Import ListNotations.
Open Scope list_scope.

(** A region: whether it is a singleton, and the type of its contents, if it is known (Regions.h). *)
Record region := Region { singleton : bool; rtype : option ty }.
(** The Boogie type of its memory variable: a map from addresses, or a single value. *)
Inductive mtype := MapOf (t : ty) | One (t : ty).
Definition mtype_dec (a b : mtype) : {a = b} + {a <> b}.
Proof. decide equality; apply ty_dec. Defined.
Definition cell_type (r : region) : ty := match rtype r with Some t => t | None => Int 8 end.
(** SmackRep::memType – SmackRep.cpp:264-272; [bytes]: BitPrecise && NoByteAccessInference. *)
Definition memType (bytes : bool) (r : region) : mtype :=
  if negb (singleton r) || bytes then MapOf (cell_type r) else One (cell_type r).

(** $load and $store with the types of the value and of the cells in their names (opName).  Names are
    not written out; that the printed names differ is C35's matter. *)
Inductive name := LOAD (et mt : ty) | STORE (et mt : ty).
Definition name_dec (a b : name) : {a = b} + {a <> b}.
Proof. decide equality; apply ty_dec. Defined.
(** A function declaration: the type of its parameter M, and whether it has a body, which is
    then M[p] or M[p := v]. *)
Record decl := Decl { dname : name; dmem : mtype; dbody : bool }.
(** VectorOperations::load, store – VectorOperations.cpp:266-306: [MT || (MT = i8)] and [MT == ET]. *)
Definition load (bytes : bool) (r : region) (et : ty) : decl :=
  let mt := match rtype r with Some t => t | None => Int 8 end in
  Decl (LOAD et mt) (memType bytes r) (if ty_dec mt et then true else false).
Definition store (bytes : bool) (r : region) (et : ty) : decl :=
  let mt := match rtype r with Some t => t | None => Int 8 end in
  Decl (STORE et mt) (memType bytes r) (if ty_dec mt et then true else false).
Definition decl_of (bytes : bool) (regions : nat -> region) (a : access) : decl :=
  match a with Load r et _ => load bytes (regions r) et | Store r et _ _ => store bytes (regions r) et end.
(** addAuxiliaryDeclaration keeps the first declaration of a name – SmackRep.cpp. *)
Definition add (tbl : list decl) (d : decl) : list decl :=
  if existsb (fun x => if name_dec (dname x) (dname d) then true else false) tbl then tbl else tbl ++ [d].
Definition declarations (bytes : bool) (regions : nat -> region) (l : list access) : list decl :=
  fold_left (fun tbl a => add tbl (decl_of bytes regions a)) l [].

(** Boogie's type checker: a body selects in a map, and each call (visitLoadInst, visitStoreInst –
    SmackInstGenerator.cpp:487-493, 512-516) passes the memory of the region. *)
Definition well_typed (d : decl) : bool := match dmem d with MapOf _ => true | One _ => negb (dbody d) end.
Definition call_typed (bytes : bool) (regions : nat -> region) (tbl : list decl) (a : access) : bool :=
  match find (fun x => if name_dec (dname x) (dname (decl_of bytes regions a)) then true else false) tbl with
  | Some d => if mtype_dec (dmem d) (memType bytes (regions (part a))) then true else false
  | None => false
  end.
Definition accepted (bytes : bool) (regions : nat -> region) (l : list access) : bool :=
  forallb well_typed (declarations bytes regions l) && forallb (call_typed bytes regions (declarations bytes regions l)) l.

(** What the functions may be: those with a body are what it says. *)
Record interp := Interp { ild : name -> mem -> Z -> val; ist : name -> mem -> Z -> val -> mem }.
Definition satisfies (I : interp) (tbl : list decl) : Prop :=
  forall d, In d tbl -> dbody d = true ->
    match dname d with
    | LOAD _ _ => forall f p, ild I (dname d) (Cells f) p = f p
    | STORE _ _ => forall f p v, ist I (dname d) (Cells f) p v = Cells (fun q => if Z.eqb q p then v else f q)
    end.
(** The translated statements: x := $load…(M, p) and M := $store…(M, p, v). *)
Fixpoint exec (I : interp) (regions : nat -> region) (l : list access) (ms : nat -> mem) : list val * (nat -> mem) :=
  match l with
  | [] => ([], ms)
  | Load r et p :: l' => let (o, ms') := exec I regions l' ms in (ild I (dname (load false (regions r) et)) (ms r) p :: o, ms')
  | Store r et p v :: l' => exec I regions l' (set_mem ms r (ist I (dname (store false (regions r) et)) (ms r) p v))
  end.
