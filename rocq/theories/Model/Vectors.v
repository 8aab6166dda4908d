(** Vector operations: lib/smack/VectorOperations.cpp, with the visitors of
    lib/smack/SmackInstGenerator.cpp:339-414, 583-623.

    Simplifications: integer lanes only (floats and pointers as lanes are not
    modelled); names are structured instead of printed ("$add.vec.4xi32" is
    [VName (OBin Add) [Vec 4 (NInt 32)]]); vector loads and stores
    (VectorOperations.cpp:266-304) are not modelled. *)
From Coq Require Import ZArith List String Bool.
From Verif.Spec Require Import LLVMInt VectorOps.
From Verif.Model Require Import Boogie PreludeInt SmackRepInt.
Import ListNotations.
Open Scope string_scope.
Open Scope list_scope.
Open Scope Z_scope.

(** SmackRep.cpp:216-244 type, 168-172 vectorType: "vec.4xi32" *)
Inductive vtype := Sc (t : tyname) | Vec (n : nat) (t : tyname).
Definition typ (O : opts) (T : lty) : vtype :=
  match T with LI w => Sc (intType O w) | LV n w => Vec n (intType O w) end.

Inductive vcast := VCast (c : castop) | VBitCast.
(** The operation in a function name; a shuffle's name carries its mask
    (VectorOperations.cpp:171-175). *)
Inductive vop := OBin (op : binop) | OCmp (p : icmp_pred) | OCast (c : vcast) | OShuffle (mask : list Z) | OInsert | OExtract.
(** SmackRep.cpp:174-181 opName *)
Record vname := VName { vn_op : vop; vn_types : list vtype }.
(** Naming.cpp:98-154: the tables *)
Definition op_string (o : vop) : string :=
  match o with
  | OBin op => INSTRUCTION_TABLE op
  | OCmp p => CMPINST_TABLE p
  | OCast (VCast c) => CAST_TABLE c
  | OCast VBitCast => "$bitcast"
  | OShuffle _ => "$shufflevector" | OInsert => "$insertelement" | OExtract => "$extractelement"
  end.

(** ** Expressions and declarations (include/smack/BoogieAst.h).
    [XMk] is a datatype constructor "mk.vec.…" (VectorOperations.cpp:14-16), [XSel]
    one of its selectors "i0#mk.vec.…" (18-26), [XScalar] an expression of the
    scalar language. *)
Inductive vexpr :=
| XVar (x : string)
| XInt (z : Z)
| XScalar (e : expr)
| XMk (n : nat) (t : tyname) (args : list vexpr)
| XSel (n : nat) (t : tyname) (i : nat) (e : vexpr)
| XFun (f : vname) (args : list vexpr).

Record vfun := VFun { vf_name : vname; vf_params : list (string * vtype); vf_ret : vtype; vf_body : option vexpr }.
(** Axioms are named after the function: FN(i) or FNinverse. *)
Inductive akey := AtIndex (i : nat) | Inverse.
Inductive decl :=
| DType (n : nat) (t : tyname)                 (* type {:datatype} vec.nxt;            *)
| DMk (n : nat) (t : tyname)                   (* function {:constructor} mk.vec.nxt(i0: t, …) *)
| DFun (F : vfun)
| DAxiom (f : vname) (k : akey) (vars : list (string * vtype)) (lhs rhs : vexpr).  (* forall vars :: lhs == rhs *)

(** Names of declarations. *)
Inductive key := KType (n : nat) (t : tyname) | KMk (n : nat) (t : tyname) | KFun (f : vname) | KAxiom (f : vname) (k : akey).
Definition decl_key (d : decl) : key :=
  match d with
  | DType n t => KType n t | DMk n t => KMk n t | DFun F => KFun (vf_name F) | DAxiom f k _ _ _ => KAxiom f k
  end.
Definition key_dec (a b : key) : {a = b} + {a <> b}.
Proof. repeat (decide equality; try apply Z.eq_dec). Defined.

(** SmackRep.cpp:111-115 addAuxiliaryDeclaration: the first declaration of a name stays. *)
Definition addAuxiliaryDeclaration (tbl : list decl) (d : decl) : list decl :=
  if existsb (fun d' => if key_dec (decl_key d') (decl_key d) then true else false) tbl then tbl else tbl ++ [d].

Section Ops.
  Context (O : opts).

  (** VectorOperations.cpp:29-45 type *)
  Definition type_decls (T : vtype) : list decl :=
    match T with Vec n t => [DType n t; DMk n t] | Sc _ => [] end.

  (** VectorOperations.cpp:47-61 constant: elements through SmackRep::expr with its
      default hints.  Both the ConstantDataVector and the ConstantAggregateZero case. *)
  Definition constant (ndebug : bool) (n : nat) (w : Z) (cs : list Z) : option vexpr :=
    let fix go (cs : list Z) : option (list vexpr) :=
      match cs with
      | [] => Some []
      | c :: cs' => match lit O ndebug w c false false, go cs' with Some e, Some es => Some (XScalar e :: es) | _, _ => None end
      end in
    match go cs with Some es => Some (XMk n (intType O w) es) | None => None end.

  (** VectorOperations.cpp:94-106 binary *)
  Definition binary (op : binop) (n : nat) (w : Z) : vfun :=
    let t := intType O w in
    VFun (VName (OBin op) [Vec n t]) [("v1", Vec n t); ("v2", Vec n t)] (Vec n t)
      (Some (XMk n t (map (fun i => XFun (VName (OBin op) [Sc t]) [XSel n t i (XVar "v1"); XSel n t i (XVar "v2")]) (seq 0 n)))).

  (** VectorOperations.cpp:108-122 cmp: the constructor is that of the operand type *)
  Definition cmp (p : icmp_pred) (n : nat) (w : Z) : vfun :=
    let t := intType O w in
    VFun (VName (OCmp p) [Vec n t]) [("v1", Vec n t); ("v2", Vec n t)] (Vec n (intType O 1))
      (Some (XMk n t (map (fun i => XFun (VName (OCmp p) [Sc t]) [XSel n t i (XVar "v1"); XSel n t i (XVar "v2")]) (seq 0 n)))).

  (** VectorOperations.cpp:63-81 cast(OpCode, SrcTy, DstTy) *)
  Definition castFn (c : vcast) (src dst : vtype) : vfun :=
    VFun (VName (OCast c) [src; dst]) [("v", src)] dst
      match src, dst with
      | Sc _, Vec 1 t => Some (XMk 1 t [XVar "v"])
      | Vec 1 t, Sc _ => Some (XSel 1 t 0 (XVar "v"))
      | _, _ => None
      end.
  (** VectorOperations.cpp:83-92 inverseAxiom *)
  Definition inverseAxiom (c : vcast) (src dst : vtype) : decl :=
    let Fn := VName (OCast c) [src; dst] in
    let Inv := VName (OCast c) [dst; src] in
    DAxiom Fn Inverse [("v", src)] (XFun Inv [XFun Fn [XVar "v"]]) (XVar "v").

  (** VectorOperations.cpp:164-195 shuffle; an undefined mask element is not
      supported (llvm_unreachable) *)
  Definition shuffle (n : nat) (w : Z) (n' : nat) (mask : list Z) : option vfun :=
    let t := intType O w in
    if forallb (fun m => 0 <=? m) mask then
      Some (VFun (VName (OShuffle mask) [Vec n t]) [("v1", Vec n t); ("v2", Vec n t)] (Vec n' t)
        (Some (XMk n' t (map (fun m => if m <? Z.of_nat n then XSel n t (Z.to_nat m) (XVar "v1")
                                       else XSel n t (Z.to_nat (m - Z.of_nat n)) (XVar "v2")) mask))))
    else None.

  (** VectorOperations.cpp:197-236 insert: no body, one axiom per index *)
  Definition insert (n : nat) (w iw : Z) : vfun * list decl :=
    let t := intType O w in
    let FN := VName OInsert [Vec n t; Sc (intType O iw)] in
    (VFun FN [("v", Vec n t); ("x", Sc t); ("i", Sc (intType O iw))] (Vec n t) None,
     map (fun i => DAxiom FN (AtIndex i) [("v", Vec n t); ("x", Sc t)]
       (XFun FN [XVar "v"; XVar "x"; XInt (Z.of_nat i)])
       (XMk n t (map (fun j => if (i =? j)%nat then XVar "x" else XSel n t j (XVar "v")) (seq 0 n)))) (seq 0 n)).

  (** VectorOperations.cpp:238-264 extract *)
  Definition extract (n : nat) (w iw : Z) : vfun * list decl :=
    let t := intType O w in
    let FN := VName OExtract [Vec n t; Sc (intType O iw)] in
    (VFun FN [("v", Vec n t); ("i", Sc (intType O iw))] (Sc t) None,
     map (fun i => DAxiom FN (AtIndex i) [("v", Vec n t)]
       (XFun FN [XVar "v"; XInt (Z.of_nat i)]) (XSel n t i (XVar "v"))) (seq 0 n)).

  (** A vector instruction with the types of its operands. *)
  Inductive vinst :=
  | IVBin (op : binop) (n : nat) (w : Z)
  | IVCmp (p : icmp_pred) (n : nat) (w : Z)
  | IVCast (c : vcast) (src dst : lty)
  | IVShuffle (n : nat) (w : Z) (n' : nat) (mask : list Z)
  | IVInsert (n : nat) (w iw : Z)
  | IVExtract (n : nat) (w iw : Z).

  (** The function an instruction calls and the declarations it adds, in order:
      binary 141-150, cmp 152-162, cast 124-139 (only if the result is a vector:
      SmackInstGenerator.cpp:586; otherwise SmackRep.cpp:878-898 names a function
      without declaring it), shuffle, insert, extract. *)
  Definition visit (i : vinst) : option (vname * list decl) :=
    match i with
    | IVBin op n w => let F := binary op n w in Some (vf_name F, type_decls (Vec n (intType O w)) ++ [DFun F])
    | IVCmp p n w =>
        let F := cmp p n w in
        Some (vf_name F, type_decls (Vec n (intType O w)) ++ type_decls (Vec n (intType O 1)) ++ [DFun F])
    | IVCast c src dst =>
        let s := typ O src in let d := typ O dst in
        Some (VName (OCast c) [s; d],
          match d with
          | Sc _ => []
          | Vec _ _ => type_decls s ++ type_decls d ++
              [DFun (castFn c s d); DFun (castFn c d s); inverseAxiom c s d; inverseAxiom c d s]
          end)
    | IVShuffle n w n' mask =>
        match shuffle n w n' mask with
        | Some F => Some (vf_name F, type_decls (Vec n (intType O w)) ++ type_decls (Vec n' (intType O w)) ++ [DFun F])
        | None => None
        end
    | IVInsert n w iw => let (F, A) := insert n w iw in Some (vf_name F, type_decls (Vec n (intType O w)) ++ DFun F :: A)
    | IVExtract n w iw => let (F, A) := extract n w iw in Some (vf_name F, type_decls (Vec n (intType O w)) ++ DFun F :: A)
    end.

  (** The auxiliary declarations of a program with the vector instructions [l]. *)
  Fixpoint declarations (tbl : list decl) (l : list vinst) : option (list decl) :=
    match l with
    | [] => Some tbl
    | i :: l' =>
        match visit i with
        | Some (_, ds) => declarations (fold_left addAuxiliaryDeclaration ds tbl) l'
        | None => None
        end
    end.
  (** SmackInstGenerator.cpp:351-356, 379-409, 586-592, 610-615: the assigned expression *)
  Definition emitted (i : vinst) (args : list vexpr) : option vexpr :=
    match visit i with Some (f, _) => Some (XFun f args) | None => None end.
End Ops.
