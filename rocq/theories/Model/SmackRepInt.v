(** SmackRep: translation of integer values and instructions to Boogie
    expressions – lib/smack/SmackRep.cpp:599-660 (literals), 796-1004 (expr,
    cast, bop, cmp, select). *)
From Coq Require Import ZArith List String Bool.
From Verif.Spec Require Import LLVMInt IR.
From Verif.Model Require Import Boogie PreludeInt.
Import ListNotations.
Open Scope string_scope.
Open Scope Z_scope.

(** SmackRep.cpp:152-158 intType, and type(): the printed type of an iN. *)
Definition intType (O : opts) (n : Z) : tyname :=
  if bitPrecise O then NBv n else NInt n.

(** Naming.cpp:98-132 INSTRUCTION_TABLE (integer entries) *)
Definition INSTRUCTION_TABLE (op : binop) : string :=
  match op with
  | Add => "$add" | Sub => "$sub" | Mul => "$mul"
  | SDiv => "$sdiv" | UDiv => "$udiv" | SRem => "$srem" | URem => "$urem"
  | Shl => "$shl" | LShr => "$lshr" | AShr => "$ashr"
  | And => "$and" | Or => "$or" | Xor => "$xor"
  end.
Definition CAST_TABLE (c : castop) : string :=
  match c with Trunc => "$trunc" | ZExt => "$zext" | SExt => "$sext" end.
(** Naming.cpp:134-154 CMPINST_TABLE (integer entries) *)
Definition CMPINST_TABLE (p : icmp_pred) : string :=
  match p with
  | EQ => "$eq" | NE => "$ne" | SGE => "$sge" | UGE => "$uge" | SLE => "$sle" | ULE => "$ule"
  | SLT => "$slt" | ULT => "$ult" | SGT => "$sgt" | UGT => "$ugt"
  end.

(** SmackRep.cpp:610-613 integerLit(unsigned long long, width) *)
Definition integerLitU (O : opts) (v width : Z) : expr :=
  if bitPrecise O then EBv v width else EInt v.
(** SmackRep.cpp:615-624 integerLit(long long, width) *)
Definition integerLit (O : opts) (v width : Z) : expr :=
  if 0 <=? v then integerLitU O v width
  else EFun (indexedName "$sub" [intType O width])
         [integerLitU O 0 width; integerLitU O (Z.abs v) width].

(** LLVM APInt, on bit patterns [c] of width [w]. *)
Definition APInt_isNegative (w c : Z) : bool := 2 ^ (w - 1) <=? c.
Definition APInt_abs (w c : Z) : Z := if APInt_isNegative w c then (- c) mod 2 ^ w else c.
(** APInt::getSExtValue: asserts that the value fits 64 signed bits ([None] when
    the assertion fails); with assertions compiled out ([ndebug]) it returns the
    low 64 bits. *)
Definition APInt_getSExtValue (ndebug : bool) (w c : Z) : option Z :=
  let s := if APInt_isNegative w c then c - 2 ^ w else c in
  if (- 2 ^ 63 <=? s) && (s <? 2 ^ 63) then Some s
  else if ndebug then
    let low := c mod 2 ^ 64 in Some (if low <? 2 ^ 63 then low else low - 2 ^ 64)
  else None.

Section Rep.
  (** [O]: command-line options; [ndebug]: LLVM built without assertions. *)
  Context (O : opts) (ndebug : bool).

  (** SmackRep.cpp:627-653 lit, ConstantInt case. *)
  Definition lit (width c : Z) (isUnsigned isUnsignedInst : bool) : option expr :=
    let mk (neg : bool) :=
      let str := if neg then APInt_abs width c else c in
      let e := if bitPrecise O then EBv str width else EInt str in
      Some (if neg then EFun (indexedName "$sub" [intType O width]) [integerLitU O 0 width; e] else e) in
    if 1 <? width then
      if isUnsigned then
        if isUnsignedInst then mk false
        else match APInt_getSExtValue ndebug width c with
             | Some s => mk (s =? -1)
             | None => None
             end
      else mk (APInt_isNegative width c)
    else mk false.

  (** SmackRep.cpp:929-941: signedness hints of a binary operation. *)
  Definition bop_hints (op : binop) (isUnsigned : bool) : bool * bool :=
    match op with
    | SDiv | SRem => (false, false)
    | UDiv | URem | Sub => (true, true)
    | _ => (isUnsigned, false)
    end.

  (** CmpInst::isUnsigned (LLVM) *)
  Definition icmp_isUnsigned (p : icmp_pred) : bool :=
    match p with UGT | UGE | ULT | ULE => true | _ => false end.

  (** SmackRep.cpp:796-868 expr, with bop(CE) 909-912, cast 878-898, cmp
      963-984 and select 986-1004 inlined at the constant-expression cases.
      [None]: an assertion inside LLVM fails.
      Registers keep their name (naming->get); see Model/Naming.v. *)
  Fixpoint expr_of (v : value) (isUnsigned isUnsignedInst : bool) : option expr :=
    match v with
    | VReg _ x => Some (EVar x)
    | VConst n c => lit n c isUnsigned isUnsignedInst
    | CBin op n a b =>
        let h := bop_hints op false in
        match expr_of a (fst h) (snd h), expr_of b (fst h) (snd h) with
        | Some e1, Some e2 => Some (EFun (indexedName (INSTRUCTION_TABLE op) [intType O n]) [e1; e2])
        | _, _ => None
        end
    | CIcmp p n a b =>
        match expr_of a (icmp_isUnsigned p) true, expr_of b (icmp_isUnsigned p) true with
        | Some e1, Some e2 => Some (EFun (indexedName (CMPINST_TABLE p) [intType O n]) [e1; e2])
        | _, _ => None
        end
    | CCast c n1 n2 a =>
        match expr_of a false false with
        | Some e => Some (EFun (indexedName (CAST_TABLE c) [intType O n1; intType O n2]) [e])
        | None => None
        end
    | CSelect n c a b =>
        match expr_of c false false, expr_of a true true, expr_of b true true with
        | Some ec, Some e1, Some e2 => Some (EIte (EBin BEq ec (integerLit O 1 1)) e1 e2)
        | _, _, _ => None
        end
    end.

  (** SmackRep.cpp:914-948 bop(BinaryOperator): the hint is the absence of nsw;
      SmackInstGenerator.cpp:339-378, 583-632: the instruction visitors. *)
  Definition inst_expr (i : inst) : option expr :=
    match i with
    | IBin op nsw n a b =>
        let h := bop_hints op (negb nsw) in
        match expr_of a (fst h) (snd h), expr_of b (fst h) (snd h) with
        | Some e1, Some e2 => Some (EFun (indexedName (INSTRUCTION_TABLE op) [intType O n]) [e1; e2])
        | _, _ => None
        end
    | IIcmp p n a b => expr_of (CIcmp p n a b) false false
    | ICast c n1 n2 a => expr_of (CCast c n1 n2 a) false false
    | ISelect n c a b => expr_of (CSelect n c a b) false false
    end.

  (** One Boogie assignment [x := e] per instruction
      (SmackInstGenerator.cpp:339-378, 583-632: emit(Stmt::assign(...))). *)
  Fixpoint trans_code (c : code) : option (list (string * expr)) :=
    match c with
    | [] => Some []
    | (x, i) :: c' =>
        match inst_expr i, trans_code c' with
        | Some e, Some l => Some ((x, e) :: l)
        | _, _ => None
        end
    end.
End Rep.

(** Execution of a list of Boogie assignments. *)
Fixpoint run_assigns (prog : list fdecl) (I : interp) (fuel : nat) (r : env)
    (l : list (string * expr)) : option env :=
  match l with
  | [] => Some r
  | (x, e) :: l' =>
      match eval prog I fuel r e with
      | Some v => run_assigns prog I fuel (upd_env r x v) l'
      | None => None
      end
  end.
