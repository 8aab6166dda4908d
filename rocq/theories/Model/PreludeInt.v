(** The integer part of the generated prelude: lib/smack/Prelude.cpp:160-928.

    [IntOpGen] emits, for every entry of its tables and every width in
    INTEGER_SIZES, Boogie function declarations.  The model builds the same list
    of declarations (as AST, see Model/Boogie.v). *)
From Coq Require Import ZArith List String Bool.
From Verif.Model Require Import Boogie.
Import ListNotations.
Open Scope Z_scope.
Open Scope string_scope.

(** SmackOptions used here – lib/smack/SmackOptions.cpp (BitPrecise,
    BitPrecisePointers, WrappedIntegerEncoding). *)
Record opts := Opts {
  bitPrecise : bool;
  bitPrecisePointers : bool;
  wrappedIntegerEncoding : bool }.

(** Prelude.cpp:175-176 *)
Definition INTEGER_SIZES : list Z :=
  [1; 5; 6; 8; 16; 24; 32; 33; 40; 48; 56; 64; 80; 88; 96; 128; 160; 256].

(** Prelude.cpp:169-173: the decimal text of 2^size (here its value). *)
Definition getIntLimit (size : Z) : Z := 2 ^ size.

(** Prelude.cpp:45-70: variable names "i", "i1", "i2". *)
Definition makeIntVarName (i : nat) : string :=
  match i with O => "i" | S O => "i1" | _ => "i2" end.
Definition makeIntVarExpr (i : nat) : expr := EVar (makeIntVarName i).

(** Prelude.cpp:76-93 makeListOfElems/makeIntVars (arity 1 or 2 only, as used). *)
Definition makeIntVars (arity : nat) (t : tyname) : list (string * tyname) :=
  match arity with
  | 1%nat => [(makeIntVarName 0, t)]
  | _ => [(makeIntVarName 1, t); (makeIntVarName 2, t)]
  end.

(** Prelude.cpp:142-166 *)
Definition uninterpretedOp base idx args ret :=
  FuncDecl (indexedName base idx) args ret None ANone.
Definition inlinedOp base idx args ret body :=
  FuncDecl (indexedName base idx) args ret (Some body) AInline.
Definition builtinOp base attr idx args ret :=
  FuncDecl (indexedName base idx) args ret None attr.

(** Op kinds – Prelude.h (BuiltinOp / InlinedOp / UninterpretedOp). *)
Inductive opk := OpBuiltin | OpInlined (f : Z -> expr) | OpUninterp.

(** Prelude.cpp:275-283 *)
Definition bvAttrFunc (opName : string) : fattr := ABvBuiltin ("bv" ++ opName).
Definition intAttrFunc (opName : string) : fattr :=
  ABuiltin (substring 1 (String.length opName - 1) opName).

Record intArithOp := IntArithOp {
  ao_name : string;
  ao_arity : nat;
  ao_int : option opk;
  ao_bv : option opk;
  ao_ptr : bool }.

Definition opt_list {A} (o : option A) : list A :=
  match o with Some x => [x] | None => [] end.

(** Prelude.cpp:290-315 *)
Definition getIntFunc (o : intArithOp) (size : Z) : option fdecl :=
  let t := NInt size in
  let name := "$" ++ ao_name o in
  match ao_int o with
  | None => None
  | Some OpBuiltin => Some (builtinOp name (intAttrFunc (ao_name o)) [t] (makeIntVars (ao_arity o) t) t)
  | Some (OpInlined f) => Some (inlinedOp name [t] (makeIntVars (ao_arity o) t) t (f size))
  | Some OpUninterp => Some (uninterpretedOp name [t] (makeIntVars (ao_arity o) t) t)
  end.

(** Prelude.cpp:317-337 (the llvm_unreachable arm yields no declaration). *)
Definition getBvFunc (o : intArithOp) (size : Z) : option fdecl :=
  let t := NBv size in
  let name := "$" ++ ao_name o in
  match ao_bv o with
  | None => None
  | Some OpBuiltin => Some (builtinOp name (bvAttrFunc (ao_name o)) [t] (makeIntVars (ao_arity o) t) t)
  | Some (OpInlined f) => Some (inlinedOp name [t] (makeIntVars (ao_arity o) t) t (f size))
  | Some OpUninterp => None
  end.

(** Prelude.cpp:339-348 *)
Definition arithFuncs (O : opts) (o : intArithOp) (size : Z) : list fdecl :=
  (if negb (bitPrecise O) || (negb (bitPrecisePointers O) && ao_ptr o)
   then opt_list (getIntFunc o size) else []) ++
  (if bitPrecise O || (bitPrecisePointers O && ao_ptr o)
   then opt_list (getBvFunc o size) else []).

(** Prelude.cpp:351-353 *)
Definition intArithExpr (op : bbin) (size : Z) : expr :=
  EBin op (makeIntVarExpr 1) (makeIntVarExpr 2).

(** Prelude.cpp:357-366 *)
Definition minMaxPred (sign min : bool) : string :=
  "$" ++ (if sign then "s" else "u") ++ (if min then "lt" else "gt").
Definition bvMinMaxExpr (sign min : bool) (size : Z) : expr :=
  EIte (EFun (indexedName (minMaxPred sign min) [NBv size; NBool])
             [makeIntVarExpr 1; makeIntVarExpr 2])
       (makeIntVarExpr 1) (makeIntVarExpr 2).
(** Prelude.cpp:370-380 *)
Definition intMinMaxExpr (min sign : bool) (size : Z) : expr :=
  EIte (EFun (indexedName (minMaxPred sign min) [NInt size; NBool])
             [makeIntVarExpr 1; makeIntVarExpr 2])
       (makeIntVarExpr 1) (makeIntVarExpr 2).

(** Naming.cpp:293-295 getIntWrapFunc *)
Definition getIntWrapFunc (isUnsigned : bool) : string :=
  if isUnsigned then "$tou" else "$tos".

(** Prelude.cpp:457-464 *)
Definition wrappedExpr (O : opts) (size : Z) (e : expr) (isUnsigned : bool) : expr :=
  if wrappedIntegerEncoding O
  then EFun (indexedName (getIntWrapFunc isUnsigned) [NInt size]) [e]
  else e.

(** Prelude.cpp:395-413 *)
Definition sremExpr (O : opts) (size : Z) : expr :=
  let t := NInt size in
  let dividend := wrappedExpr O size (makeIntVarExpr 1) false in
  let divisor := wrappedExpr O size (makeIntVarExpr 2) false in
  let zero := EInt 0 in
  let md := EFun (indexedName "$smod" [t]) [dividend; divisor] in
  let modNeZero := EFun (indexedName "$ne" [t; NBool]) [md; zero] in
  let dividendLtZero := EFun (indexedName "$slt" [t; NBool]) [dividend; zero] in
  let negRemainder :=
    EFun (indexedName "$sub" [t])
      [md; EFun (indexedName "$smax" [t])
             [divisor; EFun (indexedName "$sub" [t]) [zero; divisor]]] in
  EIte (EBin BAnd modNeZero dividendLtZero) negRemainder md.

(** Prelude.cpp:417-424 *)
Definition uremExpr (O : opts) (size : Z) : expr :=
  EFun (indexedName "$smod" [NInt size])
    [wrappedExpr O size (makeIntVarExpr 1) true; wrappedExpr O size (makeIntVarExpr 2) true].

(** Prelude.cpp:428-443 *)
Definition tosExpr (size : Z) : expr :=
  let i := makeIntVarExpr 0 in
  let limitMinusOne := EInt (getIntLimit (size - 1)) in
  let c := EBin BAnd (EBin Gte i (EInt (- getIntLimit (size - 1)))) (EBin Lt i limitMinusOne) in
  let t := NInt size in
  EIte c i
    (EFun (indexedName "$sub" [t])
       [EFun (indexedName "$smod" [t])
          [EFun (indexedName "$add" [t]) [i; limitMinusOne]; EInt (getIntLimit size)];
        limitMinusOne]).

(** Prelude.cpp:447-455 *)
Definition touExpr (size : Z) : expr :=
  let i := makeIntVarExpr 0 in
  let limit := EInt (getIntLimit size) in
  let c := EBin BAnd (EBin Gte i (EInt 0)) (EBin Lt i limit) in
  EIte c i (EFun (indexedName "$smod" [NInt size]) [i; limit]).

(** Prelude.cpp:465-469 *)
Definition divExpr (O : opts) (sign : bool) (size : Z) : expr :=
  EFun (indexedName "$idiv" [NInt size])
    [wrappedExpr O size (makeIntVarExpr 1) (negb sign);
     wrappedExpr O size (makeIntVarExpr 2) (negb sign)].

(** Prelude.cpp:475-544 *)
Definition intArithOpTable (O : opts) : list intArithOp :=
  let B := Some OpBuiltin in
  let U := Some OpUninterp in
  let N f := Some (OpInlined f) in
  let W f := if wrappedIntegerEncoding O then Some (OpInlined f) else None in
  [ IntArithOp "add" 2 (N (intArithExpr Plus)) B true;
    IntArithOp "sub" 2 (N (intArithExpr Minus)) B true;
    IntArithOp "mul" 2 (N (intArithExpr Times)) B true;
    IntArithOp "idiv" 2 B B false;
    IntArithOp "sdiv" 2 (N (divExpr O true)) B false;
    IntArithOp "udiv" 2 (N (divExpr O false)) B false;
    IntArithOp "smod" 2 B B false;
    IntArithOp "srem" 2 (N (sremExpr O)) B false;
    IntArithOp "urem" 2 (N (uremExpr O)) B false;
    IntArithOp "shl" 2 U B false;
    IntArithOp "lshr" 2 U B false;
    IntArithOp "ashr" 2 U B false;
    IntArithOp "and" 2 U B false;
    IntArithOp "or" 2 U B false;
    IntArithOp "xor" 2 U B false;
    IntArithOp "nand" 2 U B false;
    IntArithOp "not" 1 U B false;
    IntArithOp "tos" 1 (W tosExpr) None true;
    IntArithOp "tou" 1 (W touExpr) None true;
    IntArithOp "smin" 2 (N (intMinMaxExpr true true)) (N (bvMinMaxExpr true true)) false;
    IntArithOp "smax" 2 (N (intMinMaxExpr false true)) (N (bvMinMaxExpr true false)) false;
    IntArithOp "umin" 2 (N (intMinMaxExpr true false)) (N (bvMinMaxExpr false true)) false;
    IntArithOp "umax" 2 (N (intMinMaxExpr false false)) (N (bvMinMaxExpr false false)) false ].

(** Prelude.cpp:546-548 *)
Definition arithDecls (O : opts) : list fdecl :=
  flat_map (fun o => flat_map (arithFuncs O o) INTEGER_SIZES) (intArithOpTable O).

(** Prelude.cpp:550-578: the emitted axioms, as triples (function, arguments,
    value) meaning [function(arguments) == value]. *)
Definition arithAxioms (O : opts) : list (fname * list Z * Z) :=
  if bitPrecise O then [] else
  flat_map (fun i => flat_map (fun j =>
    [ (indexedName "$and" [NInt 1], [i; j], Z.land i j);
      (indexedName "$or" [NInt 1], [i; j], Z.lor i j);
      (indexedName "$xor" [NInt 1], [i; j], Z.lxor i j) ]) [0; 1]) [0; 1]
  ++ [ (indexedName "$and" [NInt 32], [32; 16], 0) ].

(** An interpretation of the uninterpreted functions meets the axioms. *)
Definition meets_axioms (O : opts) (I : interp) : Prop :=
  forall f args v, In (f, args, v) (arithAxioms O) -> I f (map VInt args) = Some (VInt v).

(** Prelude.cpp:650-684 *)
Definition intPredExpr (O : opts) (op : bbin) (sign : bool) (size : Z) : expr :=
  EBin op (wrappedExpr O size (makeIntVarExpr 1) (negb sign))
          (wrappedExpr O size (makeIntVarExpr 2) (negb sign)).

Record intPred := IntPred { ip_name : string; ip_int : Z -> expr; ip_bv : option (Z -> expr) }.

(** Prelude.cpp:690-718; [ip_bv = None] is bvBuiltinOp. *)
Definition intPredTable (O : opts) : list intPred :=
  let P op s := intPredExpr O op s in
  [ IntPred "ule" (P Lte false) None; IntPred "ult" (P Lt false) None;
    IntPred "uge" (P Gte false) None; IntPred "ugt" (P Gt false) None;
    IntPred "sle" (P Lte true) None;  IntPred "slt" (P Lt true) None;
    IntPred "sge" (P Gte true) None;  IntPred "sgt" (P Gt true) None;
    IntPred "eq" (P BEq false) (Some (P BEq false));
    IntPred "ne" (P BNeq false) (Some (P BNeq false)) ].

(** Prelude.cpp:586-605 *)
Definition predIntFuncs (p : intPred) (size : Z) : list fdecl :=
  let name := "$" ++ ip_name p in
  let t := NInt size in
  [ inlinedOp name [t; NBool] (makeIntVars 2 t) NBool (ip_int p size);
    inlinedOp name [t] (makeIntVars 2 t) (NInt 1)
      (EIte (EFun (indexedName name [t; NBool]) [makeIntVarExpr 1; makeIntVarExpr 2])
            (EInt 1) (EInt 0)) ].

(** Prelude.cpp:607-633 *)
Definition predBvFuncs (p : intPred) (size : Z) : list fdecl :=
  let name := "$" ++ ip_name p in
  let t := NBv size in
  [ match ip_bv p with
    | None => builtinOp name (bvAttrFunc (ip_name p)) [t; NBool] (makeIntVars 2 t) NBool
    | Some f => inlinedOp name [t; NBool] (makeIntVars 2 t) NBool (f size)
    end;
    inlinedOp name [t] (makeIntVars 2 t) (NBv 1)
      (EIte (EFun (indexedName name [t; NBool]) [makeIntVarExpr 1; makeIntVarExpr 2])
            (EBv 1 1) (EBv 0 1)) ].

(** Prelude.cpp:635-648 *)
Definition predFuncs (O : opts) (p : intPred) (size : Z) : list fdecl :=
  (if negb (bitPrecise O) || negb (bitPrecisePointers O) then predIntFuncs p size else []) ++
  (if bitPrecise O || bitPrecisePointers O then predBvFuncs p size else []).

(** Prelude.cpp:719-721 *)
Definition predDecls (O : opts) : list fdecl :=
  flat_map (fun p => flat_map (predFuncs O p) INTEGER_SIZES) (intPredTable O).

Inductive convBv := ConvTrunc | ConvExt (sign : bool).
Record intConv := IntConv { ic_name : string; ic_up : bool; ic_int : Z -> Z -> expr; ic_bv : convBv }.

(** Prelude.cpp:771-810 intTruncExpr, 812-878 intExtExpr *)
Definition intTruncExpr (O : opts) (size1 size2 : Z) : expr :=
  wrappedExpr O size2 (makeIntVarExpr 0) true.
Definition intExtExpr (O : opts) (sign : bool) (size1 size2 : Z) : expr :=
  wrappedExpr O size1 (makeIntVarExpr 0) (negb sign).

(** Prelude.cpp:900-907 *)
Definition intConvTable (O : opts) : list intConv :=
  [ IntConv "trunc" false (intTruncExpr O) ConvTrunc;
    IntConv "sext" true (intExtExpr O true) (ConvExt true);
    IntConv "zext" true (intExtExpr O false) (ConvExt false) ].

(** Prelude.cpp:733-768, 880-895 *)
Definition convFuncs (O : opts) (c : intConv) (size1 size2 : Z) : list fdecl :=
  let name := "$" ++ ic_name c in
  if bitPrecise O then
    let idx := [NBv size1; NBv size2] in
    [ match ic_bv c with
      | ConvTrunc => inlinedOp name idx (makeIntVars 1 (NBv size1)) (NBv size2)
                       (EExtract (makeIntVarExpr 0) size2 0)
      | ConvExt sg => builtinOp name (ABvExtend sg (size2 - size1)) idx
                        (makeIntVars 1 (NBv size1)) (NBv size2)
      end ]
  else [ inlinedOp name [NInt size1; NInt size2] (makeIntVars 1 (NInt size1)) (NInt size2)
           (ic_int c size1 size2) ].

(** Prelude.cpp:909-920: all pairs of positions s1 < s2. *)
Fixpoint pairs_lt (l : list Z) : list (Z * Z) :=
  match l with
  | [] => []
  | x :: l' => map (fun y => (x, y)) l' ++ pairs_lt l'
  end.

Definition convDecls (O : opts) : list fdecl :=
  flat_map (fun c => flat_map (fun p : Z * Z =>
     if ic_up c then convFuncs O c (fst p) (snd p) else convFuncs O c (snd p) (fst p))
     (pairs_lt INTEGER_SIZES)) (intConvTable O).

(** IntOpGen::generate without the memory operations (those are in
    Model/PreludeMem.v) – Prelude.cpp:1047-1054. *)
Definition preludeInt (O : opts) : list fdecl :=
  arithDecls O ++ predDecls O ++ convDecls O.
