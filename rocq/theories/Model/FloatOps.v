(** The floating-point functions of the prelude with modelled floats (--float):
    lib/smack/Prelude.cpp FpOp::fpAttrFunc :1323-1350, FpArithOp :1352-1382, arithmetic
    operations :1384-1401, predicates :1509-1548, conversions :1550-1582, floating-point
    and integer conversion :1584-1710; FP_LAYOUT :178-181, INTEGER_SIZES :175-176, type
    names :15-41; and what the instructions and intrinsics are translated to:
    lib/smack/SmackRep.cpp cast :878-900, isFpArithOp :910-913, bop :924-933, uop :957-960;
    lib/smack/SmackInstGenerator.cpp :935-985, :1119-1208.

    A function with a :builtin attribute is the operation of SMT-LIB's theory of
    floating-point numbers of that name (Spec/FloatArith.v); a function without one and
    without body is uninterpreted.  [None]: a function that is not declared, or not
    with these argument types; Boogie rejects the program. *)
From Coq Require Import ZArith List String Ascii Bool.
From Verif.Spec Require Import IEEE FloatArith.
From Verif.Model Require Import Floats BoogieAst.
Import ListNotations.
Open Scope string_scope.
Open Scope list_scope.
Open Scope Z_scope.

(** Values of Boogie expressions: numbers of a floating-point type, rounding modes,
    booleans, integers of [w] bits (bvw or iw). *)
Inductive fval := VF (t : fptype) (x : fpval) | VR (rm : rounding) | VB (b : bool) | VI (w n : Z).
Definition fptype_eqb (a b : fptype) : bool :=
  match a, b with HalfTy, HalfTy | FloatTy, FloatTy | DoubleTy, DoubleTy | X86_FP80Ty, X86_FP80Ty => true | _, _ => false end.

(** FP_LAYOUT – :180-181; the Boogie types float<p>e<E> – :1063-1066 *)
Definition layout (t : fptype) : format := let '(e, p) := fp_sizes t in Format e p.
(** getFpTypeName – :29-41 *)
Definition fp_name (t : fptype) : string :=
  match t with HalfTy => "bvhalf" | FloatTy => "bvfloat" | DoubleTy => "bvdouble" | X86_FP80Ty => "bvlongdouble" end.
(** FP_BIT_WIDTHS – :183 *)
Definition fp_types : list fptype := [HalfTy; FloatTy; DoubleTy; X86_FP80Ty].
Definition fp_of_name (s : string) : option fptype := find (fun t => String.eqb (fp_name t) s) fp_types.
(** :175-176 *)
Definition integer_sizes : list Z := [1; 5; 6; 8; 16; 24; 32; 33; 40; 48; 56; 64; 80; 88; 96; 128; 160; 256].
(** getIntTypeName, getBvTypeName – :15-22; SmackRep::intType – SmackRep.cpp:161-166 *)
Definition int_name (bit_precise : bool) (w : Z) : string := ((if bit_precise then "bv" else "i") ++ dec w)%string.
Definition int_of_name (bit_precise : bool) (s : string) : option Z := find (fun w => String.eqb (int_name bit_precise w) s) integer_sizes.
(** indexedName – $f.t1.t2 *)
Definition indexed (f : string) (ts : list string) : string := fold_left (fun a t => (a ++ "." ++ t)%string) ts f.
(** The parts of such a name. *)
Fixpoint split_dots (s : string) : list string :=
  match s with
  | EmptyString => [""]
  | String c s' =>
      match split_dots s' with
      | [] => []
      | x :: l => if Ascii.eqb c "." then "" :: x :: l else String c x :: l
      end
  end.

(** What SMT-LIB leaves open: which of two zeros of opposite sign fp.min and fp.max
    yield; the bit-vector for a number out of its range; and the values of
    uninterpreted functions.  Square roots and fused multiply-add are not spelt out. *)
Record solver := Solver {
  o_zero : string -> fptype -> bool -> bool;
  o_range : string -> Z -> fpval -> Z;
  o_sqrt : format -> rounding -> fpval -> fpval;
  o_fma : format -> rounding -> fpval -> fpval -> fpval -> fpval;
  o_bits : fptype -> fpval -> Z;                            (* $bitcast.bvfloat.bv32, … *)
  o_fp_of_bits : fptype -> Z -> fpval;                      (* $bitcast.i32.bvfloat, … *)
  o_to_int : string -> fptype -> Z -> rounding -> fpval -> Z;
  o_of_int : string -> fptype -> Z -> rounding -> Z -> fpval }.

(** fpAttrTable, the arithmetic operations – :1325-1336 *)
Definition arithAttr : list (string * string) :=
  [("abs", "fp.abs"); ("round", "fp.roundToIntegral"); ("min", "fp.min"); ("max", "fp.max"); ("sqrt", "fp.sqrt"); ("fadd", "fp.add"); ("fsub", "fp.sub");
   ("fmul", "fp.mul"); ("fdiv", "fp.div"); ("frem", "fp.rem"); ("fma", "fp.fma"); ("fneg", "fp.neg")].
(** fpArithOps – :1388-1392: arity, and whether there is a rounding mode *)
Definition fpArithOps : list (string * (nat * bool)) :=
  [("abs", (1%nat, false)); ("round", (1%nat, true)); ("sqrt", (1%nat, true)); ("fadd", (2%nat, true)); ("fsub", (2%nat, true)); ("fmul", (2%nat, true));
   ("fdiv", (2%nat, true)); ("frem", (2%nat, false)); ("min", (2%nat, false)); ("max", (2%nat, false)); ("fma", (3%nat, true)); ("fneg", (1%nat, false))].

(** The operations of SMT-LIB *)
Definition fp_select (o : solver) (attr : string) (t : fptype) (x y : fpval) (first : bool) : fpval :=
  match x, y with
  | NaN, _ => y
  | _, NaN => x
  | _, _ => if is_zero x && is_zero y && xorb (sign x) (sign y) then Fin (o_zero o attr t (sign x)) 0 0 else if first then x else y
  end.
Definition smt_arith (o : solver) (t : fptype) (attr : string) (rm : option rounding) (args : list fpval) : option fpval :=
  let f := layout t in
  match rm, args with
  | None, [x] =>
      if String.eqb attr "fp.abs" then Some (fp_abs x) else if String.eqb attr "fp.neg" then Some (fp_neg x) else None
  | None, [x; y] =>
      if String.eqb attr "fp.rem" then Some (fp_remainder x y)
      else if String.eqb attr "fp.min" then Some (fp_select o attr t x y (negb (fp_lt y x)))
      else if String.eqb attr "fp.max" then Some (fp_select o attr t x y (negb (fp_lt x y)))
      else None
  | Some rm, [x] =>
      if String.eqb attr "fp.roundToIntegral" then Some (fp_round_integral rm x)
      else if String.eqb attr "fp.sqrt" then Some (o_sqrt o f rm x)
      else None
  | Some rm, [x; y] =>
      if String.eqb attr "fp.add" then Some (fp_add f rm x y)
      else if String.eqb attr "fp.sub" then Some (fp_sub f rm x y)
      else if String.eqb attr "fp.mul" then Some (fp_mul f rm x y)
      else if String.eqb attr "fp.div" then Some (fp_div f rm x y)
      else None
  | Some rm, [x; y; z] => if String.eqb attr "fp.fma" then Some (o_fma o f rm x y z) else None
  | _, _ => None
  end.
Definition smt_class (t : fptype) (attr : string) (x : fpval) : option bool :=
  let f := layout t in
  if String.eqb attr "fp.isNormal" then Some (is_normal f x)
  else if String.eqb attr "fp.isSubnormal" then Some (is_subnormal f x)
  else if String.eqb attr "fp.isZero" then Some (is_zero x)
  else if String.eqb attr "fp.isInfinite" then Some (is_inf x)
  else if String.eqb attr "fp.isNaN" then Some (is_nan x)
  else if String.eqb attr "fp.isNegative" then Some (negb (is_nan x) && sign x)
  else if String.eqb attr "fp.isPositive" then Some (negb (is_nan x) && negb (sign x))
  else None.

(** Arguments that are all of type [t]. *)
Fixpoint fp_args (t : fptype) (args : list fval) : option (list fpval) :=
  match args with
  | [] => Some []
  | VF t' x :: args' => if fptype_eqb t t' then option_map (cons x) (fp_args t args') else None
  | _ => None
  end.
Definition take_rmode (rm : bool) (args : list fval) : option (option rounding * list fval) :=
  if rm then match args with VR r :: args' => Some (Some r, args') | _ => None end else Some (None, args).

(** getModeledFpFunc – :1359-1375 *)
Definition call_arith (o : solver) (op : string) (t : fptype) (args : list fval) : option fval :=
  match assoc op fpArithOps, assoc op arithAttr with
  | Some (arity, mode), Some attr =>
      match take_rmode mode args with
      | Some (rm, args') =>
          match fp_args t args' with
          | Some xs => if Nat.eqb (List.length xs) arity then option_map (VF t) (smt_arith o t attr rm xs) else None
          | None => None
          end
      | None => None
      end
  | _, _ => None
  end.
(** FpPred::getModeledFpFunc – :1411-1450: $p.t.bool *)
Definition call_class (op : string) (t : fptype) (args : list fval) : option fval :=
  match fp_args t args with
  | Some [x] => match assoc op fpPredTable, assoc op fpAttrTable with Some (1%nat, true), Some attr => option_map VB (smt_class t attr x) | _, _ => None end
  | Some [x; y] => option_map VB (call_pred 5 (String "$" op) [x; y])
  | _ => None
  end.
(** generateConvOps – :1553-1575: (_ to_fp e p); widening is $fpext, narrowing
    $fptrunc *)
Definition call_conv (op : string) (t t' : fptype) (args : list fval) : option fval :=
  if String.eqb op (if fp_width t <? fp_width t' then "fpext" else "fptrunc") && negb (fptype_eqb t t') then
    match args with
    | [VR rm; VF u x] => if fptype_eqb u t then Some (VF t' (fp_convert (layout t') rm x)) else None
    | _ => None
    end
  else None.
(** fpIntConvTable – :1680-1691 and getModeledFpFunc – :1612-1641.  (_ fp.to_sbv w) of
    an integer out of range is left open. *)
Definition fits (signed : bool) (w n : Z) : bool :=
  if signed then (- 2 ^ (w - 1) <=? n) && (n <? 2 ^ (w - 1)) else (0 <=? n) && (n <? 2 ^ w).
Definition to_bv (o : solver) (op : string) (signed : bool) (w : Z) (rm : rounding) (x : fpval) : Z :=
  match fp_to_int rm x with
  | Some n => if fits signed w n then n mod 2 ^ w else o_range o op w x
  | None => o_range o op w x
  end.
Definition of_bv (signed : bool) (w n : Z) : Z := if signed && (2 ^ (w - 1) <=? n) then n - 2 ^ w else n.
Definition call_to_int (o : solver) (bit_precise : bool) (op : string) (t : fptype) (w : Z) (args : list fval) : option fval :=
  match args with
  | [VR rm; VF u x] =>
      if fptype_eqb u t then
        if String.eqb op "fp2si" then Some (VI w (if bit_precise then to_bv o op true w rm x else o_to_int o op t w rm x))
        else if String.eqb op "fp2ui" then Some (VI w (if bit_precise then to_bv o op false w rm x else o_to_int o op t w rm x))
        else None
      else None
  | [VF u x] => if fptype_eqb u t && String.eqb op "bitcast" && (fp_width t =? w) then Some (VI w (o_bits o t x)) else None
  | _ => None
  end.
Definition call_of_int (o : solver) (bit_precise : bool) (op : string) (w : Z) (t : fptype) (args : list fval) : option fval :=
  match args with
  | [VR rm; VI v n] =>
      if v =? w then
        if String.eqb op "si2fp" then Some (VF t (if bit_precise then fp_of_int (layout t) rm (of_bv true w n) else o_of_int o op t w rm n))
        else if String.eqb op "ui2fp" then Some (VF t (if bit_precise then fp_of_int (layout t) rm (of_bv false w n) else o_of_int o op t w rm n))
        else None
      else None
  | [VI v n] =>
      if (v =? w) && String.eqb op "bitcast" && (fp_width t =? w) then
        Some (VF t (if bit_precise then ieee (f_E (layout t)) (f_p (layout t)) n else o_fp_of_bits o t n))
      else None
  | _ => None
  end.

(** A call of the function with this name. *)
Definition fp_call (o : solver) (bit_precise : bool) (fn : string) (args : list fval) : option fval :=
  match split_dots fn with
  | [String "$" op; a] => match fp_of_name a with Some t => call_arith o op t args | None => None end
  | [String "$" op; a; b] =>
      match fp_of_name a, fp_of_name b, int_of_name bit_precise a, int_of_name bit_precise b with
      | Some t, None, _, None => if String.eqb b "bool" then call_class op t args else None
      | Some t, Some t', _, _ => call_conv op t t' args
      | Some t, None, _, Some w => call_to_int o bit_precise op t w args
      | None, Some t, Some w, _ => call_of_int o bit_precise op w t args
      | _, _, _, _ => None
      end
  | _ => None
  end.

(** ** Instructions *)
Inductive fbin := FAdd | FSub | FMul | FDiv | FRem.
Inductive fcast := FPTrunc | FPExt | FPToUI | FPToSI | UIToFP | SIToFP.
(** INSTRUCTION_TABLE – lib/smack/Naming.cpp:98-131 *)
Definition fbin_name (b : fbin) : string := match b with FAdd => "$fadd" | FSub => "$fsub" | FMul => "$fmul" | FDiv => "$fdiv" | FRem => "$frem" end.
Definition fcast_name (c : fcast) : string :=
  match c with FPTrunc => "$fptrunc" | FPExt => "$fpext" | FPToUI => "$fp2ui" | FPToSI => "$fp2si" | UIToFP => "$ui2fp" | SIToFP => "$si2fp" end.
(** Terms the translation makes; $rmode is the variable Naming::RMODE_VAR. *)
Inductive fterm := TVal (v : fval) | TRmode | TFun (fn : string) (args : list fterm).
Inductive vty := TyF (t : fptype) | TyI (w : Z).
(** SmackRep::type – SmackRep.cpp:214-262, for these types *)
Definition ty_name (bit_precise : bool) (t : vty) : string := match t with TyF t => fp_name t | TyI w => int_name bit_precise w end.
(** isFpArithOp – :910-913 *)
Definition isFpArithOp (b : fbin) : bool := match b with FAdd | FSub | FMul | FDiv => true | FRem => false end.
(** bop – :921-946, with --float *)
Definition tr_bop (b : fbin) (t : fptype) (l r : fterm) : fterm :=
  if isFpArithOp b then TFun (indexed (fbin_name b) [fp_name t]) [TRmode; l; r] else TFun (indexed (fbin_name b) [fp_name t]) [l; r].
(** uop – :957-960 *)
Definition tr_fneg (t : fptype) (e : fterm) : fterm := TFun (indexed "$fneg" [fp_name t]) [e].
(** cast – :878-900, with --float *)
Definition tr_cast (bit_precise : bool) (c : fcast) (src dst : vty) (e : fterm) : fterm :=
  let fn := indexed (fcast_name c) [ty_name bit_precise src; ty_name bit_precise dst] in
  match c with
  | FPTrunc | FPExt | SIToFP | UIToFP => TFun fn [TRmode; e]
  | FPToSI | FPToUI => TFun fn [TVal (VR RTZ); e]
  end.
(** The intrinsics – SmackInstGenerator.cpp:1119-1208, :968-978; result and arguments
    have type [t] *)
Inductive fintr := I_fabs | I_sqrt | I_fma | I_maxnum | I_minnum | I_ceil | I_floor | I_nearbyint | I_rint | I_round | I_trunc.
Definition tr_intrinsic (i : fintr) (t : fptype) (args : list fterm) : fterm :=
  let arg n := nth n args TRmode in
  let un fn := TFun (indexed fn [fp_name t]) [arg 0%nat] in
  let bin fn := TFun (indexed fn [fp_name t]) [arg 0%nat; arg 1%nat] in
  let rnd rm := TFun (indexed "$round" [fp_name t]) [rm; arg 0%nat] in
  match i with
  | I_fabs => un "$abs"
  | I_sqrt => un "$sqrt"
  | I_fma => TFun (indexed "$fma" [fp_name t]) [arg 0%nat; arg 1%nat; arg 2%nat]
  | I_maxnum => bin "$max"
  | I_minnum => bin "$min"
  | I_ceil => rnd (TVal (VR RTP))
  | I_floor => rnd (TVal (VR RTN))
  | I_nearbyint | I_rint => rnd TRmode
  | I_round => rnd (TVal (VR RNA))
  | I_trunc => rnd (TVal (VR RTZ))
  end.

(** f16UpCast – SmackInstGenerator.cpp:935-950, with --float and --bit-precise *)
Definition tr_from_fp16 (t : fptype) (i : fterm) : fterm :=
  TFun (indexed "$fpext" [fp_name HalfTy; fp_name t]) [TRmode; TFun (indexed "$bitcast" [int_name true 16; fp_name HalfTy]) [i]].

(** The value of a term while $rmode is [rm]. *)
Fixpoint eval_term (o : solver) (bit_precise : bool) (rm : rounding) (e : fterm) : option fval :=
  match e with
  | TVal v => Some v
  | TRmode => Some (VR rm)
  | TFun fn args =>
      match fold_right (fun a acc => match eval_term o bit_precise rm a, acc with Some v, Some l => Some (v :: l) | _, _ => None end) (Some []) args with
      | Some vs => fp_call o bit_precise fn vs
      | None => None
      end
  end.
