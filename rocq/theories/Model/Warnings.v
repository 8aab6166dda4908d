(** Warnings about approximations – lib/smack/SmackWarnings.cpp,
    include/smack/SmackWarnings.h, and the places that issue them in
    lib/smack/SmackInstGenerator.cpp and SmackRep.cpp.

    Not modelled: the colour escapes around "SMACK warning: " (a terminal only)
    and the text of i2s.  Vector operands: [getIntegerBitWidth] in
    visitBinaryOperator is an assertion failure for them and not modelled. *)
From Coq Require Import ZArith List String Bool.
From Verif.Spec Require Import LLVMInt IR Encodings Template Warnings.
From Verif.Model Require Import Boogie BoogieAst PreludeInt SmackRepInt Intrinsics.
From Verif.Model Require MemIntrinsics.
Import ListNotations.
Open Scope string_scope.
Open Scope list_scope.
Open Scope Z_scope.

(** SmackWarnings.h:24-28 *)
Definition Silent : Z := 0.
Definition Approximate : Z := 10.
Definition Info : Z := 20.
(** SmackWarnings.h:30 *)
Inductive FlagRelation := AndR | OrR.

(** SmackOptions.cpp:46-47, 57-60, 70-71: the options of llvm2bpl used as flags. *)
Inductive flag := BitPrecise | RewriteBitwiseOps | FloatEnabled.
Definition ArgStr (f : flag) : string :=
  match f with BitPrecise => "bit-precise" | RewriteBitwiseOps => "rewrite-bitwise-ops" | FloatEnabled => "float" end.

(** The command line of llvm2bpl, as far as it matters here. *)
Record cmdline := Cmdline { warn_type : Z; flags_given : list flag }.

(** share/smack/top.py:314-319 (--warn), 713-762 llvm_to_bpl, and
    SmackOptions.cpp:20-30 (the values of -warn-type). *)
Definition llvm_to_bpl (u : settings) : cmdline :=
  Cmdline (match verbose u with Quiet => Silent | Approximations => Approximate | Information => Info end)
    ((match integers u with BitVector => [BitPrecise] | _ => [] end) ++
     (if rewrites u then [RewriteBitwiseOps] else []) ++
     (if floats u then [FloatEnabled] else [])).

Section Warnings.
  Context (C : cmdline).

  Definition flag_eqb (a b : flag) : bool :=
    match a, b with
    | BitPrecise, BitPrecise | RewriteBitwiseOps, RewriteBitwiseOps | FloatEnabled, FloatEnabled => true
    | _, _ => false
    end.
  (** the value of a cl::opt<bool> *)
  Definition is_set (f : flag) : bool := existsb (flag_eqb f) (flags_given C).

  (** SmackWarnings.cpp:26-28 *)
  Definition isSufficientWarningLevel (level : Z) : bool := level <=? warn_type C.
  (** SmackWarnings.cpp:30-38 *)
  Definition getUnsetFlags (requiredFlags : list flag) : list flag := filter (fun f => negb (is_set f)) requiredFlags.
  (** SmackWarnings.cpp:40-45 *)
  Definition isSatisfied (requiredFlags : list flag) (rel : FlagRelation) : bool :=
    let unsetFlags := getUnsetFlags requiredFlags in
    match rel with
    | AndR => match unsetFlags with [] => true | _ => false end
    | OrR => Nat.ltb (List.length unsetFlags) (List.length requiredFlags)
    end.
  (** SmackWarnings.cpp:47-56 *)
  Definition getFlagStr (flags : list flag) : string :=
    fold_left (fun ret f => ret +++ (if String.eqb (ArgStr f) "bit-precise" then "--integer-encoding=bit-vector " else "--" +++ ArgStr f +++ " "))
      flags "{ " +++ "}".

  (** What a visitor does: lines on stderr and statements in the current block. *)
  Inductive stm := SComment (text : string) | SSkip | SAssign (x : string) (e : expr) | SCall (x f : string) (args : list string)
                 | SOther.
  Record effect := Effect { printed : list string; emitted : list stm }.
  Definition nothing : effect := Effect [] [].
  Definition and_then (a b : effect) : effect := Effect (printed a ++ printed b) (emitted a ++ emitted b).
  Definition emit (s : stm) : effect := Effect [] [s].

  (** SmackWarnings.cpp:13-24; [loc]: file, line and column of the instruction's
      debug metadata, if it has any. *)
  Definition location := option (string * Z * Z).
  Definition buildDebugInfo (loc : location) : string :=
    match loc with
    | Some (file, line, col) => file +++ ":" +++ dec line +++ ":" +++ dec col +++ ": "
    | None => ""
    end.

  (** SmackWarnings.cpp:87-108; [block] false: currBlock is null. *)
  Definition processApproximate (description : string) (unsetFlags : list flag) (block : bool) (loc : location)
      (rel : FlagRelation) : effect :=
    if negb (isSufficientWarningLevel Approximate) then nothing
    else
      let beginning := buildDebugInfo loc in
      let fin := description +++ ";" in
      let hint := match unsetFlags with
                  | [] => ""
                  | _ => " try adding " +++ (match rel with AndR => "all the " | OrR => "any " end) +++
                         "flag(s) in: " +++ getFlagStr unsetFlags
                  end in
      Effect [beginning +++ "SMACK warning: " +++ fin +++ hint]
             (if block then [SComment (beginning +++ "SMACK warning: " +++ fin)] else []).

  (** SmackWarnings.cpp:58-64 *)
  Definition warnApproximate (name : string) (block : bool) (loc : location) : effect :=
    processApproximate ("approximating " +++ name +++ " (can lead to both false alarms and missed detections)") [] block loc AndR.
  (** SmackWarnings.cpp:66-73 *)
  Definition warnOverApproximate_unset (name : string) (unsetFlags : list flag) (loc : location) (rel : FlagRelation) : effect :=
    processApproximate ("overapproximating " +++ name +++ " (can lead to false alarms)") unsetFlags true loc rel.
  (** SmackWarnings.cpp:75-85 *)
  Definition warnOverApproximate (name : string) (requiredFlags : list flag) (loc : location) (rel : FlagRelation) : effect :=
    if isSatisfied requiredFlags rel then nothing
    else warnOverApproximate_unset name (getUnsetFlags requiredFlags) loc rel.
  (** SmackWarnings.cpp:110-114 *)
  Definition warnInfo (info : string) : effect :=
    if negb (isSufficientWarningLevel Info) then nothing else Effect ["warning: " +++ info] [].

  (** SmackRep.cpp:900-902 (isShift, isBitwiseLogicOp) *)
  Definition isBitwiseOp (op : binop) : bool :=
    match op with Shl | LShr | AShr | And | Or | Xor => true | _ => false end.
  (** LLVM's Instruction::getOpcodeName *)
  Definition getOpcodeName (op : binop) : string :=
    match op with
    | Add => "add" | Sub => "sub" | Mul => "mul" | UDiv => "udiv" | SDiv => "sdiv" | URem => "urem" | SRem => "srem"
    | Shl => "shl" | LShr => "lshr" | AShr => "ashr" | And => "and" | Or => "or" | Xor => "xor"
    end.
  (** SmackInstGenerator.cpp:339-361 visitBinaryOperator on integers; [e] is
      [rep->bop] (inst_expr of Model/SmackRepInt.v). *)
  Definition visitBinaryOperator (loc : location) (op : binop) (n : Z) (x : string) (e : expr) : effect :=
    and_then (if isBitwiseOp op && (1 <? n)
              then warnOverApproximate ("bitwise operation " +++ getOpcodeName op) [BitPrecise] loc AndR else nothing)
             (emit (SAssign x e)).
  (** SmackRep.cpp:908-911 *)
  Definition isFpArithOp (op : float_op) : bool := match op with FAdd | FSub | FMul | FDiv => true | FRem => false end.
  Definition float_name (op : float_op) : string :=
    match op with FAdd => "fadd" | FSub => "fsub" | FMul => "fmul" | FDiv => "fdiv" | FRem => "frem" end.
  (** SmackInstGenerator.cpp:339-361 on floating-point operands (the expression is Model/FloatOps.v tr_bop). *)
  Definition visitFloatOperator (loc : location) (op : float_op) : effect :=
    and_then (if isFpArithOp op
              then warnOverApproximate ("floating-point operation " +++ float_name op) [FloatEnabled] loc AndR else nothing)
             (emit SOther).
  (** SmackInstGenerator.cpp:367-376 *)
  Definition visitUnaryOperator (loc : location) : effect :=
    and_then (warnOverApproximate ("floating-point operation " +++ "fneg") [FloatEnabled] loc AndR) (emit SOther).

  (** SmackInstGenerator.cpp:894-912 conditionalModel; [res], [name], [args] are those of the call. *)
  Definition conditionalModel (model : effect) (requiredFlags : list flag) (rel : FlagRelation)
      (loc : location) (res name : string) (args : list string) : effect :=
    if isSatisfied requiredFlags rel then model
    else and_then (warnOverApproximate_unset ("call to " +++ name) (getUnsetFlags requiredFlags) loc rel)
                  (emit (SCall res name args)).

  (** SmackInstGenerator.cpp:889-1226 visitIntrinsicInst: [O] the integer
      options, [w] the width of the first operand [a] (second operand [b]).
      The floating-point models are [SOther] here (see Model/FloatOps.v), as is
      llvm.assume. *)
  Definition visitIntrinsicInst (O : opts) (loc : location) (i : intrinsic) (w : Z) (res name a b : string) : effect :=
    let args := [a; b] in
    let bv e := conditionalModel (emit (SAssign res e)) [BitPrecise] AndR loc res name args in
    let fp := conditionalModel (emit SOther) [FloatEnabled] AndR loc res name args in
    let f16 := conditionalModel (emit SOther) [FloatEnabled; BitPrecise] AndR loc res name args in
    match i with
    | Assume => emit SOther
    | BitReverse => bv (bitreverse w (EVar a))
    | BSwap => bv (bswap w (EVar a))
    | FromFP16 => f16
    | ToFP16 => f16
    | CtLZ => bv (ctlz w (EVar a) (EVar b) (EVar res))
    | CtPop => conditionalModel (emit (SAssign res (ctpop O w (EVar a)))) [BitPrecise; RewriteBitwiseOps] OrR loc res name args
    | CtTZ => bv (cttz w (EVar a) (EVar b) (EVar res))
    | DbgDeclare | DbgLabel => emit SSkip
    | Expect => emit (SAssign res (EVar a))
    | FAbs | FMA | Sqrt | MaxNum | MinNum | Ceil | Floor | NearbyInt | RInt | Round | TruncF => fp
    | OtherIntrinsic => and_then (warnApproximate name true loc) (emit (SCall res name args))
    end.

  (** SmackInstGenerator.cpp:633-642 (inline assembly), 820-825 visitCallBrInst,
      866-874 visitLandingPadInst. *)
  Definition visitInlineAsm (loc : location) (text : string) : effect :=
    and_then (warnApproximate ("inline asm call " +++ text) true loc) (emit SSkip).
  Definition visitCallBrInst (loc : location) (text : string) : effect :=
    and_then (warnApproximate ("callbr instruction " +++ text) true loc) (emit SSkip).
  Definition visitLandingPadInst (loc : location) : effect :=
    and_then (emit SOther) (warnApproximate "landingpad clauses" true loc).
  (** SmackRep.cpp:858-861: inline assembly as an operand. *)
  Definition exprInlineAsm : effect := warnApproximate "inline asm passed as argument" false None.

  (** SmackRep.cpp:1330-1340, 1405-1415: memcpyProc, memsetProc
      (MEMORY_INTRINSIC_THRESHOLD is 0, SmackRep.cpp:55 – see Model/MemIntrinsics.v). *)
  Definition memoryIntrinsic (length : Z) : effect :=
    warnInfo ("warning: memory intrinsic length exceeds threshold (" +++ dec MemIntrinsics.MEMORY_INTRINSIC_THRESHOLD +++ "adding quantifiers.").
End Warnings.

(** The visitor for each operation: what smack.py's run prints and emits. *)
Definition visit (u : settings) (bvptr : bool) (loc : location) (o : operation) (w : Z) (res a b : string) (e : expr) : effect :=
  let C := llvm_to_bpl u in
  match o with
  | IntegerOp op n => visitBinaryOperator C loc op n res e
  | FloatOp op => visitFloatOperator C loc op
  | FloatNeg => visitUnaryOperator C loc
  | Intrinsic i name => visitIntrinsicInst C (flags (integers u) bvptr) loc i w res name a b
  | InlineAsm text => visitInlineAsm C loc text
  | CallBr text => visitCallBrInst C loc text
  | LandingPad => visitLandingPadInst C loc
  end.
