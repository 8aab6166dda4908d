(** The functions __VERIFIER_nondet_* of share/smack/lib/smack.c:1414-1604.

    Each is modelled as the LLVM code clang -O0 emits for it: calls to
    __SMACK_nondet_T (declared without body: an unconstrained result), promoted
    comparisons, the conjunctions in the arguments of __VERIFIER_assume, and the
    result.  Simplifications: local variables are registers (promoted by mem2reg,
    llvm2bpl.cpp:164-251); the branch and phi of && and || are written as the
    select they compute; the wrappers uchar, ushort, uint and ulong are inlined. *)
From Coq Require Import ZArith List String Bool.
From Verif.Spec Require Import LLVMInt IR Encodings.
From Verif.Model Require Import Boogie PreludeInt SmackRepInt.
Import ListNotations.
Open Scope string_scope.
Open Scope list_scope.
Open Scope Z_scope.

Record nondet_fn := NondetFn {
  nf_calls : list (string * Z);   (* registers assigned by __SMACK_nondet_T, with width *)
  nf_code : code;
  nf_assumes : list string;       (* i32 arguments of __VERIFIER_assume *)
  nf_result : value }.

(** limits.h *)
Definition SCHAR_MIN := -128. Definition SCHAR_MAX := 127. Definition UCHAR_MAX := 255.
Definition SHRT_MIN := -32768. Definition SHRT_MAX := 32767. Definition USHRT_MAX := 65535.
Definition INT_MIN := -2147483648. Definition INT_MAX := 2147483647. Definition UINT_MAX := 4294967295.
Definition LONG_MIN := -9223372036854775808. Definition LONG_MAX := 9223372036854775807.
Definition ULONG_MAX := 18446744073709551615.

Definition const (n c : Z) : value := VConst n (pat n c).

(** [a && b], [a || b] of i1 registers, converted to int. *)
Definition land_int (t z a b : string) : code :=
  [(t, ISelect 1 (VReg 1 a) (VReg 1 b) (const 1 0)); (z, ICast ZExt 1 32 (VReg 1 t))].
Definition lor_int (t z a b : string) : code :=
  [(t, ISelect 1 (VReg 1 a) (const 1 1) (VReg 1 b)); (z, ICast ZExt 1 32 (VReg 1 t))].

(** smack.c:1414-1459: types narrower than int are promoted to int (by sign or
    zero extension) and compared as int. *)
Definition nondet_narrow (ext : castop) (n lo hi : Z) : nondet_fn :=
  NondetFn [("x", n)]
    ([("c1", ICast ext n 32 (VReg n "x")); ("p", IIcmp SGE 32 (VReg 32 "c1") (const 32 lo));
      ("c2", ICast ext n 32 (VReg n "x")); ("q", IIcmp SLE 32 (VReg 32 "c2") (const 32 hi))]
     ++ land_int "t" "z" "p" "q")
    ["z"] (VReg n "x").

(** smack.c:1461-1471, 1491-1515, 1537-1561 *)
Definition nondet_signed (n lo hi : Z) : nondet_fn :=
  NondetFn [("x", n)]
    ([("p", IIcmp SGE n (VReg n "x") (const n lo)); ("q", IIcmp SLE n (VReg n "x") (const n hi))]
     ++ land_int "t" "z" "p" "q")
    ["z"] (VReg n "x").

(** smack.c:1473-1489, 1517-1535, 1563-1579: bounds held in nondeterministic
    variables so that no unsigned comparison with a constant appears on x. *)
Definition nondet_unsigned (n umax : Z) : nondet_fn :=
  NondetFn [("x", n); ("min", n); ("max", n)]
    ([("a", IIcmp EQ n (VReg n "min") (const n 0)); ("b", IIcmp UGE n (VReg n "max") (const n umax));
      ("c", IIcmp ULE n (VReg n "max") (const n umax));
      ("ab", ISelect 1 (VReg 1 "a") (VReg 1 "b") (const 1 0))]
     ++ land_int "abc" "z1" "ab" "c"
     ++ [("p", IIcmp UGE n (VReg n "x") (VReg n "min")); ("q", IIcmp ULE n (VReg n "x") (VReg n "max"))]
     ++ land_int "t" "z2" "p" "q")
    ["z1"; "z2"] (VReg n "x").

(** smack.c:1583-1587: (_Bool) of an int is the test against 0; a _Bool is
    stored as i8 and read back as i1. *)
Definition nondet_bool : nondet_fn :=
  NondetFn [("n", 32)]
    ([("p", IIcmp SGE 32 (VReg 32 "n") (const 32 INT_MIN)); ("q", IIcmp SLE 32 (VReg 32 "n") (const 32 INT_MAX))]
     ++ land_int "t" "z1" "p" "q"
     ++ [("tobool", IIcmp NE 32 (VReg 32 "n") (const 32 0)); ("x", ICast ZExt 1 8 (VReg 1 "tobool"));
         ("b1", ICast Trunc 8 1 (VReg 8 "x")); ("conv1", ICast ZExt 1 32 (VReg 1 "b1"));
         ("e0", IIcmp EQ 32 (VReg 32 "conv1") (const 32 0));
         ("b2", ICast Trunc 8 1 (VReg 8 "x")); ("conv2", ICast ZExt 1 32 (VReg 1 "b2"));
         ("e1", IIcmp EQ 32 (VReg 32 "conv2") (const 32 1))]
     ++ lor_int "o" "z2" "e0" "e1"
     ++ [("r", ICast Trunc 8 1 (VReg 8 "x"))])
    ["z1"; "z2"] (VReg 1 "r").

(** smack.c:1414-1602, in order; names after "__VERIFIER_nondet_". *)
Definition nondet_functions : list (string * nondet_fn) :=
  [ ("char", nondet_narrow SExt 8 SCHAR_MIN SCHAR_MAX);
    ("signed_char", nondet_narrow SExt 8 SCHAR_MIN SCHAR_MAX);
    ("unsigned_char", nondet_narrow ZExt 8 0 UCHAR_MAX);
    ("short", nondet_narrow SExt 16 SHRT_MIN SHRT_MAX);
    ("signed_short", nondet_narrow SExt 16 SHRT_MIN SHRT_MAX);
    ("signed_short_int", nondet_narrow SExt 16 SHRT_MIN SHRT_MAX);
    ("unsigned_short", nondet_narrow ZExt 16 0 USHRT_MAX);
    ("unsigned_short_int", nondet_narrow ZExt 16 0 USHRT_MAX);
    ("int", nondet_signed 32 INT_MIN INT_MAX);
    ("signed_int", nondet_signed 32 INT_MIN INT_MAX);
    ("unsigned", nondet_unsigned 32 UINT_MAX);
    ("unsigned_int", nondet_unsigned 32 UINT_MAX);
    ("long", nondet_signed 64 LONG_MIN LONG_MAX);
    ("long_int", nondet_signed 64 LONG_MIN LONG_MAX);
    ("signed_long", nondet_signed 64 LONG_MIN LONG_MAX);
    ("signed_long_int", nondet_signed 64 LONG_MIN LONG_MAX);
    ("unsigned_long", nondet_unsigned 64 ULONG_MAX);
    ("unsigned_long_int", nondet_unsigned 64 ULONG_MAX);
    ("long_long", nondet_signed 64 LONG_MIN LONG_MAX);
    ("long_long_int", nondet_signed 64 LONG_MIN LONG_MAX);
    ("signed_long_long", nondet_signed 64 LONG_MIN LONG_MAX);
    ("signed_long_long_int", nondet_signed 64 LONG_MIN LONG_MAX);
    ("unsigned_long_long", nondet_unsigned 64 ULONG_MAX);
    ("unsigned_long_long_int", nondet_unsigned 64 ULONG_MAX);
    ("bool", nondet_bool);
    ("uchar", nondet_narrow ZExt 8 0 UCHAR_MAX);
    ("ushort", nondet_narrow ZExt 16 0 USHRT_MAX);
    ("uint", nondet_unsigned 32 UINT_MAX);
    ("ulong", nondet_unsigned 64 ULONG_MAX) ].

(** A result of a procedure without body, of Boogie type iN or bvN. *)
Definition unconstrained (enc : encoding) (n : Z) (v : val) : Prop :=
  match enc with
  | BitVector => exists a, v = VBv n a /\ 0 <= a < 2 ^ n
  | _ => exists z, v = VInt z
  end.

(** smack.c:43-47: assume @ != $0, where $0 is the i32 0 (Prelude.cpp:1094-1110). *)
Definition assume_holds (enc : encoding) (v : val) : Prop :=
  eval_bin BNeq v (match enc with BitVector => VBv 32 0 | _ => VInt 0 end) = Some (VBool true).

(** The values the translated function can return. *)
Definition returns (enc : encoding) (bvptr ndebug : bool) (I : interp) (f : nondet_fn) (v : val) : Prop :=
  exists rb l e fuel rb',
    (forall x n, In (x, n) (nf_calls f) -> exists w, rb x = Some w /\ unconstrained enc n w) /\
    trans_code (flags enc bvptr) ndebug (nf_code f) = Some l /\
    run_assigns (preludeInt (flags enc bvptr)) I fuel rb l = Some rb' /\
    (forall z, In z (nf_assumes f) -> exists w, rb' z = Some w /\ assume_holds enc w) /\
    expr_of (flags enc bvptr) ndebug (nf_result f) false false = Some e /\
    eval (preludeInt (flags enc bvptr)) I fuel rb' e = Some v.
