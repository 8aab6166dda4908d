(** share/smack/lib/math.c and fenv.c, with modelled floats (--float).  The text of each
    __SMACK_code call is filled in (SmackRep::code, Model/InlineCode.v), read by Boogie's
    grammar (Spec/BoogieSyntax.v) and evaluated with the functions of the prelude
    (Model/FloatOps.v).

    Simplifications: a float argument of __SMACK_code is promoted to double, and is in
    the variable $p.x while its own value is in x; 0.0f / 0.0f in nanf is NaN
    (compilers fold it); the unions fi, di and li (include/math.h:38-66) read and write
    the bits of the number through $bitcast ([o_bits]; with bit vectors the translation
    adds the assumption [bits_ok] of Spec below at every store, SmackRep.cpp:1190-1221). *)
From Coq Require Import ZArith List String Ascii Bool.
From Verif.Spec Require Import Template BoogieSyntax IEEE FloatArith.
From Verif.Model Require Import Floats InlineCode FloatOps.
Import ListNotations.
Open Scope string_scope.
Open Scope list_scope.
Open Scope Z_scope.

(** float, double, long double *)
Inductive cty := CFloat | CDouble | CLongDouble.
Definition llvm (t : cty) : fptype := match t with CFloat => FloatTy | CDouble => DoubleTy | CLongDouble => X86_FP80Ty end.
(** The three versions of a function. *)
Definition versions (t : cty) (f d l : string) : string := match t with CFloat => f | CDouble => d | CLongDouble => l end.

(** ** __SMACK_code *)
Definition float_arg (t : cty) (x : string) : argument :=
  match t with CFloat => Arg (OtherTy 0) ("$p." ++ x)%string (Some (Float, x)) | _ => Arg (OtherTy 0) x None end.
Definition int_arg (x : string) : argument := Arg I32 x None.
(** The right-hand side of the assignment to ret *)
Definition assigned (template : string) (args : list argument) : option expr :=
  match code template args with
  | Some text =>
      let k := String.length text in
      match tokens k text with
      | Some ts => match p_stmt k ts with Some (Assign [Var x] [e], []) => if String.eqb x "ret" then Some e else None | _ => None end
      | None => None
      end
  | None => None
  end.
Definition env := list (string * fval).
Definition mode_of (m : string) : option rounding :=
  assoc m [("RNE", RNE); ("RNA", RNA); ("RTP", RTP); ("RTN", RTN); ("RTZ", RTZ)].
(** $0 and $1 – lib/smack/Prelude.cpp:1083-1098 *)
Fixpoint eval (o : solver) (bp : bool) (rm : rounding) (ev : env) (e : expr) : option fval :=
  match e with
  | Var x => if String.eqb x "$rmode" then Some (VR rm) else if String.eqb x "$0" then Some (VI 32 0) else if String.eqb x "$1" then Some (VI 32 1) else assoc x ev
  | RMode m => option_map VR (mode_of m)
  | Fun f args =>
      match fold_right (fun a acc => match eval o bp rm ev a, acc with Some v, Some l => Some (v :: l) | _, _ => None end) (Some []) args with
      | Some vs => fp_call o bp f vs
      | None => None
      end
  | Ite c a b => match eval o bp rm ev c with Some (VB v) => if v then eval o bp rm ev a else eval o bp rm ev b | _ => None end
  | _ => None
  end.
Definition bind_float (t : cty) (x : string) (v : fpval) : env :=
  match t with CFloat => [(x, VF FloatTy v); (("$p." ++ x)%string, VF DoubleTy v)] | _ => [(x, VF (llvm t) v)] end.
Definition obind {A B} (a : option A) (f : A -> option B) : option B := match a with Some x => f x | None => None end.
Notation "'do' x <- a ; b" := (obind a (fun x => b)) (at level 200, x name, a at level 100, b at level 200).

Section Lib.
Variable o : solver.
Variable bp : bool.       (* --bit-precise *)
Variable t : cty.
Variable rm : rounding.   (* $rmode *)

Definition fp_result (v : fval) : option fpval := match v with VF u x => if fptype_eqb u (llvm t) then Some x else None | _ => None end.
Definition code1f (template : string) (x : fpval) : option fpval :=
  do e <- assigned template [float_arg t "ret"; float_arg t "x"]; do v <- eval o bp rm (bind_float t "x" x) e; fp_result v.
Definition code2f (template : string) (x y : fpval) : option fpval :=
  do e <- assigned template [float_arg t "ret"; float_arg t "x"; float_arg t "y"];
  do v <- eval o bp rm (bind_float t "x" x ++ bind_float t "y" y) e; fp_result v.
Definition code1i (template : string) (x : fpval) : option Z :=
  do e <- assigned template [int_arg "ret"; float_arg t "x"];
  do v <- eval o bp rm (bind_float t "x" x) e; match v with VI 32 n => Some n | _ => None end.

(** math.c:7-11, :181-185, :355-359 *)
Definition c_fabs (x : fpval) : option fpval :=
  code1f (versions t "@f := $abs.bvfloat(@f);" "@ := $abs.bvdouble(@);" "@ := $abs.bvlongdouble(@);") x.
(** :22-26, … *)
Definition c_round (x : fpval) : option fpval :=
  code1f (versions t "@f := $round.bvfloat(RNA, @f);" "@ := $round.bvdouble(RNA, @);" "@ := $round.bvlongdouble(RNA, @);") x.
(** :30-34, … *)
Definition c_rint (x : fpval) : option fpval :=
  code1f (versions t "@f := $round.bvfloat($rmode, @f);" "@ := $round.bvdouble($rmode, @);" "@ := $round.bvlongdouble($rmode, @);") x.
(** :36-40, … *)
Definition c_nearbyint (x : fpval) : option fpval :=
  code1f (versions t "@f := $round.bvfloat($rmode, @f);" "@ := $round.bvdouble($rmode, @);" "@ := $round.bvlongdouble($rmode, @);") x.
(** :44-48, … *)
Definition c_floor (x : fpval) : option fpval :=
  code1f (versions t "@f := $round.bvfloat(RTN, @f);" "@ := $round.bvdouble(RTN, @);" "@ := $round.bvlongdouble(RTN, @);") x.
(** :50-54, … *)
Definition c_ceil (x : fpval) : option fpval :=
  code1f (versions t "@f := $round.bvfloat(RTP, @f);" "@ := $round.bvdouble(RTP, @);" "@ := $round.bvlongdouble(RTP, @);") x.
(** :56-60, … *)
Definition c_trunc (x : fpval) : option fpval :=
  code1f (versions t "@f := $round.bvfloat(RTZ, @f);" "@ := $round.bvdouble(RTZ, @);" "@ := $round.bvlongdouble(RTZ, @);") x.
(** :62-66, … *)
Definition c_sqrt (x : fpval) : option fpval :=
  code1f (versions t "@f := $sqrt.bvfloat($rmode, @f);" "@ := $sqrt.bvdouble($rmode, @);" "@ := $sqrt.bvlongdouble($rmode, @);") x.
(** :68-72, … *)
Definition c_remainder (x y : fpval) : option fpval :=
  code2f (versions t "@f := $frem.bvfloat(@f, @f);" "@ := $frem.bvdouble(@, @);" "@ := $frem.bvlongdouble(@, @);") x y.
(** :74-84, … *)
Definition c_fmin (x y : fpval) : option fpval :=
  code2f (versions t "@f := $min.bvfloat(@f, @f);" "@ := $min.bvdouble(@, @);" "@ := $min.bvlongdouble(@, @);") x y.
Definition c_fmax (x y : fpval) : option fpval :=
  code2f (versions t "@f := $max.bvfloat(@f, @f);" "@ := $max.bvdouble(@, @);" "@ := $max.bvlongdouble(@, @);") x y.
(** The conversion to long in lround and lrint – :28, :42, … *)
Definition to_long (x : fpval) : option Z :=
  match eval_term o bp rm (tr_cast bp FPToSI (TyF (llvm t)) (TyI 64) (TVal (VF (llvm t) x))) with Some (VI 64 n) => Some (if bp then of_bv true 64 n else n) | _ => None end.
Definition c_lround (x : fpval) : option Z := do r <- c_round x; to_long r.
Definition c_lrint (x : fpval) : option Z := do r <- c_rint x; to_long r.

(** Classification – :123-156, :297-330, :471-505 *)
Definition c_isnormal (x : fpval) : option Z :=
  code1i (versions t "@ := if $isnormal.bvfloat.bool(@f) then $1 else $0;" "@ := if $isnormal.bvdouble.bool(@) then $1 else $0;" "@ := if $isnormal.bvlongdouble.bool(@) then $1 else $0;") x.
Definition c_issubnormal (x : fpval) : option Z :=
  code1i (versions t "@ := if $issubnormal.bvfloat.bool(@f) then $1 else $0;" "@ := if $issubnormal.bvdouble.bool(@) then $1 else $0;" "@ := if $issubnormal.bvlongdouble.bool(@) then $1 else $0;") x.
Definition c_iszero (x : fpval) : option Z :=
  code1i (versions t "@ := if $iszero.bvfloat.bool(@f) then $1 else $0;" "@ := if $iszero.bvdouble.bool(@) then $1 else $0;" "@ := if $iszero.bvlongdouble.bool(@) then $1 else $0;") x.
Definition c_isinf (x : fpval) : option Z :=
  code1i (versions t "@ := if $isinfinite.bvfloat.bool(@f) then $1 else $0;" "@ := if $isinfinite.bvdouble.bool(@) then $1 else $0;" "@ := if $isinfinite.bvlongdouble.bool(@) then $1 else $0;") x.
Definition c_isnan (x : fpval) : option Z :=
  code1i (versions t "@ := if $isnan.bvfloat.bool(@f) then $1 else $0;" "@ := if $isnan.bvdouble.bool(@) then $1 else $0;" "@ := if $isnan.bvlongdouble.bool(@) then $1 else $0;") x.
(** int as a condition *)
Definition truth (n : Z) : bool := negb (n =? 0).
(** The union: bits [w-1] is the sign – :158-162, … *)
Definition top : Z := 2 ^ (fp_width (llvm t) - 1).
Definition c_signbit (x : fpval) : Z := (o_bits o (llvm t) x / top) mod 2.
(** :164-174, … *)
Definition c_fpclassify (x : fpval) : option Z :=
  do a <- c_isnan x; if truth a then Some 0 else
  do b <- c_isinf x; if truth b then Some 1 else
  do c <- c_iszero x; if truth c then Some 2 else
  do d <- c_issubnormal x; if truth d then Some 3 else Some 4.
(** :176 *)
Definition c_finite (x : fpval) : option Z :=
  do a <- c_isinf x; if truth a then Some 0 else do b <- c_isnan x; Some (if truth b then 0 else 1).
(** :120 *)
Definition c_nan : fpval := NaN.

(** Reading the union after its sign bit was inverted *)
Definition of_bits (b : Z) : fpval := if bp then ieee (f_E (layout (llvm t))) (f_p (layout (llvm t))) b else o_fp_of_bits o (llvm t) b.
(** :110-118, … *)
Definition c_copysign (x y : fpval) : fpval :=
  if negb (c_signbit x =? c_signbit y) then of_bits (Z.lxor (o_bits o (llvm t) x) top) else x.
(** :13-20, … *)
Definition c_fdim (x y : fpval) : option fpval :=
  do a <- c_isnan x; do b <- c_isnan y;
  if truth a || truth b then Some c_nan else
  do val <- code2f (versions t "@f := $fsub.bvfloat($rmode, @f, @f);" "@ := $fsub.bvdouble($rmode, @, @);" "@ := $fsub.bvlongdouble($rmode, @, @);") x y;
  c_fmax (Fin false 0 0) val.
(** :86-97, … *)
Definition c_fmod (x y : fpval) : option fpval :=
  do a <- c_isnan x; do b <- c_isnan y; do c <- c_isinf x; do d <- c_iszero y;
  if truth a || truth b || truth c || truth d then Some c_nan else
  do y1 <- c_fabs y; do x1 <- c_fabs x; do ret <- c_remainder x1 y1;
  do ret1 <- (if truth (c_signbit ret) then
                code2f (versions t "@f := $fadd.bvfloat($rmode, @f, @f);" "@ := $fadd.bvdouble($rmode, @, @);" "@ := $fadd.bvlongdouble($rmode, @, @);") ret y1
              else Some ret);
  Some (c_copysign ret1 x).
(** :99-108, …: *iPart and the result *)
Definition c_modf (x : fpval) : option (fpval * fpval) :=
  do a <- c_isinf x;
  do p <- (if truth a then Some (x, Fin false 0 0)
           else do i <- c_trunc x;
                do f <- code2f (versions t "@f := $fsub.bvfloat($rmode, @f, @f);" "@ := $fsub.bvdouble($rmode, @, @);" "@ := $fsub.bvlongdouble($rmode, @, @);") x i; Some (i, f));
  do z <- c_iszero (snd p);
  Some (fst p, if truth z then Fin (truth (c_signbit x)) 0 0 else snd p).
End Lib.

(** ** fenv.c *)
(** fegetround – fenv.c:7-19; [any] is the negative number the nondeterministic value
    is assumed to be.  FE_TONEAREST, … – include/fenv.h:7-10 *)
Definition FE_TONEAREST := 0.
Definition FE_DOWNWARD := 1024.
Definition FE_UPWARD := 2048.
Definition FE_TOWARDZERO := 3072.
Definition c_fegetround (any : Z) (rm : rounding) : Z :=
  match rm with RNE => FE_TONEAREST | RTN => FE_DOWNWARD | RTP => FE_UPWARD | RTZ => FE_TOWARDZERO | RNA => any end.
(** fesetround – :21-39: result and new $rmode *)
Definition c_fesetround (v : Z) (rm : rounding) : Z * rounding :=
  if v =? FE_TONEAREST then (0, RNE)
  else if v =? FE_DOWNWARD then (0, RTN)
  else if v =? FE_UPWARD then (0, RTP)
  else if v =? FE_TOWARDZERO then (0, RTZ)
  else (1, rm).
(** SmackRep::getInitFuncs – lib/smack/SmackRep.cpp:1243-1246 *)
Definition initial_rmode : rounding := RNE.

(** The assumption made where a number is stored whose bits are read: the bits denote
    it – SmackRep.cpp:1190-1206 inverseFPCastAssume, for the bit-vector encoding. *)
Definition bits_ok (o : solver) (t : fptype) : Prop :=
  forall x, (exists y, member (layout t) y /\ same_datum x y) ->
  0 <= o_bits o t x < 2 ^ fp_width t /\ same_datum (ieee (f_E (layout t)) (f_p (layout t)) (o_bits o t x)) x.
