(** What the functions of Model/MathLib.v compute. *)
From Coq Require Import ZArith List String Ascii Bool Lia.
From Verif.Spec Require Import Template BoogieSyntax TraceValues IEEE FloatArith.
From Verif.Model Require Import Floats InlineCode FloatOps MathLib.
Import ListNotations.
Open Scope string_scope.
Open Scope list_scope.
Open Scope Z_scope.

Ltac ev := intros; match goal with t : cty |- _ => destruct t end; reflexivity.
Section E.
Variables (o : solver) (bp : bool) (t : cty) (rm : rounding).
Lemma fabs_eval : forall x, c_fabs o bp t rm x = Some (fp_abs x).
Proof. ev. Qed.
Lemma floor_eval : forall x, c_floor o bp t rm x = Some (fp_round_integral RTN x).
Proof. ev. Qed.
Lemma ceil_eval : forall x, c_ceil o bp t rm x = Some (fp_round_integral RTP x).
Proof. ev. Qed.
Lemma trunc_eval : forall x, c_trunc o bp t rm x = Some (fp_round_integral RTZ x).
Proof. ev. Qed.
Lemma round_eval : forall x, c_round o bp t rm x = Some (fp_round_integral RNA x).
Proof. ev. Qed.
Lemma rint_eval : forall x, c_rint o bp t rm x = Some (fp_round_integral rm x).
Proof. ev. Qed.
Lemma nearbyint_eval : forall x, c_nearbyint o bp t rm x = Some (fp_round_integral rm x).
Proof. ev. Qed.
Lemma sqrt_eval : forall x, c_sqrt o bp t rm x = Some (o_sqrt o (layout (llvm t)) rm x).
Proof. ev. Qed.
Lemma remainder_eval : forall x y, c_remainder o bp t rm x y = Some (fp_remainder x y).
Proof. ev. Qed.
Lemma fmin_eval : forall x y, c_fmin o bp t rm x y = Some (fp_select o "fp.min" (llvm t) x y (negb (fp_lt y x))).
Proof. ev. Qed.
Lemma fmax_eval : forall x y, c_fmax o bp t rm x y = Some (fp_select o "fp.max" (llvm t) x y (negb (fp_lt x y))).
Proof. ev. Qed.
Lemma sub_eval : forall x y, code2f o bp t rm (versions t "@f := $fsub.bvfloat($rmode, @f, @f);" "@ := $fsub.bvdouble($rmode, @, @);" "@ := $fsub.bvlongdouble($rmode, @, @);") x y =
  Some (fp_sub (layout (llvm t)) rm x y).
Proof. ev. Qed.
Lemma add_eval : forall x y, code2f o bp t rm (versions t "@f := $fadd.bvfloat($rmode, @f, @f);" "@ := $fadd.bvdouble($rmode, @, @);" "@ := $fadd.bvlongdouble($rmode, @, @);") x y =
  Some (fp_add (layout (llvm t)) rm x y).
Proof. ev. Qed.
Definition int_of (b : bool) : option Z := obind (if b then Some (VI 32 1) else Some (VI 32 0)) (fun v => match v with VI 32 n => Some n | _ => None end).
Lemma int_of_eq : forall b, int_of b = Some (if b then 1 else 0).
Proof. destruct b; reflexivity. Qed.
Ltac ev_class := intros; rewrite <- int_of_eq; destruct bp; ev.
Lemma isnan_eval : forall x, c_isnan o bp t rm x = Some (if is_nan x then 1 else 0).
Proof. ev_class. Qed.
Lemma isinf_eval : forall x, c_isinf o bp t rm x = Some (if is_inf x then 1 else 0).
Proof. ev_class. Qed.
Lemma iszero_eval : forall x, c_iszero o bp t rm x = Some (if is_zero x then 1 else 0).
Proof. ev_class. Qed.
Lemma isnormal_eval : forall x, c_isnormal o bp t rm x = Some (if is_normal (layout (llvm t)) x then 1 else 0).
Proof. ev_class. Qed.
Lemma issubnormal_eval : forall x, c_issubnormal o bp t rm x = Some (if is_subnormal (layout (llvm t)) x then 1 else 0).
Proof. ev_class. Qed.
Lemma to_long_eval : forall x, to_long o bp t rm x = Some (if bp then of_bv true 64 (to_bv o "fp2si" true 64 RTZ x) else o_to_int o "fp2si" (llvm t) 64 RTZ x).
Proof. intros. destruct bp; ev. Qed.
End E.
