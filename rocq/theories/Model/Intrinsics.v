(** Bit-manipulation intrinsics – lib/smack/SmackInstGenerator.cpp:979-1112. *)
From Coq Require Import ZArith List String Bool.
From Verif.Spec Require Import LLVMInt IR.
From Verif.Model Require Import Boogie PreludeInt SmackRepInt.
Import ListNotations.
Open Scope string_scope.
Open Scope Z_scope.

(** [for (unsigned i = start; i < bound; i += step) body = F(i, body)] *)
Fixpoint iterate (n : nat) (i step : Z) (F : Z -> expr -> expr) (body : expr) : expr :=
  match n with
  | O => body
  | S n' => iterate n' (i + step) step F (F i body)
  end.
Definition for_up (start bound step : Z) (F : Z -> expr -> expr) (body : expr) : expr :=
  iterate (Z.to_nat ((bound - start + step - 1) / step)) start step F body.
(** [for (unsigned i = start; i > 0; --i) body = F(i, body)] *)
Definition for_down (start : Z) (F : Z -> expr -> expr) (body : expr) : expr :=
  iterate (Z.to_nat start) start (-1) F body.

(** SmackInstGenerator.cpp:979-1001 *)
Definition bitreverse (width : Z) (var : expr) : expr :=
  let h := width / 2 in
  let body :=
    if width mod 2 =? 0
    then EConcat (EExtract var h (h - 1)) (EExtract var (h + 1) h)
    else EExtract var (h + 1) h in
  let offset := width mod 2 in
  for_up (if width mod 2 =? 0 then 1 else 0) h 1
    (fun i b =>
       EConcat (EConcat (EExtract var (h - i) (h - i - 1)) b)
               (EExtract var (h + i + 1 + offset) (h + i + offset)))
    body.

(** SmackInstGenerator.cpp:1003-1020 *)
Definition bswap (width : Z) (var : expr) : expr :=
  let h := width / 2 in
  for_up 8 h 8
    (fun i b =>
       EConcat (EConcat (EExtract var (h - i) (h - i - 8)) b)
               (EExtract var (h + i + 8) (h + i)))
    (EConcat (EExtract var h (h - 8)) (EExtract var (h + 8) h)).

(** SmackInstGenerator.cpp:1035-1046, 1066-1075: the is_zero_undef case; [res] is
    the (havocked) result variable. *)
Definition zeroUndef (width : Z) (var isZeroUndef res body : expr) : expr :=
  EIte (EBin BAnd (EBin BEq isZeroUndef (EBv 1 1)) (EBin BEq var (EBv 0 width))) res body.

(** SmackInstGenerator.cpp:1023-1050 *)
Definition ctlz (width : Z) (var isZeroUndef res : expr) : expr :=
  zeroUndef width var isZeroUndef res
    (for_up 0 width 1
       (fun i b => EIte (EBin BEq (EExtract var (i + 1) i) (EBv 1 1)) (EBv (width - i - 1) width) b)
       (EBv width width)).

(** SmackInstGenerator.cpp:1053-1079 *)
Definition cttz (width : Z) (var isZeroUndef res : expr) : expr :=
  zeroUndef width var isZeroUndef res
    (for_down width
       (fun i b => EIte (EBin BEq (EExtract var i (i - 1)) (EBv 1 1)) (EBv (i - 1) width) b)
       (EBv width width)).

(** SmackInstGenerator.cpp:1082-1112.  The integer branch shifts [1ull << i],
    which is defined for i < 64 only: the model is meant for width <= 64 there. *)
Definition ctpop (O : opts) (width : Z) (var : expr) : expr :=
  let t := intType O width in
  if bitPrecise O then
    for_up 0 width 1
      (fun i b => EFun (indexedName "$add" [t])
                    [EFun (indexedName "$zext" [NBv 1; t]) [EExtract var (i + 1) i]; b])
      (EBv 0 width)
  else
    for_up 0 width 1
      (fun i b => EFun (indexedName "$add" [t])
                    [EFun (indexedName "$urem" [t])
                       [EFun (indexedName "$udiv" [t]) [var; EInt (2 ^ i)]; EInt 2]; b])
      (EInt 0).
