(** Floating-point constants, comparisons and remainders: lib/smack/SmackRep.cpp lit
    (ConstantFP) :650-712, :713-731, cmp :974-984, bop :919-946;
    lib/smack/Prelude.cpp FpOp::fpAttrFunc :1323-1350, FpOpGen::generateArithOps :1384-1401,
    FpPred :1403-1507, generatePreds :1509-1548; lib/smack/BoogieAst.cpp FPLit::print
    :454-461. *)
From Coq Require Import ZArith List String Ascii Bool.
From Verif.Spec Require Import Regex TraceValues IEEE.
Import ListNotations.
Open Scope string_scope.
Open Scope list_scope.
Open Scope Z_scope.

(** ** Constants *)
(** APInt::toString with radix [base]; the digits above 9 are upper case. *)
Definition digit_char (d : Z) : ascii := ascii_of_nat (Z.to_nat (if d <? 10 then 48 + d else 55 + d)).
Fixpoint toString_from (fuel : nat) (base n : Z) : string :=
  match fuel with
  | O => ""
  | S fuel' =>
      if n <? base then String (digit_char n) ""
      else (toString_from fuel' base (n / base) ++ String (digit_char (n mod base)) "")%string
  end.
Definition toString (base n : Z) : string := toString_from (S (Z.to_nat (Z.log2 n))) base n.
(** toString(10, true) *)
Definition toString_signed (n : Z) : string := (minus (Z.ltb n 0) ++ toString 10 (Z.abs n))%string.

(** s.insert(n, x) *)
Definition insert (n : nat) (x s : string) : string := (substring 0 n s ++ x ++ substring n (String.length s - n) s)%string.
Definition substr1 (s : string) : string := match s with EmptyString => "" | String _ s' => s' end.

(** The value of an APInt of [w] bits as a signed number *)
Definition sval (w n : Z) : Z := if n <? 2 ^ (w - 1) then n else n - 2 ^ w.

(** FPLit::print *)
Definition print_special (v : string) (sigSize expSize : Z) : string := ("0" ++ v ++ toString 10 sigSize ++ "e" ++ toString 10 expSize)%string.
Definition print_fp (neg : bool) (sig expo : string) (sigSize expSize : Z) : string :=
  ((if neg then "-" else "") ++ "0x" ++ sig ++ "e" ++ expo ++ "f" ++ toString 10 sigSize ++ "e" ++ toString 10 expSize)%string.

(** lit with FloatEnabled, for a constant whose bits are [API], of [width] bits. *)
Definition fp_lit (expSize sigSize width API : Z) : string :=
  let exp := (API / 2 ^ (sigSize - 1)) mod 2 ^ expSize in
  let sig := API mod 2 ^ (sigSize - 1) in
  let negative := Z.testbit API (width - 1) in
  if exp =? 2 ^ expSize - 1 then
    (if negb (sig =? 0) then print_special "NaN" sigSize expSize
     else if negative then print_special "-oo" sigSize expSize else print_special "+oo" sigSize expSize)
  else
    let sig := if negb (exp =? 0) then Z.lor sig (2 ^ (sigSize - 1)) else sig in
    let bias := 2 ^ (expSize - 1) - 1 in
    let bias := if exp =? 0 then bias - 1 else bias in
    let moveDec := Z.land ((exp - bias) mod 2 ^ expSize) 3 in
    let finalExp := sval expSize ((((exp - bias) mod 2 ^ expSize) - moveDec) mod 2 ^ expSize) / 4 in
    let leftSize := 4 * (moveDec / 4 + 1) in
    let rightSize := 4 * ((sigSize - moveDec - 2) / 4 + 1) in
    let w := leftSize + rightSize + 4 in
    let sig := (sig * 2 ^ (rightSize - sigSize + moveDec + 1)) mod 2 ^ w in
    let sig := Z.lor sig (2 ^ (w - 1)) in
    let hexSig := insert (Z.to_nat (leftSize / 4)) "." (substr1 (toString 16 sig)) in
    print_fp negative hexSig (toString_signed finalExp) sigSize expSize.

Inductive fptype := HalfTy | FloatTy | DoubleTy | X86_FP80Ty.
Definition fp_sizes (t : fptype) : Z * Z := (* expSize, sigSize *)
  match t with HalfTy => (5, 11) | FloatTy => (8, 24) | DoubleTy => (11, 53) | X86_FP80Ty => (15, 65) end.
Definition fp_width (t : fptype) : Z := match t with HalfTy => 16 | FloatTy => 32 | DoubleTy => 64 | X86_FP80Ty => 80 end.
Definition lit_fp (t : fptype) (bits : Z) : string := let '(e, s) := fp_sizes t in fp_lit e s (fp_width t) bits.

(** Without FloatEnabled: the text LLVM prints for the constant is read with
    std::istringstream and the three numbers are the arguments of the uninterpreted $fp.
    Only texts in decimal scientific notation are modelled (LLVM also prints hexadecimal
    ones, for which extraction fails half-way and variables are read uninitialised). *)
Fixpoint read_digits (acc : Z) (s : string) : Z * string :=
  match s with
  | String c s' => if digit c then read_digits (10 * acc + digit_value c) s' else (acc, s)
  | EmptyString => (acc, "")
  end.
Fixpoint skip_spaces (s : string) : string := match s with String c s' => if space c then skip_spaces s' else s | EmptyString => "" end.
(** iss >> long long *)
Definition read_int (s : string) : option (Z * string) :=
  let s := skip_spaces s in
  let '(neg, s) := match s with String "-" s' => (true, s') | String "+" s' => (false, s') | _ => (false, s) end in
  match s with
  | String c _ => if digit c then let '(v, r) := read_digits 0 s in Some (signed_int neg v, r) else None
  | EmptyString => None
  end.
(** iss >> char *)
Definition read_char (s : string) : option string := match skip_spaces s with String _ s' => Some s' | EmptyString => None end.
(** iss >> std::string *)
Fixpoint read_word (s : string) : string := match s with String c s' => if space c then s else read_word s' | EmptyString => "" end.
Definition uninterpreted_lit (text : string) : option (Z * Z * Z) :=
  match read_int (read_word (skip_spaces text)) with
  | Some (integerPart, s) =>
      match read_char s with
      | Some s =>
          match read_int s with
          | Some (fractionalPart, s) =>
              match read_char s with
              | Some s =>
                  match read_char s with
                  | Some s => match read_int s with Some (exponentPart, _) => Some (integerPart, fractionalPart, exponentPart) | None => None end
                  | None => None
                  end
              | None => None
              end
          | None => None
          end
      | None => None
      end
  | None => None
  end.

(** ** Comparisons *)
(** The SMT-LIB operations named by the :builtin attributes *)
Definition scaled (j : Z) (s : bool) (m k : Z) : Z := signed_int s m * 2 ^ (k - j).
Definition fp_lt (a b : fpval) : bool :=
  match a, b with
  | NaN, _ | _, NaN => false
  | Inf s, Inf s' => s && negb s'
  | Inf s, Fin _ _ _ => s
  | Fin _ _ _, Inf s => negb s
  | Fin s m k, Fin s' m' k' => scaled (Z.min k k') s m k <? scaled (Z.min k k') s' m' k'
  end.
Definition fp_eq (a b : fpval) : bool :=
  match a, b with
  | Inf s, Inf s' => Bool.eqb s s'
  | Fin s m k, Fin s' m' k' => scaled (Z.min k k') s m k =? scaled (Z.min k k') s' m' k'
  | _, _ => false
  end.
Definition fp_isnan (a : fpval) : bool := match a with NaN => true | _ => false end.
Definition builtin_pred (attr : string) (args : list fpval) : option bool :=
  match args with
  | [a] => if String.eqb attr "fp.isNaN" then Some (fp_isnan a) else None
  | [a; b] =>
      if String.eqb attr "fp.eq" then Some (fp_eq a b)
      else if String.eqb attr "fp.lt" then Some (fp_lt a b)
      else if String.eqb attr "fp.gt" then Some (fp_lt b a)
      else if String.eqb attr "fp.leq" then Some (fp_lt a b || fp_eq a b)
      else if String.eqb attr "fp.geq" then Some (fp_lt b a || fp_eq a b)
      else None
  | _ => None
  end.

(** fpAttrTable, the predicates – :1337-1348 *)
Definition fpAttrTable : list (string * string) :=
  [("isnormal", "fp.isNormal"); ("issubnormal", "fp.isSubnormal"); ("iszero", "fp.isZero"); ("isinfinite", "fp.isInfinite"); ("isnan", "fp.isNaN");
   ("isnegative", "fp.isNegative"); ("ispositive", "fp.isPositive"); ("foeq", "fp.eq"); ("fole", "fp.leq"); ("folt", "fp.lt"); ("foge", "fp.geq"); ("fogt", "fp.gt")].
(** Bodies of the inlined predicates – :1453-1483: !p(f1,f2); isnan(f1)||isnan(f2);
    the same || p(f1,f2); a constant *)
Inductive body := NegBody (p : string) | UnoBody | DisjuncBody (p : string) | LitBody (b : bool).
(** fpPredExprTable – :1488-1502 *)
Definition fpPredExprTable : list (string * body) :=
  [("fone", NegBody "$fueq"); ("ford", NegBody "$funo"); ("fueq", DisjuncBody "$foeq"); ("fugt", DisjuncBody "$fogt"); ("fuge", DisjuncBody "$foge");
   ("fult", DisjuncBody "$folt"); ("fule", DisjuncBody "$fole"); ("fune", DisjuncBody "$fone"); ("funo", UnoBody); ("ffalse", LitBody false); ("ftrue", LitBody true)].
(** fpPredTable – :1514-1536: name, arity, whether it is a builtin *)
Definition fpPredTable : list (string * (nat * bool)) :=
  [("isnormal", (1%nat, true)); ("issubnormal", (1%nat, true)); ("iszero", (1%nat, true)); ("isinfinite", (1%nat, true)); ("isnan", (1%nat, true)); ("isnegative", (1%nat, true));
   ("ispositive", (1%nat, true)); ("foeq", (2%nat, true)); ("fole", (2%nat, true)); ("folt", (2%nat, true)); ("foge", (2%nat, true)); ("fogt", (2%nat, true));
   ("fone", (2%nat, false)); ("ford", (2%nat, false)); ("fueq", (2%nat, false)); ("fugt", (2%nat, false)); ("fuge", (2%nat, false)); ("fult", (2%nat, false));
   ("fule", (2%nat, false)); ("fune", (2%nat, false)); ("funo", (2%nat, false)); ("ffalse", (2%nat, false)); ("ftrue", (2%nat, false))].
Definition assoc {A} (x : string) (l : list (string * A)) : option A := option_map snd (find (fun p => String.eqb (fst p) x) l).

(** The function declared as $name.T.bool, for one type T of the four (the bodies call
    functions of the same type). *)
Fixpoint call_pred (fuel : nat) (fn : string) (args : list fpval) : option bool :=
  match fuel, fn with
  | S fuel', String "$" name =>
      match assoc name fpPredTable with
      | Some (arity, is_builtin) =>
          if negb (Nat.eqb arity (List.length args)) then None
          else if is_builtin then match assoc name fpAttrTable with Some attr => builtin_pred attr args | None => None end
          else
            match args, assoc name fpPredExprTable with
            | [a1; a2], Some b =>
                let uno := match call_pred fuel' "$isnan" [a1], call_pred fuel' "$isnan" [a2] with Some x, Some y => Some (x || y) | _, _ => None end in
                match b with
                | NegBody p => option_map negb (call_pred fuel' p [a1; a2])
                | UnoBody => uno
                | DisjuncBody p => match uno, call_pred fuel' p [a1; a2] with Some x, Some y => Some (x || y) | _, _ => None end
                | LitBody v => Some v
                end
            | _, _ => None
            end
      | None => None
      end
  | _, _ => None
  end.

(** CMPINST_TABLE – lib/smack/Naming.cpp:133-149 *)
Definition cmpinst (p : fpred) : string :=
  match p with
  | FCMP_FALSE => "$ffalse" | FCMP_OEQ => "$foeq" | FCMP_OGE => "$foge" | FCMP_OGT => "$fogt" | FCMP_OLE => "$fole" | FCMP_OLT => "$folt"
  | FCMP_ONE => "$fone" | FCMP_ORD => "$ford" | FCMP_TRUE => "$ftrue" | FCMP_UEQ => "$fueq" | FCMP_UGE => "$fuge" | FCMP_UGT => "$fugt"
  | FCMP_ULE => "$fule" | FCMP_ULT => "$fult" | FCMP_UNE => "$fune" | FCMP_UNO => "$funo"
  end.
(** cmp: if fn.bool(e1, e2) then 1 else 0; the calls are not recursive, five levels are
    enough. *)
Definition fcmp_value (p : fpred) (a b : fpval) : option Z :=
  option_map (fun r : bool => if r then 1 else 0) (call_pred 5 (cmpinst p) [a; b]).

(** ** Remainder *)
(** frem is the builtin fp.rem: x - y * n where n is the integer nearest to x / y, the
    even one of two.  Numbers at a common exponent, y > 0. *)
Definition nearest_even (x y : Z) : Z :=
  let q := x / y in let r := x mod y in
  if 2 * r <? y then q else if y <? 2 * r then q + 1 else if Z.even q then q else q + 1.
Definition fp_rem (x y : Z) : Z := x - y * nearest_even x y.
