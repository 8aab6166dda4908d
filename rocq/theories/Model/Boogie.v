(** The Boogie expression language that SMACK prints, and its meaning.

    Syntax: the subset of include/smack/BoogieAst.h used by the integer part of
    the prelude and by SmackRep.  The AST constructors below are those of
    BoogieAst.h (BinExpr, FunExpr, BoolLit, BvLit, IntLit, NotExpr, SelExpr,
    UpdExpr, VarExpr, IfThenElseExpr, BvExtract, BvConcat).

    Simplification: function and type names are structured ("$add" indexed by
    [i32]) instead of the printed string "$add.i32"; see [indexedName],
    lib/smack/SmackRep.cpp:57-73. *)
From Coq Require Import ZArith List String Bool.
Import ListNotations.
Open Scope Z_scope.

(** Type names used to index function names: "i32", "bv32", "bool", "ref", and
    the words "bytes"/"unsafe" used in load/store names. *)
Inductive tyname :=
| NInt (n : Z)          (* getIntTypeName(n)  "i<n>"  *)
| NBv (n : Z)           (* getBvTypeName(n)   "bv<n>" *)
| NBool                 (* Naming::BOOL_TYPE  *)
| NRef                  (* Naming::PTR_TYPE   *)
| NBytes                (* the word "bytes"  *)
| NNum (n : Z).         (* a plain number, as in $int2bv.64 *)

Definition tyname_eqb (a b : tyname) : bool :=
  match a, b with
  | NInt n, NInt m | NBv n, NBv m | NNum n, NNum m => n =? m
  | NBool, NBool | NRef, NRef | NBytes, NBytes => true
  | _, _ => false
  end.

(** indexedName(base, {types}) – lib/smack/SmackRep.cpp:57-73. *)
Record fname := indexedName { fn_base : string; fn_idx : list tyname }.

Fixpoint tys_eqb (a b : list tyname) : bool :=
  match a, b with
  | [], [] => true
  | x :: a', y :: b' => tyname_eqb x y && tys_eqb a' b'
  | _, _ => false
  end.

Definition fname_eqb (f g : fname) : bool :=
  String.eqb (fn_base f) (fn_base g) && tys_eqb (fn_idx f) (fn_idx g).

(** BinExpr::Binary – include/smack/BoogieAst.h (class BinExpr). *)
Inductive bbin := Plus | Minus | Times | Lt | Lte | Gt | Gte | BEq | BNeq | BAnd | BOr | Imp.

Inductive expr :=
| EVar (x : string)
| EInt (z : Z)                         (* IntLit *)
| EBv (z : Z) (w : Z)                  (* BvLit  *)
| EBool (b : bool)
| EFun (f : fname) (args : list expr)
| EBin (o : bbin) (l r : expr)
| ENot (e : expr)
| EIte (c t e : expr)
| ESel (m i : expr)
| EUpd (m i v : expr)
| EExtract (e : expr) (hi lo : Z)      (* e[hi:lo] *)
| EConcat (l r : expr).                (* l ++ r   *)

(** Attributes of function declarations: {:builtin "s"}, {:bvbuiltin "s"},
    {:bvbuiltin "(_ zero_extend k)"}, {:inline}; or none (uninterpreted). *)
Inductive fattr :=
| ABuiltin (s : string)
| ABvBuiltin (s : string)
| ABvExtend (sign : bool) (k : Z)
| AInline
| ANone.

(** Decl::function – include/smack/BoogieAst.h (class FuncDecl). *)
Record fdecl := FuncDecl {
  fd_name : fname;
  fd_params : list (string * tyname);
  fd_ret : tyname;
  fd_body : option expr;
  fd_attr : fattr }.

(** ** Meaning *)

(** Boogie values.  [VBv w z] is the bit-vector of width [w] with unsigned value
    [z].  [VMap] is a map from addresses to cells; addresses and cells are given
    by their integer value, [dom]/[cod] tell whether they are mathematical
    integers ([None]) or bit-vectors of a width. *)
Inductive val :=
| VInt (z : Z)
| VBv (w z : Z)
| VBool (b : bool)
| VMap (dom cod : option Z) (m : Z -> Z).

Definition scalar_of (t : option Z) (z : Z) : val :=
  match t with None => VInt z | Some w => VBv w z end.

Definition to_scalar (t : option Z) (v : val) : option Z :=
  match t, v with
  | None, VInt z => Some z
  | Some w, VBv w' z => if w =? w' then Some z else None
  | _, _ => None
  end.

(** Boogie's binary operators on [int], [bool] and equality at any scalar type.
    An ill-typed application has no value ([None]). *)
Definition eval_bin (o : bbin) (a b : val) : option val :=
  match o, a, b with
  | Plus, VInt x, VInt y => Some (VInt (x + y))
  | Minus, VInt x, VInt y => Some (VInt (x - y))
  | Times, VInt x, VInt y => Some (VInt (x * y))
  | Lt, VInt x, VInt y => Some (VBool (x <? y))
  | Lte, VInt x, VInt y => Some (VBool (x <=? y))
  | Gt, VInt x, VInt y => Some (VBool (y <? x))
  | Gte, VInt x, VInt y => Some (VBool (y <=? x))
  | BEq, VInt x, VInt y => Some (VBool (x =? y))
  | BNeq, VInt x, VInt y => Some (VBool (negb (x =? y)))
  | BEq, VBv w x, VBv w' y => if w =? w' then Some (VBool (x =? y)) else None
  | BNeq, VBv w x, VBv w' y => if w =? w' then Some (VBool (negb (x =? y))) else None
  | BEq, VBool x, VBool y => Some (VBool (Bool.eqb x y))
  | BNeq, VBool x, VBool y => Some (VBool (negb (Bool.eqb x y)))
  | BAnd, VBool x, VBool y => Some (VBool (x && y))
  | BOr, VBool x, VBool y => Some (VBool (x || y))
  | Imp, VBool x, VBool y => Some (VBool (negb x || y))
  | _, _, _ => None
  end.

(** SMT-LIB integer [div] and [mod] (Euclidean: the remainder is in [0, |b|)).
    SMT-LIB leaves division by zero unspecified: no value. *)
Definition smt_div (a b : Z) : option Z :=
  if b =? 0 then None else Some (if 0 <? b then a / b else - (a / - b)).
Definition smt_mod (a b : Z) : option Z :=
  if b =? 0 then None else Some (a mod Z.abs b).

Definition eval_builtin (s : string) (args : list val) : option val :=
  match args with
  | [VInt a; VInt b] =>
      if String.eqb s "div" then option_map VInt (smt_div a b)
      else if String.eqb s "mod" then option_map VInt (smt_mod a b)
      else None
  | [VInt a] =>
      if String.eqb s "(_ int2bv 32)" then Some (VBv 32 (a mod 2 ^ 32))
      else if String.eqb s "(_ int2bv 64)" then Some (VBv 64 (a mod 2 ^ 64))
      else None
  | [VBv w a] => if String.eqb s "bv2nat" then Some (VInt a) else None
  | _ => None
  end.

(** SMT-LIB FixedSizeBitVectors, on unsigned representatives of width [w]. *)
Definition bvs (w x : Z) : Z := if x <? 2 ^ (w - 1) then x else x - 2 ^ w.
Definition bvn (w x : Z) : Z := x mod 2 ^ w.

(** SMT-LIB defines bvudiv/bvurem on a zero divisor (all ones / dividend) and
    bvsdiv/bvsrem/bvsmod by cases on signs from them. *)
Definition smt_udiv (w a b : Z) : Z := if b =? 0 then 2 ^ w - 1 else a / b.
Definition smt_urem (w a b : Z) : Z := if b =? 0 then a else a mod b.
Definition smt_neg (w a : Z) : Z := bvn w (- a).
Definition msb (w a : Z) : bool := 2 ^ (w - 1) <=? a.
Definition smt_sdiv (w a b : Z) : Z :=
  match msb w a, msb w b with
  | false, false => smt_udiv w a b
  | true, false => smt_neg w (smt_udiv w (smt_neg w a) b)
  | false, true => smt_neg w (smt_udiv w a (smt_neg w b))
  | true, true => smt_udiv w (smt_neg w a) (smt_neg w b)
  end.
Definition smt_srem (w a b : Z) : Z :=
  match msb w a, msb w b with
  | false, false => smt_urem w a b
  | true, false => smt_neg w (smt_urem w (smt_neg w a) b)
  | false, true => smt_urem w a (smt_neg w b)
  | true, true => smt_neg w (smt_urem w (smt_neg w a) (smt_neg w b))
  end.
Definition smt_shl (w a b : Z) : Z := bvn w (Z.shiftl a b).
Definition smt_lshr (a b : Z) : Z := Z.shiftr a b.
Definition smt_ashr (w a b : Z) : Z := bvn w (Z.shiftr (bvs w a) b).

Definition eval_bvbuiltin2 (s : string) (w a b : Z) : option val :=
  let r z := Some (VBv w z) in
  let p c := Some (VBool c) in
  if String.eqb s "bvadd" then r (bvn w (a + b))
  else if String.eqb s "bvsub" then r (bvn w (a - b))
  else if String.eqb s "bvmul" then r (bvn w (a * b))
  else if String.eqb s "bvudiv" then r (smt_udiv w a b)
  else if String.eqb s "bvurem" then r (smt_urem w a b)
  else if String.eqb s "bvsdiv" then r (smt_sdiv w a b)
  else if String.eqb s "bvsrem" then r (smt_srem w a b)
  else if String.eqb s "bvshl" then r (smt_shl w a b)
  else if String.eqb s "bvlshr" then r (smt_lshr a b)
  else if String.eqb s "bvashr" then r (smt_ashr w a b)
  else if String.eqb s "bvand" then r (Z.land a b)
  else if String.eqb s "bvor" then r (Z.lor a b)
  else if String.eqb s "bvxor" then r (Z.lxor a b)
  else if String.eqb s "bvnand" then r (2 ^ w - 1 - Z.land a b)
  else if String.eqb s "bvult" then p (a <? b)
  else if String.eqb s "bvule" then p (a <=? b)
  else if String.eqb s "bvugt" then p (b <? a)
  else if String.eqb s "bvuge" then p (b <=? a)
  else if String.eqb s "bvslt" then p (bvs w a <? bvs w b)
  else if String.eqb s "bvsle" then p (bvs w a <=? bvs w b)
  else if String.eqb s "bvsgt" then p (bvs w b <? bvs w a)
  else if String.eqb s "bvsge" then p (bvs w b <=? bvs w a)
  else None.

Definition eval_bvbuiltin (s : string) (args : list val) : option val :=
  match args with
  | [VBv w a; VBv w' b] => if w =? w' then eval_bvbuiltin2 s w a b else None
  | [VBv w a] => if String.eqb s "bvnot" then Some (VBv w (2 ^ w - 1 - a)) else None
  | _ => None
  end.

Definition eval_extend (sign : bool) (k : Z) (args : list val) : option val :=
  match args with
  | [VBv w a] => Some (VBv (w + k) (if sign then bvn (w + k) (bvs w a) else a))
  | _ => None
  end.

Definition env := string -> option val.
Definition empty_env : env := fun _ => None.
Definition upd_env (r : env) (x : string) (v : val) : env :=
  fun y => if String.eqb x y then Some v else r y.

Fixpoint bind_params (ps : list (string * tyname)) (vs : list val) : option env :=
  match ps, vs with
  | [], [] => Some empty_env
  | (x, _) :: ps', v :: vs' =>
      match bind_params ps' vs' with
      | Some r => Some (upd_env r x v)
      | None => None
      end
  | _, _ => None
  end.

Fixpoint lookup (ds : list fdecl) (f : fname) : option fdecl :=
  match ds with
  | [] => None
  | d :: ds' => if fname_eqb (fd_name d) f then Some d else lookup ds' f
  end.

(** An interpretation of the functions that have neither body nor attribute. *)
Definition interp := fname -> list val -> option val.

Section Eval.
  Context (prog : list fdecl) (I : interp).

  (** Meaning of expressions, given the meaning [call] of function calls. *)
  Section Expr.
    Context (call : fname -> list val -> option val).
    Fixpoint eval_with (r : env) (e : expr) {struct e} : option val :=
      let fix evals (es : list expr) : option (list val) :=
        match es with
        | [] => Some []
        | x :: es' =>
            match eval_with r x, evals es' with
            | Some v, Some vs => Some (v :: vs)
            | _, _ => None
            end
        end in
      match e with
      | EVar x => r x
      | EInt z => Some (VInt z)
      | EBv z w => if (0 <=? z) && (z <? 2 ^ w) then Some (VBv w z) else None
      | EBool b => Some (VBool b)
      | EFun f es => match evals es with Some vs => call f vs | None => None end
      | EBin o a b =>
          match eval_with r a, eval_with r b with
          | Some x, Some y => eval_bin o x y
          | _, _ => None
          end
      | ENot a => match eval_with r a with Some (VBool b) => Some (VBool (negb b)) | _ => None end
      | EIte c a b =>
          match eval_with r c with
          | Some (VBool true) => eval_with r a
          | Some (VBool false) => eval_with r b
          | _ => None
          end
      | ESel m i =>
          match eval_with r m, eval_with r i with
          | Some (VMap d c f), Some v =>
              match to_scalar d v with Some z => Some (scalar_of c (f z)) | None => None end
          | _, _ => None
          end
      | EUpd m i v =>
          match eval_with r m, eval_with r i, eval_with r v with
          | Some (VMap d c f), Some iv, Some vv =>
              match to_scalar d iv, to_scalar c vv with
              | Some z, Some x => Some (VMap d c (fun a => if a =? z then x else f a))
              | _, _ => None
              end
          | _, _, _ => None
          end
      | EExtract a hi lo =>
          match eval_with r a with
          | Some (VBv w z) =>
              if (0 <=? lo) && (lo <=? hi) && (hi <=? w)
              then Some (VBv (hi - lo) ((z / 2 ^ lo) mod 2 ^ (hi - lo))) else None
          | _ => None
          end
      | EConcat a b =>
          match eval_with r a, eval_with r b with
          | Some (VBv w1 x), Some (VBv w2 y) => Some (VBv (w1 + w2) (x * 2 ^ w2 + y))
          | _, _ => None
          end
      end.
    Fixpoint evals_with (r : env) (es : list expr) : option (list val) :=
      match es with
      | [] => Some []
      | x :: es' =>
          match eval_with r x, evals_with r es' with
          | Some v, Some vs => Some (v :: vs)
          | _, _ => None
          end
      end.
  End Expr.

  (** Meaning of a call: builtin, inlined body (one unit of fuel per nested
      inlining), or the interpretation when uninterpreted. *)
  Fixpoint eval_call (fuel : nat) (f : fname) (vs : list val) : option val :=
    match fuel with
    | O => None
    | S k =>
        match lookup prog f with
        | None => None
        | Some d =>
            match fd_attr d with
            | ABuiltin s => eval_builtin s vs
            | ABvBuiltin s => eval_bvbuiltin s vs
            | ABvExtend sg n => eval_extend sg n vs
            | AInline =>
                match fd_body d, bind_params (fd_params d) vs with
                | Some b, Some r => eval_with (eval_call k) r b
                | _, _ => None
                end
            | ANone => I f vs
            end
        end
    end.

  Definition eval (fuel : nat) (r : env) (e : expr) : option val :=
    eval_with (eval_call fuel) r e.
End Eval.
