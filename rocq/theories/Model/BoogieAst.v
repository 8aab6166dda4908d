(** The printer of lib/smack/BoogieAst.cpp:275-681, on the syntax trees of
    Spec/BoogieSyntax.v, whose constructors are the classes of include/smack/BoogieAst.h
    (IntLit: [Num], BvLit: [BvNum], FunExpr: [Fun], BinExpr: [Bin], NegExpr, NotExpr,
    QuantExpr, SelExpr, UpdExpr, VarExpr, IfThenElseExpr, BvExtract: [Extract], BvConcat,
    RModeLit, StringLit: [AStr]; the statements and declarations by their names).

    Simplifications: the number in an IntLit or BvLit and the types are trees here and
    text in the C++ classes; the text of an FPLit is given (Model/Floats.v [print_fp]);
    CodeExpr, CodeStmt and CodeDecl, whose content is text from elsewhere, are left out;
    the bounds of an extraction are numbers. *)
From Coq Require Import ZArith List String Ascii Bool.
From Verif.Spec Require Import BoogieSyntax.
Import ListNotations.
Open Scope string_scope.
Open Scope list_scope.
Open Scope Z_scope.

(** std::ostream << unsigned long long: decimal digits *)
Definition digit_of (d : Z) : ascii := ascii_of_N (Z.to_N (48 + d)).
Fixpoint dec_from (fuel : nat) (n : Z) : string :=
  match fuel with
  | O => ""
  | S fuel' => if n <? 10 then String (digit_of n) "" else (dec_from fuel' (n / 10) ++ String (digit_of (n mod 10)) "")%string
  end.
Definition dec (n : Z) : string := dec_from (S (Z.to_nat n)) n.
(** IntLit(long long) – BoogieAst.h:126-137 *)
Definition int_text (n : Z) : string := if n <? 0 then ("-" ++ dec (- n))%string else dec n.

(** print_seq – :328-337 *)
Fixpoint join (sep : string) (l : list string) : string :=
  match l with [] => "" | [x] => x | x :: l' => (x ++ sep ++ join sep l')%string end.
Definition print_seq (init sep term : string) (l : list string) : string := (init ++ join sep l ++ term)%string.
(** The attribute sequences of statements and declarations: nothing if empty *)
Definition print_seq_nonempty (init sep term : string) (l : list string) : string :=
  match l with [] => "" | _ => print_seq init sep term l end.

Definition nl : string := String "010" "".

(** Map types as in SmackRep.cpp:264-274 memType *)
Fixpoint print_ty (t : ty) : string :=
  match t with
  | TName x => x
  | TMap args r => (print_seq "[" ", " "] " (map print_ty args) ++ print_ty r)%string
  end.
(** operator<< of a pair – :320-324 *)
Definition print_binding (b : binding) : string := (fst b ++ ": " ++ print_ty (snd b))%string.

(** BinExpr::print – :365-424 *)
Definition op_text (o : binop) : string :=
  match o with
  | OIff => "<==>" | OImp => "==>" | OOr => "||" | OAnd => "&&" | OEq => "==" | ONeq => "!=" | OLt => "<" | OGt => ">"
  | OLte => "<=" | OGte => ">=" | OSub => "<:" | OConc => "++" | OPlus => "+" | OMinus => "-" | OTimes => "*" | ODiv => "/" | OMod => "%"
  end.

(** :365-521 *)
Fixpoint print (e : expr) : string :=
  match e with
  | Num n => int_text n
  | BvNum n w => dec n ++ "bv" ++ dec w
  | FpNum x => x
  | BoolLit b => if b then "true" else "false"
  | RMode m => m
  | Var x => x
  | Fun f args => f ++ print_seq "(" ", " ")" (map print args)
  | Bin o l r => "(" ++ print l ++ " " ++ op_text o ++ " " ++ print r ++ ")"
  | BvConcat l r => "(" ++ print l ++ "++" ++ print r ++ ")"
  | Neg e => "-(" ++ print e ++ ")"
  | Not e => "!(" ++ print e ++ ")"
  | Quant q vars e =>
      "(" ++ (match q with QForall => "forall " | QExists => "exists " end) ++ join ", " (map print_binding vars) ++ " :: " ++ print e ++ ")"
  | Sel m idx => print m ++ print_seq "[" ", " "]" (map print idx)
  | Upd m idx v => print m ++ "[" ++ join ", " (map print idx) ++ " := " ++ print v ++ "]"
  | Extract e hi lo => print e ++ "[" ++ int_text hi ++ ":" ++ int_text lo ++ "]"
  | Bounds hi lo => int_text hi ++ ":" ++ int_text lo
  | Ite c t e => "(if " ++ print c ++ " then " ++ print t ++ " else " ++ print e ++ ")"
  end%string.

(** :517-526 *)
Definition print_aval (v : aval) : string := match v with AStr s => ("""" ++ s ++ """")%string | AExpr e => print e end.
Definition print_attr (a : attr) : string :=
  ("{:" ++ at_name a ++ print_seq_nonempty " " ", " "" (map print_aval (at_vals a)) ++ "}")%string.
Definition print_attrs (l : list attr) : string := print_seq_nonempty "" " " " " (map print_attr l).

(** :528-583 *)
Definition print_stmt (s : stmt) : string :=
  match s with
  | Assert a e => "assert " ++ print_attrs a ++ print e ++ ";"
  | Assume a e => "assume " ++ print_attrs a ++ print e ++ ";"
  | Assign l r => join ", " (map print l) ++ " := " ++ join ", " (map print r) ++ ";"
  | Call a rets p args => "call " ++ print_attrs a ++ print_seq_nonempty "" ", " " := " rets ++ p ++ print_seq "(" ", " ")" (map print args) ++ ";"
  | Goto ts => "goto " ++ join ", " ts ++ ";"
  | Havoc xs => "havoc " ++ join ", " xs ++ ";"
  | Return => "return;"
  | Comment s => "/* " ++ s ++ " */"
  end%string.
(** :668-673 *)
Definition print_block (b : block) : string :=
  ((if String.eqb (b_name b) "" then "" else b_name b ++ ":" ++ nl) ++ print_seq "  " (nl ++ "  ") "" (map print_stmt (b_stmts b)))%string.

(** VarDecl::print – :624-628 *)
Definition print_var (a : list attr) (b : binding) : string := (print_attrs a ++ "var " ++ print_binding b ++ ";")%string.
(** :630-664 *)
Definition print_proc (p : proc) : string :=
  ("procedure " ++ print_attrs (pr_attrs p) ++ pr_name p ++ "(" ++ join ", " (map print_binding (pr_params p)) ++ ")" ++
   (match pr_rets p with [] => "" | rs => nl ++ "  returns (" ++ join ", " (map print_binding rs) ++ ")" end) ++
   (match pr_blocks p with [] => ";" | _ => "" end) ++
   (match pr_mods p with [] => "" | l => nl ++ print_seq "  modifies " ", " ";" l end) ++
   (match pr_requires p with [] => "" | l => nl ++ print_seq "  requires " (";" ++ nl ++ "  requires ") ";" (map print l) end) ++
   (match pr_ensures p with [] => "" | l => nl ++ print_seq "  ensures " (";" ++ nl ++ "  ensures ") ";" (map print l) end) ++
   (match pr_blocks p with
    | [] => ""
    | bs => nl ++ "{" ++ nl ++ print_seq_nonempty "  " (nl ++ "  ") nl (map (print_var []) (pr_locals p)) ++
            join nl (map print_block bs) ++ nl ++ "}"
    end))%string.
(** :585-622 *)
Definition print_decl (d : decl) : string :=
  match d with
  | DType a x alias => "type " ++ print_attrs a ++ x ++ (match alias with Some t => " = " ++ print_ty t | None => "" end) ++ ";"
  | DAxiom a e => "axiom " ++ print_attrs a ++ print e ++ ";"
  | DConst a u x t => "const " ++ print_attrs a ++ (if u then "unique " else "") ++ x ++ ": " ++ print_ty t ++ ";"
  | DFun a f ps t body =>
      "function " ++ print_attrs a ++ f ++ "(" ++ join ", " (map print_binding ps) ++ ") returns (" ++ print_ty t ++ ")" ++
      (match body with Some e => " { " ++ print e ++ " }" | None => ";" end)
  | DVar a x t => print_var a (x, t)
  | DProc p => print_proc p
  end%string.
(** Program::print – :675-679; the text of the prelude comes before *)
Definition print_program (l : list decl) : string := (join nl (map print_decl l) ++ nl)%string.
