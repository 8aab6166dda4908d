(** The concrete syntax of Boogie programs, as far as the translator uses it: a scanner
    and a parser that follow Boogie's grammar (precedence levels included).  Constructs
    that are never printed (structured statements, type arguments, triggers, coercions,
    ** and <==) are rejected.  The parsers take a fuel argument [k]; a text reads as a
    syntax tree when the parser returns it for all sufficiently large [k]. *)
From Coq Require Import ZArith List String Ascii Bool.
From Verif.Spec Require Import Identifiers.
Import ListNotations.
Open Scope string_scope.
Open Scope list_scope.
Open Scope Z_scope.

(** ** Abstract syntax *)
Inductive ty := TName (x : string) | TMap (args : list ty) (res : ty).
Inductive binop := OIff | OImp | OOr | OAnd | OEq | ONeq | OLt | OGt | OLte | OGte | OSub | OConc | OPlus | OMinus | OTimes | ODiv | OMod.
Inductive quantifier := QExists | QForall.
Definition binding := (string * ty)%type.
Inductive expr :=
| Num (n : Z)
| BvNum (n w : Z)
| FpNum (text : string)
| BoolLit (b : bool)
| RMode (m : string)
| Var (x : string)
| Fun (f : string) (args : list expr)
| Bin (o : binop) (l r : expr)
| BvConcat (l r : expr)               (* Bin OConc l r in the tree a text reads as *)
| Neg (e : expr)
| Not (e : expr)
| Quant (q : quantifier) (vars : list binding) (e : expr)
| Sel (m : expr) (idx : list expr)
| Upd (m : expr) (idx : list expr) (v : expr)
| Extract (e : expr) (hi lo : Z)
| Bounds (hi lo : Z)                 (* hi:lo, only inside [ ] *)
| Ite (c t e : expr).
Inductive aval := AStr (s : string) | AExpr (e : expr).
Record attr := Attr { at_name : string; at_vals : list aval }.
Inductive stmt :=
| Assert (a : list attr) (e : expr)
| Assume (a : list attr) (e : expr)
| Assign (lhs rhs : list expr)
| Call (a : list attr) (rets : list string) (p : string) (args : list expr)
| Goto (ts : list string)
| Havoc (xs : list string)
| Return
| Comment (s : string).              (* not part of the tree a text reads as *)
Record block := Block { b_name : string; b_stmts : list stmt }.
Record proc := Proc {
  pr_attrs : list attr; pr_name : string; pr_params : list binding; pr_rets : list binding;
  pr_mods : list string; pr_requires : list expr; pr_ensures : list expr;
  pr_locals : list binding; pr_blocks : list block }.
Inductive decl :=
| DType (a : list attr) (x : string) (alias : option ty)
| DAxiom (a : list attr) (e : expr)
| DConst (a : list attr) (unique : bool) (x : string) (t : ty)
| DFun (a : list attr) (f : string) (params : list binding) (ret : ty) (body : option expr)
| DVar (a : list attr) (x : string) (t : ty)
| DProc (p : proc).

(** ** Scanner *)
Inductive token :=
| TId (x : string) | TKw (x : string) | TNum (n : Z) | TBv (n w : Z) | TFloat (text : string) | TStr (s : string) | TSym (s : string).

Definition rounding_modes : list string := ["RNE"; "RNA"; "RTP"; "RTN"; "RTZ"].
Definition reserved (s : string) : bool := existsb (String.eqb s) (keywords ++ rounding_modes).
Definition ident_char (c : ascii) : bool := nondigit c || digit c.
Definition white (c : ascii) : bool := existsb (Ascii.eqb c) [" "; "010"; "009"; "013"]%char.
Definition hexdigit (c : ascii) : bool :=
  digit c || (((65 <=? code c) && (code c <=? 70)) || ((97 <=? code c) && (code c <=? 102)))%N.

(** The longest prefix of characters that satisfy [p], and the rest. *)
Fixpoint span (p : ascii -> bool) (s : string) : string * string :=
  match s with
  | EmptyString => ("", "")
  | String c s' => if p c then let (a, b) := span p s' in (String c a, b) else ("", s)
  end.
Definition span1 (p : ascii -> bool) (s : string) : option (string * string) :=
  match span p s with (EmptyString, _) => None | r => Some r end.
(** [s] without the prefix [p] *)
Fixpoint strip (p s : string) : option string :=
  match p, s with
  | EmptyString, _ => Some s
  | String a p', String b s' => if Ascii.eqb a b then strip p' s' else None
  | _, _ => None
  end.
Definition number (s : string) : Z :=
  fold_left (fun z c => 10 * z + Z.of_N (code c - 48)) (list_ascii_of_string s) 0.

(** Floating-point literals: -0x1.8e0f24e8, 0NaN24e8, 0+oo24e8, 0-oo24e8.  The scanner
    takes all characters that can occur in one; the value is the subject of C31. *)
Definition fp_char (c : ascii) : bool := hexdigit c || Ascii.eqb c "." || Ascii.eqb c "-".
Definition scan_float_from (p s : string) : option (string * string) :=
  match strip p s with
  | Some s' => match span1 fp_char s' with Some (a, r) => Some (p ++ a, r)%string | None => None end
  | None => None
  end.
Fixpoint first_some {A} (l : list (option A)) : option A :=
  match l with [] => None | Some x :: _ => Some x | None :: l' => first_some l' end.
Definition scan_float (s : string) : option (string * string) :=
  first_some (map (fun p => scan_float_from p s) ["-0x"; "0x"; "0NaN"; "0+oo"; "0-oo"]).

(** The symbols; longer ones first. *)
Definition symbols : list string :=
  ["<==>"; "==>"; "<=="; ":="; "::"; "++"; "&&"; "||"; "=="; "!="; "<="; ">="; "<:"; "**"; "|{"; "}|";
   "("; ")"; "["; "]"; "{"; "}"; ","; ";"; ":"; "<"; ">"; "+"; "-"; "*"; "/"; "%"; "!"; "="].
Definition scan_symbol (s : string) : option (string * string) :=
  first_some (map (fun p => match strip p s with Some r => Some (p, r) | None => None end) symbols).

(** A comment, after its opening; [d] is the nesting depth. *)
Fixpoint skip_comment (d : nat) (s : string) : option string :=
  match s with
  | EmptyString => None
  | String c s' =>
      match s' with
      | String c' s'' =>
          if Ascii.eqb c "*" && Ascii.eqb c' "/" then match d with O => Some s'' | S d' => skip_comment d' s'' end
          else if Ascii.eqb c "/" && Ascii.eqb c' "*" then skip_comment (S d) s''
          else skip_comment d s'
      | EmptyString => None
      end
  end.
(** The rest of a string literal: up to the quote; a backslash may precede a quote. *)
Fixpoint scan_string (s : string) : option (string * string) :=
  match s with
  | EmptyString => None
  | String c s' =>
      if Ascii.eqb c """" then Some ("", s')
      else if Ascii.eqb c "010" || Ascii.eqb c "013" then None
      else match s' with
           | String """" s'' =>
               if Ascii.eqb c "\" then match scan_string s'' with Some (a, r) => Some (String c (String """" a), r) | None => None end
               else Some (String c "", s'')
           | _ => match scan_string s' with Some (a, r) => Some (String c a, r) | None => None end
           end
  end.

(** One step: a token or white space or a comment, and the rest. *)
Definition scan (s : string) : option (option token * string) :=
  match s with
  | EmptyString => None
  | String c s' =>
      if white c then Some (None, s')
      else match strip "/*" s with
      | Some r => match skip_comment 0 r with Some r' => Some (None, r') | None => None end
      | None =>
      match strip "//" s with
      | Some r => Some (None, snd (span (fun c => negb (Ascii.eqb c "010")) r))
      | None =>
      if Ascii.eqb c """" then match scan_string s' with Some (a, r) => Some (Some (TStr a), r) | None => None end
      else match scan_float s with
      | Some (a, r) => Some (Some (TFloat a), r)
      | None =>
      if nondigit c then let (a, r) := span ident_char s in Some (Some (if reserved a then TKw a else TId a), r)
      else if digit c then
        let (a, r) := span digit s in
        match strip "bv" r with
        | Some r' =>
            match span1 digit r' with
            | Some (b, r'') => match r'' with
                               | String c'' _ => if ident_char c'' then None else Some (Some (TBv (number a) (number b)), r'')
                               | EmptyString => Some (Some (TBv (number a) (number b)), r'')
                               end
            | None => None
            end
        | None => match r with
                  | String c'' _ => if ident_char c'' then None else Some (Some (TNum (number a)), r)
                  | EmptyString => Some (Some (TNum (number a)), r)
                  end
        end
      else match scan_symbol s with Some (a, r) => Some (Some (TSym a), r) | None => None end
      end
      end
      end
  end.
Fixpoint tokens (k : nat) (s : string) : option (list token) :=
  match s, k with
  | EmptyString, _ => Some []
  | _, O => None
  | _, S k' =>
      match scan s with
      | Some (Some t, r) => match tokens k' r with Some ts => Some (t :: ts) | None => None end
      | Some (None, r) => tokens k' r
      | None => None
      end
  end.

(** ** Parser *)
Definition parser (A : Type) := list token -> option (A * list token).
Definition token_eqb (a b : token) : bool :=
  match a, b with
  | TSym x, TSym y | TKw x, TKw y => String.eqb x y
  | _, _ => false
  end.
(** The next token is the symbol or keyword [t]: the rest. *)
Definition next (t : token) (ts : list token) : option (list token) :=
  match ts with t' :: ts' => if token_eqb t t' then Some ts' else None | [] => None end.
Definition sym (s : string) := next (TSym s).
Definition kw (s : string) := next (TKw s).
Definition bind {A B} (o : option (A * list token)) (f : A -> list token -> option B) : option B :=
  match o with Some (a, ts) => f a ts | None => None end.
Definition expect {B} (o : option (list token)) (f : list token -> option B) : option B :=
  match o with Some ts => f ts | None => None end.
Definition is_sym (l : list string) (ts : list token) : bool := existsb (fun s => match sym s ts with Some _ => true | None => false end) l.

(** Operators of one level. *)
Fixpoint operator (l : list (string * binop)) (ts : list token) : option (binop * list token) :=
  match l with [] => None | (s, o) :: l' => match sym s ts with Some ts' => Some (o, ts') | None => operator l' ts end end.
Definition rel_ops := [("==", OEq); ("!=", ONeq); ("<", OLt); (">", OGt); ("<=", OLte); (">=", OGte); ("<:", OSub)].
Definition add_ops := [("+", OPlus); ("-", OMinus)].
Definition mul_ops := [("*", OTimes); ("/", ODiv); ("%", OMod)].

Definition p_ident : parser string := fun ts => match ts with TId x :: ts' => Some (x, ts') | _ => None end.
(** Ident { "," Ident } *)
Fixpoint p_idents (k : nat) : parser (list string) := fun ts =>
  match k with
  | O => None
  | S k' => bind (p_ident ts) (fun x ts =>
      match sym "," ts with
      | Some ts => bind (p_idents k' ts) (fun xs ts => Some (x :: xs, ts))
      | None => Some ([x], ts)
      end)
  end.

(** Type = ident | "int" | "real" | "bool" | "(" Type ")" | "[" [ Type { "," Type } ] "]" Type *)
Definition type_start (ts : list token) : bool :=
  match ts with TId _ :: _ => true | TKw x :: _ => existsb (String.eqb x) ["int"; "real"; "bool"] | TSym x :: _ => existsb (String.eqb x) ["["; "("; "<"] | _ => false end.
Fixpoint p_type (k : nat) : parser ty := fun ts =>
  match k with
  | O => None
  | S k' =>
      match ts with
      | TId x :: ts' => if type_start ts' then None else Some (TName x, ts')
      | TKw x :: ts' => if existsb (String.eqb x) ["int"; "real"; "bool"] then Some (TName x, ts') else None
      | TSym x :: ts' =>
          if String.eqb x "(" then bind (p_type k' ts') (fun t ts => expect (sym ")" ts) (fun ts => Some (t, ts)))
          else if String.eqb x "[" then
            match sym "]" ts' with
            | Some ts => bind (p_type k' ts) (fun t ts => Some (TMap [] t, ts))
            | None => bind (p_types k' ts') (fun l ts => expect (sym "]" ts) (fun ts => bind (p_type k' ts) (fun t ts => Some (TMap l t, ts))))
            end
          else None
      | _ => None
      end
  end
with p_types (k : nat) : parser (list ty) := fun ts =>
  match k with
  | O => None
  | S k' => bind (p_type k' ts) (fun t ts =>
      match sym "," ts with
      | Some ts => bind (p_types k' ts) (fun l ts => Some (t :: l, ts))
      | None => Some ([t], ts)
      end)
  end.

(** Idents ":" Type { "," Idents ":" Type } *)
Fixpoint p_bindings (k : nat) : parser (list binding) := fun ts =>
  match k with
  | O => None
  | S k' =>
      bind (p_idents k' ts) (fun xs ts => expect (sym ":" ts) (fun ts => bind (p_type k' ts) (fun t ts =>
        let l := map (fun x => (x, t)) xs in
        match sym "," ts with
        | Some ts => bind (p_bindings k' ts) (fun l' ts => Some (l ++ l', ts))
        | None => Some (l, ts)
        end)))
  end.

(** Expression = Implies { "<==>" Implies }; Implies = Logical [ "==>" Implies ];
    Logical = Rel [ "&&" Rel { "&&" Rel } | "||" Rel { "||" Rel } ];
    Rel = BvTerm [ RelOp BvTerm ]; BvTerm = Term { "++" Term }; Term = Factor { AddOp Factor };
    Factor = Unary { MulOp Unary }; Unary = "-" Unary | "!" Unary | Coercion;
    Coercion = Array [ ":" Nat ]  (a number before the colon: the bounds of an extraction);
    Array = Atom { "[" Expression { "," Expression } [ ":=" Expression ] "]" } *)
Fixpoint p_expr (k : nat) : parser expr := fun ts =>
  match k with O => None | S k' => bind (p_implies k' ts) (p_equivs k') end
with p_equivs (k : nat) : expr -> parser expr := fun e ts =>
  match k with
  | O => None
  | S k' => match sym "<==>" ts with
            | Some ts => bind (p_implies k' ts) (fun e' ts => p_equivs k' (Bin OIff e e') ts)
            | None => Some (e, ts)
            end
  end
with p_implies (k : nat) : parser expr := fun ts =>
  match k with
  | O => None
  | S k' => bind (p_logical k' ts) (fun e ts =>
      match sym "==>" ts with
      | Some ts => bind (p_implies k' ts) (fun e' ts => Some (Bin OImp e e', ts))
      | None => if is_sym ["<=="] ts then None else Some (e, ts)
      end)
  end
with p_logical (k : nat) : parser expr := fun ts =>
  match k with
  | O => None
  | S k' => bind (p_rel k' ts) (fun e ts => if is_sym ["&&"] ts then p_chain k' "&&" OAnd e ts else p_chain k' "||" OOr e ts)
  end
with p_chain (k : nat) : string -> binop -> expr -> parser expr := fun s o e ts =>
  match k with
  | O => None
  | S k' => match sym s ts with
            | Some ts => bind (p_rel k' ts) (fun e' ts => p_chain k' s o (Bin o e e') ts)
            | None => Some (e, ts)
            end
  end
with p_rel (k : nat) : parser expr := fun ts =>
  match k with
  | O => None
  | S k' => bind (p_bvterm k' ts) (fun e ts =>
      match operator rel_ops ts with
      | Some (o, ts) => bind (p_bvterm k' ts) (fun e' ts => Some (Bin o e e', ts))
      | None => Some (e, ts)
      end)
  end
with p_bvterm (k : nat) : parser expr := fun ts =>
  match k with O => None | S k' => bind (p_term k' ts) (p_concs k') end
with p_concs (k : nat) : expr -> parser expr := fun e ts =>
  match k with
  | O => None
  | S k' => match sym "++" ts with
            | Some ts => bind (p_term k' ts) (fun e' ts => p_concs k' (Bin OConc e e') ts)
            | None => Some (e, ts)
            end
  end
with p_term (k : nat) : parser expr := fun ts =>
  match k with O => None | S k' => bind (p_factor k' ts) (p_adds k') end
with p_adds (k : nat) : expr -> parser expr := fun e ts =>
  match k with
  | O => None
  | S k' => match operator add_ops ts with
            | Some (o, ts) => bind (p_factor k' ts) (fun e' ts => p_adds k' (Bin o e e') ts)
            | None => Some (e, ts)
            end
  end
with p_factor (k : nat) : parser expr := fun ts =>
  match k with O => None | S k' => bind (p_unary k' ts) (p_muls k') end
with p_muls (k : nat) : expr -> parser expr := fun e ts =>
  match k with
  | O => None
  | S k' => match operator mul_ops ts with
            | Some (o, ts) => bind (p_unary k' ts) (fun e' ts => p_muls k' (Bin o e e') ts)
            | None => if is_sym ["**"] ts then None else Some (e, ts)
            end
  end
with p_unary (k : nat) : parser expr := fun ts =>
  match k with
  | O => None
  | S k' =>
      match sym "-" ts with
      | Some ts => bind (p_unary k' ts) (fun e ts => Some (Neg e, ts))
      | None =>
          match sym "!" ts with
          | Some ts => bind (p_unary k' ts) (fun e ts => Some (Not e, ts))
          | None => bind (p_array k' ts) (fun e ts =>
              match sym ":" ts with
              | Some (TNum lo :: ts) => match e with Num hi => Some (Bounds hi lo, ts) | _ => None end
              | Some _ => None
              | None => Some (e, ts)
              end)
          end
      end
  end
with p_array (k : nat) : parser expr := fun ts =>
  match k with O => None | S k' => bind (p_atom k' ts) (p_selects k') end
with p_selects (k : nat) : expr -> parser expr := fun e ts =>
  match k with
  | O => None
  | S k' =>
      match sym "[" ts with
      | Some ts =>
          bind (p_exprs k' ts) (fun idx ts =>
            match sym ":=" ts with
            | Some ts => bind (p_expr k' ts) (fun v ts => expect (sym "]" ts) (fun ts =>
                match idx with [Bounds _ _] => None | _ => p_selects k' (Upd e idx v) ts end))
            | None => expect (sym "]" ts) (fun ts =>
                p_selects k' match idx with [Bounds hi lo] => Extract e hi lo | _ => Sel e idx end ts)
            end)
      | None => Some (e, ts)
      end
  end
with p_exprs (k : nat) : parser (list expr) := fun ts =>
  match k with
  | O => None
  | S k' => bind (p_expr k' ts) (fun e ts =>
      match sym "," ts with
      | Some ts => bind (p_exprs k' ts) (fun l ts => Some (e :: l, ts))
      | None => Some ([e], ts)
      end)
  end
with p_atom (k : nat) : parser expr := fun ts =>
  match k with
  | O => None
  | S k' =>
      match ts with
      | TNum n :: ts => Some (Num n, ts)
      | TBv n w :: ts => Some (BvNum n w, ts)
      | TFloat x :: ts => Some (FpNum x, ts)
      | TId x :: ts =>
          match sym "(" ts with
          | Some ts =>
              match sym ")" ts with
              | Some ts => Some (Fun x [], ts)
              | None => bind (p_exprs k' ts) (fun l ts => expect (sym ")" ts) (fun ts => Some (Fun x l, ts)))
              end
          | None => Some (Var x, ts)
          end
      | TKw x :: ts =>
          if String.eqb x "true" then Some (BoolLit true, ts)
          else if String.eqb x "false" then Some (BoolLit false, ts)
          else if existsb (String.eqb x) rounding_modes then Some (RMode x, ts)
          else if String.eqb x "if" then
            bind (p_expr k' ts) (fun c ts => expect (kw "then" ts) (fun ts =>
            bind (p_expr k' ts) (fun t ts => expect (kw "else" ts) (fun ts =>
            bind (p_expr k' ts) (fun e ts => Some (Ite c t e, ts))))))
          else None
      | TSym x :: ts =>
          if String.eqb x "(" then
            match kw "forall" ts, kw "exists" ts with
            | Some ts, _ => p_quant k' QForall ts
            | None, Some ts => p_quant k' QExists ts
            | None, None => bind (p_expr k' ts) (fun e ts => expect (sym ")" ts) (fun ts => Some (e, ts)))
            end
          else None
      | _ => None
      end
  end
with p_quant (k : nat) : quantifier -> parser expr := fun q ts =>
  match k with
  | O => None
  | S k' =>
      bind (p_bindings k' ts) (fun vars ts => expect (sym "::" ts) (fun ts =>
      bind (p_expr k' ts) (fun e ts => expect (sym ")" ts) (fun ts => Some (Quant q vars e, ts)))))
  end.

(** Attributes: { "{" ":" ident [ value { "," value } ] "}" } *)
Definition p_aval (k : nat) : parser aval := fun ts =>
  match ts with TStr s :: ts => Some (AStr s, ts) | _ => bind (p_expr k ts) (fun e ts => Some (AExpr e, ts)) end.
Fixpoint p_avals (k : nat) : parser (list aval) := fun ts =>
  match k with
  | O => None
  | S k' => bind (p_aval k' ts) (fun v ts =>
      match sym "," ts with
      | Some ts => bind (p_avals k' ts) (fun l ts => Some (v :: l, ts))
      | None => Some ([v], ts)
      end)
  end.
Fixpoint p_attrs (k : nat) : parser (list attr) := fun ts =>
  match k with
  | O => None
  | S k' =>
      match sym "{" ts with
      | None => Some ([], ts)
      | Some ts => expect (sym ":" ts) (fun ts => bind (p_ident ts) (fun x ts =>
          match sym "}" ts with
          | Some ts => bind (p_attrs k' ts) (fun l ts => Some (Attr x [] :: l, ts))
          | None => bind (p_avals k' ts) (fun vs ts => expect (sym "}" ts) (fun ts =>
                    bind (p_attrs k' ts) (fun l ts => Some (Attr x vs :: l, ts))))
          end))
      end
  end.

(** Statements; an assigned location is a variable with indices. *)
Fixpoint p_lhs_indices (k : nat) : expr -> parser expr := fun e ts =>
  match k with
  | O => None
  | S k' =>
      match sym "[" ts with
      | Some ts => bind (p_exprs k' ts) (fun idx ts => expect (sym "]" ts) (fun ts => p_lhs_indices k' (Sel e idx) ts))
      | None => Some (e, ts)
      end
  end.
Fixpoint p_lhss (k : nat) : parser (list expr) := fun ts =>
  match k with
  | O => None
  | S k' => bind (p_ident ts) (fun x ts => bind (p_lhs_indices k' (Var x) ts) (fun e ts =>
      match sym "," ts with
      | Some ts => bind (p_lhss k' ts) (fun l ts => Some (e :: l, ts))
      | None => Some ([e], ts)
      end))
  end.
(** "(" [ Expression { "," Expression } ] ")" *)
Definition p_args (k : nat) : parser (list expr) := fun ts =>
  expect (sym "(" ts) (fun ts =>
    match sym ")" ts with
    | Some ts => Some ([], ts)
    | None => bind (p_exprs k ts) (fun l ts => expect (sym ")" ts) (fun ts => Some (l, ts)))
    end).
Definition semi {A} (o : option (A * list token)) : option (A * list token) :=
  bind o (fun a ts => expect (sym ";" ts) (fun ts => Some (a, ts))).
(** Choice by the next keyword. *)
Fixpoint case_kw {A} (l : list (string * parser A)) (otherwise : parser A) : parser A := fun ts =>
  match l with
  | [] => otherwise ts
  | (x, p) :: l' => match kw x ts with Some ts' => p ts' | None => case_kw l' otherwise ts end
  end.
Definition p_stmt (k : nat) : parser stmt :=
  case_kw
    [("assert", fun ts => semi (bind (p_attrs k ts) (fun a ts => bind (p_expr k ts) (fun e ts => Some (Assert a e, ts)))));
     ("assume", fun ts => semi (bind (p_attrs k ts) (fun a ts => bind (p_expr k ts) (fun e ts => Some (Assume a e, ts)))));
     ("havoc", fun ts => semi (bind (p_idents k ts) (fun l ts => Some (Havoc l, ts))));
     ("goto", fun ts => semi (bind (p_idents k ts) (fun l ts => Some (Goto l, ts))));
     ("return", fun ts => semi (Some (Return, ts)));
     ("call", fun ts =>
        semi (bind (p_attrs k ts) (fun a ts => bind (p_idents k ts) (fun l ts =>
          match sym ":=" ts with
          | Some ts => bind (p_ident ts) (fun p ts => bind (p_args k ts) (fun es ts => Some (Call a l p es, ts)))
          | None => match l with [p] => bind (p_args k ts) (fun es ts => Some (Call a [] p es, ts)) | _ => None end
          end))))]
    (fun ts => semi (bind (p_lhss k ts) (fun l ts => expect (sym ":=" ts) (fun ts => bind (p_exprs k ts) (fun r ts => Some (Assign l r, ts)))))).
Definition label (ts : list token) : option (string * list token) :=
  bind (p_ident ts) (fun x ts => expect (sym ":" ts) (fun ts => Some (x, ts))).
(** Statements up to a label or the end of the body. *)
Fixpoint p_stmts (k : nat) : parser (list stmt) := fun ts =>
  match k with
  | O => None
  | S k' =>
      match label ts, sym "}" ts with
      | None, None => bind (p_stmt k' ts) (fun s ts => bind (p_stmts k' ts) (fun l ts => Some (s :: l, ts)))
      | _, _ => Some ([], ts)
      end
  end.
Fixpoint p_blocks (k : nat) : parser (list block) := fun ts =>
  match k with
  | O => None
  | S k' =>
      match label ts with
      | Some (x, ts) => bind (p_stmts k' ts) (fun l ts => bind (p_blocks k' ts) (fun bs ts => Some (Block x l :: bs, ts)))
      | None => Some ([], ts)
      end
  end.

(** Declarations *)
Definition p_var (k : nat) : parser (list binding) := fun ts => semi (p_bindings k ts).
Fixpoint p_locals (k : nat) : parser (list binding) := fun ts =>
  match k with
  | O => None
  | S k' =>
      match kw "var" ts with
      | Some ts => bind (p_var k' ts) (fun l ts => bind (p_locals k' ts) (fun l' ts => Some (l ++ l', ts)))
      | None => Some ([], ts)
      end
  end.
(** { "modifies" Idents ";" | "requires" Expression ";" | "ensures" Expression ";" } *)
Fixpoint p_specs (k : nat) : parser (list string * list expr * list expr) := fun ts =>
  match k with
  | O => None
  | S k' =>
      case_kw
        [("modifies", fun ts => bind (semi (p_idents k' ts)) (fun l ts => bind (p_specs k' ts) (fun '(m, r, n) ts => Some ((l ++ m, r, n), ts))));
         ("requires", fun ts => bind (semi (p_expr k' ts)) (fun e ts => bind (p_specs k' ts) (fun '(m, r, n) ts => Some ((m, e :: r, n), ts))));
         ("ensures", fun ts => bind (semi (p_expr k' ts)) (fun e ts => bind (p_specs k' ts) (fun '(m, r, n) ts => Some ((m, r, e :: n), ts))))]
        (fun ts => Some (([], [], []), ts)) ts
  end.
(** "(" [ bindings ] ")" *)
Definition p_params (k : nat) : parser (list binding) := fun ts =>
  expect (sym "(" ts) (fun ts =>
    match sym ")" ts with
    | Some ts => Some ([], ts)
    | None => bind (p_bindings k ts) (fun l ts => expect (sym ")" ts) (fun ts => Some (l, ts)))
    end).
(** The statements before the first label are a block without a name; a body has at
    least one block. *)
Definition unnamed (l : list stmt) (bs : list block) : list block := match l, bs with [], _ :: _ => bs | _, _ => Block "" l :: bs end.
Definition p_body (k : nat) : parser (list binding * list block) := fun ts =>
  expect (sym "{" ts) (fun ts => bind (p_locals k ts) (fun l ts => bind (p_stmts k ts) (fun l0 ts => bind (p_blocks k ts) (fun bs ts =>
  expect (sym "}" ts) (fun ts => Some ((l, unnamed l0 bs), ts)))))).
Definition p_decl (k : nat) : parser decl :=
  case_kw [
  ("type", fun ts =>
      semi (bind (p_attrs k ts) (fun a ts => bind (p_ident ts) (fun x ts =>
        match sym "=" ts with
        | Some ts => bind (p_type k ts) (fun t ts => Some (DType a x (Some t), ts))
        | None => Some (DType a x None, ts)
        end))));
  ("axiom", fun ts => semi (bind (p_attrs k ts) (fun a ts => bind (p_expr k ts) (fun e ts => Some (DAxiom a e, ts)))));
  ("const", fun ts =>
      semi (bind (p_attrs k ts) (fun a ts =>
        let '(u, ts) := match kw "unique" ts with Some ts => (true, ts) | None => (false, ts) end in
        bind (p_ident ts) (fun x ts => expect (sym ":" ts) (fun ts => bind (p_type k ts) (fun t ts => Some (DConst a u x t, ts)))))));
  ("function", fun ts =>
      bind (p_attrs k ts) (fun a ts => bind (p_ident ts) (fun f ts => bind (p_params k ts) (fun ps ts =>
      expect (kw "returns" ts) (fun ts => expect (sym "(" ts) (fun ts => bind (p_type k ts) (fun t ts => expect (sym ")" ts) (fun ts =>
        match sym "{" ts with
        | Some ts => bind (p_expr k ts) (fun e ts => expect (sym "}" ts) (fun ts => Some (DFun a f ps t (Some e), ts)))
        | None => expect (sym ";" ts) (fun ts => Some (DFun a f ps t None, ts))
        end))))))));
  ("var", fun ts =>
      semi (bind (p_attrs k ts) (fun a ts => bind (p_ident ts) (fun x ts => expect (sym ":" ts) (fun ts => bind (p_type k ts) (fun t ts => Some (DVar a x t, ts)))))));
  ("procedure", fun ts =>
      bind (p_attrs k ts) (fun a ts => bind (p_ident ts) (fun f ts => bind (p_params k ts) (fun ps ts =>
      bind (match kw "returns" ts with Some ts => p_params k ts | None => Some ([], ts) end) (fun rs ts =>
        match sym ";" ts with
        | Some ts => bind (p_specs k ts) (fun '(m, r, n) ts => Some (DProc (Proc a f ps rs m r n [] []), ts))
        | None => bind (p_specs k ts) (fun '(m, r, n) ts => bind (p_body k ts) (fun '(l, bs) ts => Some (DProc (Proc a f ps rs m r n l bs), ts)))
        end)))))
  ] (fun _ => None).
Fixpoint p_program (k : nat) (ts : list token) : option (list decl) :=
  match ts, k with
  | [], _ => Some []
  | _, O => None
  | _, S k' => bind (p_decl k' ts) (fun d ts => match p_program k' ts with Some l => Some (d :: l) | None => None end)
  end.

(** ** Trees that can be written down *)
Definition name (x : string) : Prop :=
  match x with EmptyString => False | String c s => nondigit c = true /\ all ident_char s = true end /\ reserved x = false.
Fixpoint ty_ok (t : ty) : Prop :=
  match t with
  | TName x => name x \/ In x ["int"; "real"; "bool"]
  | TMap l r => fold_right and True (map ty_ok l) /\ ty_ok r
  end.
Definition binding_ok (b : binding) : Prop := name (fst b) /\ ty_ok (snd b).
Definition float_text (x : string) : Prop :=
  exists p a, In p ["-0x"; "0x"; "0NaN"; "0+oo"; "0-oo"] /\ x = (p ++ a)%string /\ a <> "" /\ all fp_char a = true.
(** What may stand before "[": not a negation, not a negative number. *)
Definition base_ok (e : expr) : Prop := match e with Neg _ | Not _ => False | Num n => 0 <= n | _ => True end.
Fixpoint expr_ok (e : expr) : Prop :=
  match e with
  | Num _ | BoolLit _ => True
  | BvNum n w => 0 <= n /\ 0 <= w
  | FpNum x => float_text x
  | RMode m => In m rounding_modes
  | Var x => name x
  | Fun f args => name f /\ fold_right and True (map expr_ok args)
  | Bin _ l r | BvConcat l r => expr_ok l /\ expr_ok r
  | Neg e | Not e => expr_ok e
  | Quant _ vars e => vars <> [] /\ Forall binding_ok vars /\ expr_ok e
  | Sel m idx => base_ok m /\ expr_ok m /\ idx <> [] /\ fold_right and True (map expr_ok idx)
  | Upd m idx v => base_ok m /\ expr_ok m /\ idx <> [] /\ fold_right and True (map expr_ok idx) /\ expr_ok v
  | Extract e hi lo => base_ok e /\ expr_ok e /\ 0 <= hi /\ 0 <= lo
  | Bounds _ _ => False
  | Ite c t e => expr_ok c /\ expr_ok t /\ expr_ok e
  end.
(** String literals: no quotes and line ends, no backslash at the end. *)
Definition string_ok (s : string) : Prop :=
  all (fun c => negb (existsb (Ascii.eqb c) [""""; "010"; "013"]%char)) s = true /\ forall t, s <> (t ++ "\")%string.
Definition aval_ok (v : aval) : Prop := match v with AStr s => string_ok s | AExpr e => expr_ok e end.
Definition attr_ok (a : attr) : Prop := name (at_name a) /\ Forall aval_ok (at_vals a).
(** Locations that can be assigned. *)
Fixpoint lhs_ok (e : expr) : Prop :=
  match e with Var x => name x | Sel m idx => lhs_ok m /\ idx <> [] /\ Forall expr_ok idx | _ => False end.
Definition comment_ok (s : string) : Prop := forall a b, s <> (a ++ "*/" ++ b)%string /\ s <> (a ++ "/*" ++ b)%string.
Definition stmt_ok (s : stmt) : Prop :=
  match s with
  | Assert a e | Assume a e => Forall attr_ok a /\ expr_ok e
  | Assign l r => l <> [] /\ Forall lhs_ok l /\ r <> [] /\ Forall expr_ok r
  | Call a rets p args => Forall attr_ok a /\ Forall name rets /\ name p /\ Forall expr_ok args
  | Goto l | Havoc l => l <> [] /\ Forall name l
  | Return => True
  | Comment s => comment_ok s
  end.
Definition block_ok (b : block) : Prop := name (b_name b) /\ Forall stmt_ok (b_stmts b).
(** The first block may have no name. *)
Definition blocks_ok (l : list block) : Prop :=
  match l with
  | [] => True
  | b :: l' => (b_name b = "" /\ Forall stmt_ok (b_stmts b) \/ block_ok b) /\ Forall block_ok l'
  end.
Definition proc_ok (p : proc) : Prop :=
  Forall attr_ok (pr_attrs p) /\ name (pr_name p) /\ Forall binding_ok (pr_params p) /\ Forall binding_ok (pr_rets p) /\
  Forall name (pr_mods p) /\ Forall expr_ok (pr_requires p) /\ Forall expr_ok (pr_ensures p) /\
  Forall binding_ok (pr_locals p) /\ blocks_ok (pr_blocks p) /\
  (pr_blocks p = [] -> pr_locals p = []).
Definition decl_ok (d : decl) : Prop :=
  match d with
  | DType a x alias => Forall attr_ok a /\ name x /\ match alias with Some t => ty_ok t | None => True end
  | DAxiom a e => Forall attr_ok a /\ expr_ok e
  | DConst a _ x t => Forall attr_ok a /\ name x /\ ty_ok t
  | DFun a f ps t body => Forall attr_ok a /\ name f /\ Forall binding_ok ps /\ ty_ok t /\ match body with Some e => expr_ok e | None => True end
  | DVar a x t => a = [] /\ name x /\ ty_ok t
  | DProc p => proc_ok p
  end.

(** The tree a text stands for: a negative number is the negation of a positive one,
    BvConcat is the operator ++, comments are nothing. *)
Fixpoint norm (e : expr) : expr :=
  match e with
  | Num n => if n <? 0 then Neg (Num (- n)) else Num n
  | Fun f args => Fun f (map norm args)
  | Bin o l r => Bin o (norm l) (norm r)
  | BvConcat l r => Bin OConc (norm l) (norm r)
  | Neg e => Neg (norm e)
  | Not e => Not (norm e)
  | Quant q vars e => Quant q vars (norm e)
  | Sel m idx => Sel (norm m) (map norm idx)
  | Upd m idx v => Upd (norm m) (map norm idx) (norm v)
  | Extract e hi lo => Extract (norm e) hi lo
  | Ite c t e => Ite (norm c) (norm t) (norm e)
  | e => e
  end.
Definition norm_attr (a : attr) : attr := Attr (at_name a) (map (fun v => match v with AExpr e => AExpr (norm e) | v => v end) (at_vals a)).
Definition norm_stmt (s : stmt) : list stmt :=
  match s with
  | Assert a e => [Assert (map norm_attr a) (norm e)]
  | Assume a e => [Assume (map norm_attr a) (norm e)]
  | Assign l r => [Assign (map norm l) (map norm r)]
  | Call a rets p args => [Call (map norm_attr a) rets p (map norm args)]
  | Comment _ => []
  | s => [s]
  end.
Definition norm_block (b : block) : block := Block (b_name b) (flat_map norm_stmt (b_stmts b)).
Definition norm_blocks (l : list block) : list block :=
  match l with
  | b :: l' => if String.eqb (b_name b) "" then unnamed (flat_map norm_stmt (b_stmts b)) (map norm_block l') else map norm_block l
  | [] => []
  end.
Definition norm_decl (d : decl) : decl :=
  match d with
  | DType a x alias => DType (map norm_attr a) x alias
  | DAxiom a e => DAxiom (map norm_attr a) (norm e)
  | DConst a u x t => DConst (map norm_attr a) u x t
  | DFun a f ps t body => DFun (map norm_attr a) f ps t (option_map norm body)
  | DVar a x t => DVar (map norm_attr a) x t
  | DProc p =>
      DProc (Proc (map norm_attr (pr_attrs p)) (pr_name p) (pr_params p) (pr_rets p) (pr_mods p) (map norm (pr_requires p)) (map norm (pr_ensures p))
        (pr_locals p) (norm_blocks (pr_blocks p)))
  end.

(** ** Reading a text *)
Definition eventually (P : nat -> Prop) : Prop := exists k0, forall k, (k0 <= k)%nat -> P k.
Definition reads {A} (p : nat -> parser A) (s : string) (a : A) : Prop :=
  exists ts, eventually (fun k => tokens k s = Some ts) /\ eventually (fun k => p k ts = Some (a, [])).
Definition reads_program (s : string) (l : list decl) : Prop :=
  exists ts, eventually (fun k => tokens k s = Some ts) /\ eventually (fun k => p_program k ts = Some l).
