(** share/smack/top.py: the marks put on procedures in the Boogie file. *)
From Coq Require Import ZArith List String Ascii Bool.
From Verif.Spec Require Import Regex.
From Verif.Model Require Import PyRegex ErrTrace Driver BoogieAst.
Import ListNotations.
Open Scope string_scope.
Open Scope list_scope.

Record args := Args { entry_points : list string; modular : bool; verifier : string; unroll : Z }.

(** inlined_procedures – :201-215 *)
Definition inlined_procedures : list string :=
  ["$galloc"; "$alloc"; "$malloc"; "$free"; "$memset"; "$memcpy"; "__VERIFIER_"; "$initialize"; "__SMACK_static_init";
   "__SMACK_init_func_memory_model"; "__SMACK_loop_exit"; "__SMACK_check_overflow"].
(** "|".join(…), with $ escaped – :775 *)
Fixpoint alternatives (l : list string) : re :=
  match l with [] => Eps | [w] => word w | w :: l' => Alt (word w) (alternatives l') end.
Definition matches (r : re) (s : string) : bool := match py_match r s with Some _ => true | None => false end.
(** procedure_annotation – :771-780 *)
Definition procedure_annotation (a : args) (n : string) : string :=
  if existsb (String.eqb n) (entry_points a) then "{:entrypoint}"
  else if modular a && matches (alternatives inlined_procedures) n then "{:inline 1}"
  else if negb (modular a) && String.eqb (verifier a) "boogie" then ("{:inline " ++ int_text (unroll a) ++ "}")%string
  else "".

(** The pattern, without blanks: procedure \s+ ( [^\s(]* ) \s* \( – :786 *)
Definition proc_decl : re :=
  Cat (word "procedure") (Cat (Plus (Chr space)) (Cat (Grp 1 (Star (Chr (fun c => negb (space c || Ascii.eqb c "(")))))
    (Cat (Star (Chr space)) (word "(")))).
Definition annotated (a : args) (c : captures) : option string :=
  match group 1 c with Some n => Some ("procedure " ++ procedure_annotation a n ++ " " ++ n ++ "(")%string | None => None end.
(** annotate_bpl – :783-799; [version] is SMACK's, [argv] the command line. *)
Definition annotate_bpl (a : args) (version argv text : string) : option string :=
  match py_sub (String.length text) proc_decl (annotated a) text with
  | Some t => Some ("// generated by SMACK version " ++ version ++ " for " ++ verifier a ++ nl ++ "// via " ++ argv ++ nl ++ nl ++ t)%string
  | None => None
  end.
