(** The marks verifiers read on procedures, and procedure headers in text. *)
From Coq Require Import ZArith List String Ascii Bool.
From Verif.Spec Require Import BoogieSyntax.
Import ListNotations.
Open Scope string_scope.
Open Scope list_scope.

(** {:entrypoint} and {:inline n} *)
Definition entrypoint : attr := Attr "entrypoint" [].
Definition inline (n : Z) : attr := Attr "inline" [AExpr (Num n)].
(** Procedures of SMACK's library; the names are prefixes. *)
Definition library : list string :=
  ["$galloc"; "$alloc"; "$malloc"; "$free"; "$memset"; "$memcpy"; "__VERIFIER_"; "$initialize"; "__SMACK_static_init";
   "__SMACK_init_func_memory_model"; "__SMACK_loop_exit"; "__SMACK_check_overflow"].
Definition in_library (n : string) : Prop := exists w r, In w library /\ n = (w ++ r)%string.

(** The marks of the procedure [n] for the entry points, in modular verification or not,
    for Boogie or not, with the bound [k]. *)
Inductive marks (entries : list string) (modular boogie : bool) (k : Z) (n : string) : list attr -> Prop :=
| marks_entry : In n entries -> marks entries modular boogie k n [entrypoint]
| marks_library : ~ In n entries -> modular = true -> in_library n -> marks entries modular boogie k n [inline 1]
| marks_bound : ~ In n entries -> modular = false -> boogie = true -> marks entries modular boogie k n [inline k]
| marks_other : ~ In n entries -> (modular = true -> ~ in_library n) -> (modular = false -> boogie = false) -> marks entries modular boogie k n [].
(** A declaration with its marks. *)
Inductive marked (entries : list string) (modular boogie : bool) (k : Z) : decl -> decl -> Prop :=
| marked_proc p l : marks entries modular boogie k (pr_name p) l ->
    marked entries modular boogie k (DProc p)
      (DProc (Proc l (pr_name p) (pr_params p) (pr_rets p) (pr_mods p) (pr_requires p) (pr_ensures p) (pr_locals p) (pr_blocks p)))
| marked_other d : (forall p, d <> DProc p) -> marked entries modular boogie k d d.

(** [h] is the header of [n], up to the parenthesis. *)
Definition blank (c : ascii) : bool := existsb (Ascii.eqb c) [" "; "009"; "010"; "011"; "012"; "013"; "028"; "029"; "030"; "031"]%char.
Fixpoint every (p : ascii -> bool) (s : string) : Prop := match s with EmptyString => True | String c s' => p c = true /\ every p s' end.
Definition header (n h : string) : Prop := exists u v, h = ("procedure" ++ u ++ n ++ v ++ "(")%string /\
  u <> "" /\ every blank u /\ every blank v /\ every (fun c => negb (blank c || Ascii.eqb c "(")) n.
(** [t] is [s] with [ann n] put into each header of a procedure [n], from left to right. *)
Inductive rewritten (ann : string -> string) : string -> string -> Prop :=
| rw_end s : (forall u h v n, s = (u ++ h ++ v)%string -> ~ header n h) -> rewritten ann s s
| rw_header u n h v t : header n h -> (forall u' w h' v' n', u = (u' ++ w)%string -> w <> "" -> (w ++ h ++ v = h' ++ v')%string -> ~ header n' h') ->
    rewritten ann v t -> rewritten ann (u ++ h ++ v) (u ++ "procedure " ++ ann n ++ " " ++ n ++ "(" ++ t).
