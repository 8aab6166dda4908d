(** share/smack/top.py: verify_bpl, the command line of the verifier and how its output is read. *)
From Coq Require Import ZArith List String Ascii Bool.
From Verif.Model Require Import Driver BoogieAst.
Import ListNotations.
Open Scope string_scope.
Open Scope list_scope.

Record vargs := VArgs {
  verifier_name : string; modular : bool; bpl_file : string; time_limit : Z; max_violations : Z; unroll : Z; loop_limit : Z;
  context_bound : Z; solver : string; entry_points : list string; verifier_options : list string }.
(** The choices of --verifier and the default – :534-542 *)
Definition verifiers : list string := ["boogie"; "corral"; "symbooglix"; "svcomp"].
Definition default_verifier : string := "corral".

(** verify_bpl – :904-955, without svcomp, which has a function of its own (C73).  The options
    are split. *)
Definition command (a : vargs) : option (list string) :=
  if String.eqb (verifier_name a) "svcomp" then None
  else if String.eqb (verifier_name a) "boogie" || modular a then
    Some (["boogie"] ++ [bpl_file a] ++ ["/doModSetAnalysis"] ++ ["/useArrayTheory"] ++ [("/timeLimit:" ++ int_text (time_limit a))%string] ++
      [("/errorLimit:" ++ int_text (max_violations a))%string] ++ ["/proverOpt:O:smt.array.extensional=false"] ++
      ["/proverOpt:O:smt.qi.eager_threshold=100"] ++ ["/proverOpt:O:smt.arith.solver=2"] ++
      (if negb (modular a) then [("/loopUnroll:" ++ int_text (unroll a))%string] else []) ++
      (if String.eqb (solver a) "cvc4" then ["/proverOpt:SOLVER=cvc4"] else if String.eqb (solver a) "yices2" then ["/proverOpt:SOLVER=Yices2"] else []) ++
      verifier_options a)
  else if String.eqb (verifier_name a) "corral" then
    Some (["corral"] ++ [bpl_file a] ++ ["/tryCTrace"; "/noTraceOnDisk"; "/printDataValues:1"] ++ [("/k:" ++ int_text (context_bound a))%string] ++
      ["/useProverEvaluate"] ++ [("/timeLimit:" ++ int_text (time_limit a))%string] ++ [("/cex:" ++ int_text (max_violations a))%string] ++
      [("/maxStaticLoopBound:" ++ int_text (loop_limit a))%string] ++ [("/recursionBound:" ++ int_text (unroll a))%string] ++
      ["/bopt:proverOpt:O:smt.qi.eager_threshold=100"] ++ ["/bopt:proverOpt:O:smt.arith.solver=2"] ++
      (if String.eqb (solver a) "cvc4" then ["/bopt:proverOpt:SOLVER=cvc4"] else if String.eqb (solver a) "yices2" then ["/bopt:proverOpt:SOLVER=Yices2"] else []) ++
      verifier_options a)
  else if String.eqb (verifier_name a) "symbooglix" then
    Some (["symbooglix"] ++ [bpl_file a] ++ ["--file-logging=0"] ++ [("--entry-points=" ++ join "," (entry_points a))%string] ++
      [("--timeout=" ++ int_text (time_limit a))%string] ++ [("--max-loop-depth=" ++ int_text (unroll a))%string] ++ verifier_options a)
  else None.
(** The verifier whose output verification_result takes it for – :873-892, 958 *)
Definition reader (a : vargs) : verifier :=
  if String.eqb (verifier_name a) "corral" then corral else if String.eqb (verifier_name a) "boogie" then boogie else other.
(** The run – :956-977: [out] is what the verifier prints.  What smack prints last and its exit code. *)
Definition run (fs : files) (a : vargs) (out : string) (timed_out : bool) : option (string * Z) :=
  match command a with
  | Some (name :: _) => Driver.verify_bpl fs (if modular a then None else Some (int_text (unroll a))) (reader a) (command_output name out timed_out)
  | _ => None
  end.
