(** share/smack/svcomp/utils.py: svcomp_frontend and the command line of verify_bpl_svcomp. *)
From Coq Require Import NArith ZArith List String Ascii Bool.
From Verif.Spec Require Import SvcompRun.
From Verif.Model Require Import Driver BoogieAst.
From Verif.Model Require Frontend Svcomp.
Import ListNotations.
Open Scope string_scope.
Open Scope list_scope.

(** svcomp_frontend up to the compilation – :11-43: an exception, the end with the result UNKNOWN, or
    the settings with which the input is compiled and linked. *)
Inductive prepared := Exception | Unknown | Compiled (s : settings).
Definition svcomp_frontend (s : settings) : prepared :=
  if (1 <? List.length (inputs s))%nat then Exception
  else match Svcomp.svcomp_check_property (property s) (check s) with
  | None => Unknown
  | Some c =>
      let enc := if flag_in INTEGER_OVERFLOW c then "bit-vector" else integer_encoding s in
      let opts := (clang_options s ++ " -fbracket-depth=2048" ++ " -Wno-unknown-attributes" ++ " -DSVCOMP" ++ " -DDISABLE_PTHREAD_ASSERTS" ++ " -include smack.h" ++
        (if String.eqb (Frontend.splitext (hd "" (inputs s))) "i" then " -x c" else ""))%string in
      Compiled (Settings (inputs s) (property s) c enc true true true opts (bpl_file s) (unroll s) (time_limit s) (max_violations s) (context_bound s) (loop_limit s)
        (solver s) (modular s) (verifier_options s))
  end.
(** The command – :92-105; nothing of the settings but the file is in it. *)
Definition corral_command (s : settings) : list string :=
  ["corral"] ++ [bpl_file s] ++ ["/tryCTrace"; "/noTraceOnDisk"; "/printDataValues:1"] ++ ["/useProverEvaluate"; "/cex:1"] ++
  ["/bopt:proverOpt:O:smt.qi.eager_threshold=100"] ++ ["/bopt:proverOpt:O:smt.arith.solver=2"] ++ ["/timeLimit:880"] ++ ["/v:1"] ++ ["/recursionBound:65536"] ++ ["/trackAllVars"].
(** What is printed last and the exit code – :107-156; message: top.py:79-96. *)
Definition verify (fs : files) (s : settings) (out : string) (timed_out : bool) : option (string * Z) :=
  match Svcomp.verify_bpl_svcomp fs (command_output "corral" out timed_out) with
  | Some o => match message (if modular s then None else Some (int_text (unroll s))) (Svcomp.result o), return_code (Svcomp.result o) with
              | Some m, Some c => Some (m, c) | _, _ => None end
  | None => None
  end.
