(** share/smack/svcomp/utils.py: properties, injection and verdicts.

    Left out: the frontend (:11-49) apart from the property, Corral's command line, what
    is printed before the verdict, and the writing of files (the witness is
    Model/Witness.v). *)
From Coq Require Import NArith ZArith List String Ascii Bool.
From Verif.Spec Require Import Regex TraceValues.
From Verif.Model Require Import PyRegex ErrTrace Driver.
From Verif.Model Require Witness.
Import ListNotations.
Open Scope string_scope.
Open Scope list_scope.

(** svcomp_check_property – :51-66: from the text of the property file, if there is one,
    and args.check; [None]: exit with the result UNKNOWN. *)
Definition svcomp_check_property (prop : option string) (check : N) : option N :=
  match prop with
  | None => Some check
  | Some p =>
      if contains "valid-deref" p then Some VALID_DEREF
      else if contains "valid-memcleanup" p then Some MEMLEAK
      else if contains "overflow" p then Some INTEGER_OVERFLOW
      else if contains "reach_error" p then Some check
      else None
  end.

(** str.replace; [skip] characters belong to the last match. *)
Fixpoint replace_from (old new : string) (skip : nat) (s : string) : string :=
  match s with
  | EmptyString => ""
  | String c s' =>
      match skip with
      | S k => replace_from old new k s'
      | O => if prefix old s then (new ++ replace_from old new (String.length old - 1) s')%string else String c (replace_from old new 0 s')
      end
  end.
Definition replace (old new s : string) : string := replace_from old new 0 s.
(** inject_assert_false – :72-77 *)
Definition inject_assert_false (content : string) : string :=
  replace "call reach_error();" "assert false; call reach_error();" content.
(** :86-89 *)
Definition injects (check : N) : bool :=
  negb (flag_in MEMORY_SAFETY check || flag_in MEMLEAK check || flag_in INTEGER_OVERFLOW check).
Definition bpl_text (check : N) (content : string) : string := if injects check then inject_assert_false content else content.

(** re.finditer *)
Fixpoint finditer (k : nat) (r : re) (s : string) : list captures :=
  match k with
  | O => []
  | S k' => match py_search r s with Some (_, c, rest) => c :: finditer k' r rest | None => [] end
  end.
Definition dotall : re := Chr (fun _ => true).
Definition tracking : string := "Verifying program while tracking".
Definition bound_re : re := Cat (word "Exhausted recursion bound of ") (Grp 1 positive_re).
(** :121-130 *)
Definition unrollMax (out : string) : option Z :=
  if contains tracking out then
    match py_sub (String.length out) (Cat (Star dotall) (word tracking)) (fun _ => Some tracking) out with
    | None => None
    | Some out' =>
        Some (fold_left (fun m c => match group 1 c with Some n => if Z.ltb m (numeral 10 n) then numeral 10 n else m | None => m end)
                (finditer (String.length out') bound_re out') 0%Z)
    end
  else Some 0%Z.
Definition loopUnrollBar : Z := 13.

(** verify_bpl_svcomp – :79-156: the result that is reported, and whether SMACK waits first
    (force_timeout, :68-70) *)
Record outcome := Outcome { result : N; waits : bool }.
Definition verify_bpl_svcomp (fs : files) (out : string) : option outcome :=
  let r := verification_result fs out corral in
  if flag_in r ERROR then Some (Outcome r false)
  else if N.eqb r TIMEOUT then
    match unrollMax out with
    | None => None
    | Some m => if Z.leb loopUnrollBar m then Some (Outcome VERIFIED false) else Some (Outcome r true)
    end
  else Some (Outcome r false).
(** The exit code; with a witness file (:158-176) a timeout ends in an exception if the
    program has no threads, since there is no trace (errtrace.py:93-94,
    toSVCOMPformat.py:149-153). *)
Definition exit_code (witness pthread : bool) (o : outcome) : option Z :=
  if witness && negb pthread && N.eqb (result o) TIMEOUT then None else return_code (result o).
