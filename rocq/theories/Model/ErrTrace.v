(** share/smack/errtrace.py.  The regular expressions run on the matcher of
    Model/PyRegex.v.  Python floats are binary64 with round to nearest, ties to even;
    their decimal text is a function [show] (Python's repr, not modelled).  [None]: a
    Python exception. *)
From Coq Require Import ZArith List String Ascii Bool.
From Verif.Spec Require Import Regex TraceValues.
From Verif.Model Require Import PyRegex.
Import ListNotations.
Open Scope string_scope.
Open Scope list_scope.
Open Scope Z_scope.

(** ** Python *)
(** re.sub with a function, for expressions that match no empty text; [k] bounds the
    number of matches. *)
Fixpoint py_sub (k : nat) (r : re) (f : captures -> option string) (s : string) : option string :=
  match k with
  | O => Some s
  | S k' =>
      match py_search r s with
      | None => Some s
      | Some (pre, c, rest) =>
          match f c, py_sub k' r f rest with
          | Some t, Some u => Some (pre ++ t ++ u)%string
          | _, _ => None
          end
      end
  end.
(** str.strip *)
Fixpoint lstrip (s : string) : string := match s with String c s' => if space c then lstrip s' else s | EmptyString => "" end.
Fixpoint rstrip (s : string) : string :=
  match s with
  | EmptyString => ""
  | String c s' => match rstrip s' with EmptyString => if space c then "" else String c "" | t => String c t end
  end.
Definition strip (s : string) : string := rstrip (lstrip s).
(** str.split with a one-character separator *)
Fixpoint split (sep : ascii) (s : string) : list string :=
  match s with
  | EmptyString => [""]
  | String c s' =>
      if Ascii.eqb c sep then "" :: split sep s'
      else match split sep s' with [] => [String c ""] | x :: l => String c x :: l end
  end.
(** x in s, for text x *)
Definition contains (x s : string) : bool := searches (word x) s.

(** Floats: magnitude m * 2^e with a sign. *)
Inductive pyfloat := Fin (neg : bool) (m e : Z) | Inf (neg : bool).
Definition round64 (neg : bool) (m e : Z) : pyfloat :=
  if m =? 0 then Fin neg 0 0 else
  let k := Z.max (-1074) (e + Z.log2 m - 52) in
  let M :=
    if k <=? e then m * 2 ^ (e - k)
    else let d := 2 ^ (k - e) in
         let q := m / d in let r := m mod d in
         if 2 * r <? d then q else if d <? 2 * r then q + 1 else if Z.even q then q else q + 1 in
  if 1024 <=? Z.log2 M + k then Inf neg else Fin neg M k.
Definition fmul (a b : pyfloat) : option pyfloat :=
  match a, b with Fin s m e, Fin s' m' e' => Some (round64 (xorb s s') (m * m') (e + e')) | _, _ => None end.
(** float.fromhex of int.frac *)
Definition fromhex (i f : string) : option pyfloat :=
  match round64 false (numeral 16 (i ++ f)) (-4 * Z.of_nat (String.length f)) with
  | Inf _ => None (* OverflowError *)
  | x => Some x
  end.
(** 2**k as a factor of a float: an integer for k >= 0 (converted, OverflowError from
    2^1024 on), otherwise a float (0.0 when too small). *)
Definition pow2 (k : Z) : option pyfloat :=
  if 0 <=? k then (if 1024 <=? k then None else Some (Fin false 1 k))
  else if -1074 <=? k then Some (Fin false 1 k) else Some (Fin false 0 0).

(** ** reformat_assignment – :6-36 *)
Definition d1 : re := Plus (Chr digit).
Definition h1 : re := Plus (Chr hexdigit).
Definition dash : re := Opt (is "-").
Definition bv_re : re := Cat (Grp 2 d1) (Cat (word "bv") d1).
Definition exp_re : re := Cat (is "e") (Cat (Grp 5 dash) (Cat (Grp 6 d1) (Cat (is "f") (Cat (Grp 7 d1) (Cat (is "e") (Grp 8 d1)))))).
Definition fp_re : re := Cat (Grp 3 dash) (Cat (word "0x") (Cat (Grp 4 (Cat h1 (Cat (is ".") h1))) exp_re)).
Definition const_re : re := Grp 1 (Alt bv_re fp_re).

(** At the dot: the text before and behind it. *)
Fixpoint at_dot (s : string) : string * string :=
  match s with
  | EmptyString => ("", "")
  | String c s' => if Ascii.eqb c "." then ("", s') else let '(a, b) := at_dot s' in (String c a, b)
  end.

Section Show.
Context (show : pyfloat -> string).

Definition repl (c : captures) : option string :=
  let g n := match group n c with Some x => x | None => "" end in
  let whole := g 1%nat in
  if contains "bv" whole then Some (g 2%nat ++ "UL")%string
  else
    let sig_size := numeral 10 (g 7%nat) in
    let exp_size := numeral 10 (g 8%nat) in
    if (53 <? sig_size) || (11 <? exp_size) then Some whole
    else
      let sign_neg := negb (String.eqb (g 3%nat) "") in
      let '(i, f) := at_dot (g 4%nat) in
      let exp_sign_val := if String.eqb (g 5%nat) "" then 1 else -1 in
      match fromhex i f, pow2 (4 * exp_sign_val * numeral 10 (g 6%nat)) with
      | Some (Fin _ m e), Some p => match fmul (Fin sign_neg m e) p with Some x => Some (show x) | None => None end
      | _, _ => None
      end.
Definition reformat_assignment (line : string) : option string :=
  let s := strip line in py_sub (String.length s) const_re repl s.

(** ** transform – :39-48 *)
Definition transform (info : string) : option string :=
  if contains "=" info then
    match split "=" info with
    | lhs :: rhs :: _ => match reformat_assignment (strip rhs) with Some t => Some (strip lhs ++ " = " ++ t)%string | None => None end
    | _ => None
    end
  else Some info.

(** ** The steps of a Corral trace – :118-157; the raw steps are those found by the
    regular expression of :119-122. *)
Record raw := Raw { w_file : string; w_line : string; w_column : string; w_thread : string; w_description : string }.
Definition fails_re : re := Cat (word "ASSERTION FAILS") (Cat (Star any) (word (String ";" (String newline "")))).
Definition sp1 : re := Plus (Chr space).
Definition skip_re : re :=
  Alt (Cat (Alt (word "CALL") (word "RETURN from")) (Cat sp1 (Alt (is "$") (word "__SMACK")))) (Alt (word "Done") (word "ASSERTION")).

Definition description (w : raw) : option string :=
  if contains "ASSERTION FAILS" (w_description w)
  then py_sub (String.length (w_description w)) fails_re (fun _ => Some "") (w_description w)
  else Some (w_description w).
Fixpoint tokens_entries (w : raw) (l : list string) : option (list entry) :=
  match l with
  | [] => Some []
  | token :: l' =>
      let token := strip token in
      if searches skip_re token then tokens_entries w l'
      else match transform token, tokens_entries w l' with
           | Some t, Some es => Some (Entry (w_file w) (w_line w) (w_column w) (w_thread w) t (if contains "=" t then t else "") :: es)
           | _, _ => None
           end
  end.
Definition step_entries (w : raw) : option (list entry) :=
  match description w with Some d => tokens_entries w (split "," d) | None => None end.
Fixpoint entries (l : list raw) : option (list entry) :=
  match l with
  | [] => Some []
  | w :: l' => match step_entries w, entries l' with Some a, Some b => Some (a ++ b) | _, _ => None end
  end.
(** failsAt – :130-137: the last one *)
Fixpoint failsAt (l : list raw) (acc : option (string * string * string)) : option (string * string * string) :=
  match l with
  | [] => acc
  | w :: l' => failsAt l' (if contains "ASSERTION FAILS" (w_description w) then Some (w_file w, w_line w, w_column w) else acc)
  end.
End Show.

(** ** merger – :77-91, folded over the entries (functools.reduce) – :163 *)
Fixpoint merger (traces : list entry) (trace : entry) : list entry :=
  match traces with
  | [] => [trace]
  | [l] =>
      if String.eqb (e_file l) (e_file trace) && String.eqb (e_line l) (e_line trace) && String.eqb (e_column l) (e_column trace)
      then [Entry (e_file l) (e_line l) (e_column l) (e_thread l)
              (if String.eqb (e_description trace) "" then e_description l
               else if String.eqb (e_description l) "" then e_description trace
               else e_description l ++ ", " ++ e_description trace)%string
              (e_assumption l)]
      else [l; trace]
  | a :: traces' => a :: merger traces' trace
  end.
Definition prettify (l : list entry) : list entry := fold_left merger l [].
