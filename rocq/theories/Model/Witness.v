(** Witness files for SV-COMP: share/smack/svcomp/toSVCOMPformat.py, called by
    share/smack/svcomp/utils.py:157-178 with the JSON form of Corral's trace
    (Model/ErrTrace.v, without merging).

    Python exceptions are [None].  XML elements are terms: the <node> and <edge>
    children of <graph> are two lists, a <data> element is a pair of its key and its
    text; namespaces, key definitions (:24-67), indentation and what is printed to the
    terminal are left out.  Lines are text, as the regular expression of errtrace.py
    gives them. *)
From Coq Require Import ZArith List String Ascii Bool.
From Verif.Spec Require Import Regex TraceValues.
From Verif.Model Require Import PyRegex ErrTrace.
From Verif.Model Require Naming.
Import ListNotations.
Open Scope string_scope.
Open Scope list_scope.

(** ** XML *)
Record node := Node { n_id : string; n_data : list (string * string) }.
Record edge := Edge { e_source : string; e_target : string; e_data : list (string * string) }.
(** [num]: the global variable nextNum – :15 *)
Record graph := Graph { num : nat; g_data : list (string * string); nodes : list node; edges : list edge }.

(** addGraphNode – :77-93 *)
Definition addGraphNode (g : graph) (data : list (string * string)) : graph * string :=
  let ID := String.append "A" (Naming.dec (num g)) in
  (Graph (S (num g)) (g_data g) (nodes g ++ [Node ID data]) (edges g), ID).
(** addGraphEdge – :95-105 *)
Definition addGraphEdge (g : graph) (source target : string) (data : list (string * string)) : graph :=
  Graph (num g) (g_data g) (nodes g) (edges g ++ [Edge source target data]).
(** The loop over the nodes that looks for one by its identifier – :180-183 *)
Definition addKeyTo (g : graph) (id key text : string) : graph :=
  Graph (num g) (g_data g)
    (map (fun n => if String.eqb (n_id n) id then Node (n_id n) (n_data n ++ [(key, text)]) else n) (nodes g)) (edges g).

(** ** The header *)
(** What is read from the command line, files and the clock; [sha256] of the program's
    text. *)
Record world := World { version : string; property_text : string; programfile : string; sha256 : string; clang_options : string; now : string }.
Definition arch_re : re := Cat (word "-m") (Grp 1 (Alt (word "32") (word "64"))).
(** buildEmptyXmlGraph – :108-132 *)
Definition buildEmptyXmlGraph (w : world) (hasBug : bool) : option graph :=
  match py_search arch_re (clang_options w) with
  | None => None (* AttributeError *)
  | Some (_, c, _) =>
      match group 1 c with
      | None => None
      | Some a =>
          Some (Graph 0
            [ ("witness-type", if hasBug then "violation_witness" else "correctness_witness"); ("sourcecodelang", "C");
              ("producer", String.append "SMACK " (version w)); ("specification", strip (property_text w));
              ("programfile", programfile w); ("programhash", sha256 w);
              ("architecture", String.append a "bit"); ("creationtime", now w) ] [] [])
      end
  end.

(** ** Notes of the trace *)
(** formatAssign – :134-142 *)
Definition assign_re : re := Cat (Grp 1 (Star any)) (Cat (is "=") (Grp 2 (Star any))).
Definition bvconst_re : re := Cat (is "=") (Cat (Grp 1 (Cat (Star (Chr space)) d1)) (Grp 2 (Cat (word "bv") d1))).
Definition formatAssign (s : string) : option string :=
  if String.eqb s "" then Some s else
  match py_match assign_re s with
  | None => Some ""
  | Some (c, _) =>
      match group 1 c, group 2 c with
      | Some a, Some b =>
          let t := (a ++ "==" ++ b)%string in
          py_sub (String.length t) bvconst_re (fun c => match group 1 c with Some x => Some ("=" ++ x ++ "U")%string | None => None end) t
      | _, _ => None
      end
  end.
(** isSMACKInitFunc – :144-145 *)
Definition isSMACKInitFunc (f : string) : bool :=
  String.eqb f "$initialize" || String.eqb f "__SMACK_static_init" || String.eqb f "__SMACK_init_func_memory_model".
(** str.split('==') *)
Fixpoint split_eqs (s : string) : list string :=
  match s with
  | EmptyString => [""]
  | String c s' =>
      match s' with
      | String d s'' =>
          if Ascii.eqb c "=" && Ascii.eqb d "=" then "" :: split_eqs s''
          else match split_eqs s' with [] => [String c ""] | x :: l => String c x :: l end
      | EmptyString => match split_eqs s' with [] => [String c ""] | x :: l => String c x :: l end
      end
  end.
(** s[n:] *)
Fixpoint from (n : nat) (s : string) : string := match n, s with S n', String _ s' => from n' s' | _, _ => s end.
(** re.compile(".*/smack/lib/.+\.[c|h]$").match – :166: up to the end or a final newline *)
Definition lib_re : re :=
  Cat (Star any) (Cat (word "/smack/lib/") (Cat (Plus any) (Cat (is ".") (Chr (fun c => existsb (Ascii.eqb c) ["c"; "|"; "h"]%char))))).
Definition is_lib_file (f : string) : bool :=
  existsb (fun m => String.eqb (snd m) "" || String.eqb (snd m) (String newline "")) (ms lib_re f).

(** ** smackJsonToXmlGraph – :147-224 *)
(** [callStack]: the functions, the last one first *)
Record state := State { tree : graph; lastNode : string; callStack : list string }.
Definition nondet_prefix : string := "smack:ext:__VERIFIER_nondet".

(** An input – :189-206 *)
Definition visit_input (t : entry) (s : state) : option state :=
  match formatAssign (e_description t) with
  | None => None
  | Some formattedAssign =>
      if prefix nondet_prefix formattedAssign then
        match split_eqs formattedAssign with
        | tok0 :: tok1 :: _ =>
            let nondet_func := from (String.length "smack:ext:") (strip tok0) in
            let val := strip tok1 in
            let new_assumption := ("\result == " ++ val ++ ";")%string in
            match callStack s with
            | [] => None (* IndexError *)
            | scope_func :: _ =>
                let scope := if contains "." scope_func then hd "" (split "." scope_func) else scope_func in
                let '(g1, newNode) := addGraphNode (tree s) [] in
                Some (State
                  (addGraphEdge g1 (lastNode s) newNode
                     [ ("startline", e_line t); ("assumption", new_assumption); ("assumption.resultfunction", nondet_func); ("assumption.scope", scope) ])
                  newNode (callStack s))
            end
        | _ => None
        end
      else Some s
  end.
(** Calls and returns – :207-227; [continue] leaves the iteration *)
Definition visit_call (t : entry) (s : state) : state * bool :=
  let desc := e_description t in
  if contains "CALL" desc then
    let calledFunc := strip (from (String.length "CALL ") desc) in
    if prefix "devirtbounce" calledFunc then (s, true)
    else if isSMACKInitFunc calledFunc then (s, true)
    else (State (tree s) (lastNode s) (calledFunc :: callStack s), false)
  else (s, false).
Definition visit_return (t : entry) (s : state) : option state :=
  let desc := e_description t in
  if contains "RETURN from" desc then
    let returnedFunc := strip (from (String.length "RETURN from ") desc) in
    if prefix "devirtbounce" returnedFunc then Some s
    else if isSMACKInitFunc returnedFunc then Some s
    else match callStack s with
         | [] => None (* IndexError *)
         | f :: rest => if String.eqb returnedFunc f then Some (State (tree s) (lastNode s) rest) else None (* RuntimeError *)
         end
  else Some s.
Definition visit (t : entry) (s : state) : option state :=
  match visit_input t s with
  | None => None
  | Some s1 => let '(s2, continue) := visit_call t s1 in if continue then Some s2 else visit_return t s2
  end.
(** [failsAt]: the line of the failure, [None] for null – :176-186 *)
Fixpoint loop (failsAt : option string) (l : list entry) (s : state) : option graph :=
  match l with
  | [] => Some (tree s)
  | t :: l' =>
      if contains "ASSERTION FAILS" (e_description t) then
        match failsAt with
        | None => None (* TypeError *)
        | Some line =>
            let '(g1, newNode) := addGraphNode (tree s) [] in
            Some (addGraphEdge (addKeyTo g1 newNode "violation" "true") (lastNode s) newNode [("startline", line)])
        end
      else if is_lib_file (e_file t) then loop failsAt l' s
      else match visit t s with Some s' => loop failsAt l' s' | None => None end
  end.
(** [json]: failsAt and traces *)
Definition smackJsonToXmlGraph (w : world) (json : option string * list entry) (hasBug pthread : bool) : option graph :=
  match buildEmptyXmlGraph w hasBug with
  | None => None
  | Some g =>
      let '(g1, start) := addGraphNode g [("entry", "true")] in
      if hasBug && negb pthread then loop (fst json) (snd json) (State g1 start ["main"]) else Some g1
  end.

(** svcomp/utils.py:169-173 with errtrace.py:117-165: the witness for a failure found by
    Corral, from the steps of its trace *)
Definition write_error_file (show : pyfloat -> string) (w : world) (steps : list raw) (pthread : bool) : option graph :=
  match entries show steps with
  | None => None
  | Some es => smackJsonToXmlGraph w (option_map (fun p => snd (fst p)) (failsAt steps None), es) true pthread
  end.
