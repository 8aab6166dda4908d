(** lib/smack/SmackRep.cpp: procedures and calls; SmackInstGenerator.cpp:633-810 visitCallInst, 305-320 visitInvokeInst;
    SmackModuleGenerator.cpp:36-113 generateProgram, procedures.

    Simplifications: the users of a value are enumerated in the order of the module (LLVM: most recent first), which
    affects only the order of declarations; the Boogie names are those of Naming::get (C33); the expression of a value
    is its identity with its Boogie type; blocks have type label, which prints like a pointer. *)
From Coq Require Import String List Bool Arith.
From Verif.Model Require Import Naming.
From Verif.Spec Require Import Procedures.
Import ListNotations.
Open Scope string_scope.
Open Scope list_scope.

Record options := Options { bit_precise : bool; float_enabled : bool; rust_panics : bool; should_check : string -> bool }.

(** StringRef::find(s) != npos *)
Fixpoint has (p n : string) : bool := String.prefix p n || match n with EmptyString => false | String _ n' => has p n' end.

Section Rep.
  Context (o : options) (m : module_).

  (** SmackRep.cpp:162-174, 214-244 intType, vectorType, type *)
  Definition intType (w : nat) : string := ((if bit_precise o then "bv" else "i") ++ dec w)%string.
  Fixpoint type (t : ty) : string :=
    match t with
    | THalf => if float_enabled o then "bvhalf" else "float"
    | TFloat => if float_enabled o then "bvfloat" else "float"
    | TDouble => if float_enabled o then "bvdouble" else "float"
    | TLongDouble => if float_enabled o then "bvlongdouble" else "float"
    | TInt w => intType w
    | TPtr => "ref"
    | TVec n e => ("vec." ++ dec n ++ "x" ++ type e)%string
    | TVoid | TElse => "ref"
    end.
  Definition isVoid (t : ty) : bool := match t with TVoid => true | _ => false end.

  (** 206-213 procName(F, types) *)
  Definition procName_types (f : func) (ts : list ty) : string :=
    if vararg f then fold_left (fun s t => (s ++ "." ++ type t)%string) ts (boogie_name f) else boogie_name f.
  (** 199-204 procName(F, U): all operands but the last *)
  Definition procName (f : func) (u : node) : string :=
    procName_types f (map (type_of m) (firstn (List.length (nops u) - 1) (nops u))).

  (** llvm::Value::users *)
  Definition users (i : nat) : list node := filter (fun u => existsb (Nat.eqb i) (nops u)) m.
  (** 23-50 findCallers: breadth first; [fuel] bounds the rounds of the loop, of which there are as many as values *)
  Definition enqueue (st : list nat * list node) (v : node) : list nat * list node :=
    let (covered, queue) := st in
    if existsb (Nat.eqb (nid v)) covered then st else (nid v :: covered, queue ++ [v]).
  Fixpoint search (fuel : nat) (covered : list nat) (queue callers : list node) : list node :=
    match fuel, queue with
    | S fuel', u :: queue' =>
        match nkind u with
        | KCall _ => search fuel' covered queue' (callers ++ [u])
        | _ => let (covered', queue'') := fold_left enqueue (users (nid u)) (covered, queue') in search fuel' covered' queue'' callers
        end
    | _, _ => callers
    end.
  Definition findCallers (n : node) : list node := search (S (List.length m)) [nid n] [n] [].

  (** llvm::CallBase::getCalledFunction *)
  Definition getCalledFunction (u : node) : option func :=
    match node_of m (last (nops u) 0) with Some (Node _ _ _ (KFunc f)) => Some f | _ => None end.
  (** llvm::Value::stripPointerCastsAndAliases *)
  Fixpoint strip (fuel : nat) (i : nat) : nat :=
    match fuel with
    | O => i
    | S fuel' => match node_of m i with Some (Node _ _ [j] KCast) => strip fuel' j | _ => i end
    end.
  (** SmackInstGenerator.cpp:643-647 *)
  Definition called (u : node) : option func :=
    match node_of m (strip (List.length m) (last (nops u) 0)) with Some (Node _ _ _ (KFunc f)) => Some f | _ => None end.

  Definition param (i : nat) : string := ("p." ++ dec i)%string.   (* indexedName("p", {i}) *)
  (** SmackRep.cpp:1006-1013 isContractExpr *)
  Definition isContractExpr (n : string) : bool := String.prefix "$expr" n.
  (** 1015-1067 procedure(F, CI) *)
  Definition procedure1 (f : func) (ci : option node) : proc :=
    let ps := map (fun a => (fst a, type (snd a))) (params f) in
    let rets := if isVoid (result f) then [] else [("$r", type (result f))] in
    let own := if defined f then [CodeOf f] else [] in
    let name := boogie_name f in
    let first := match ps with (x, _) :: _ => x | [] => "" end in
    if String.eqb name "malloc" then Proc name ps rets (MallocCode first :: own)
    else if String.eqb name "free_" then Proc name ps rets (FreeCode first :: own)
    else if isContractExpr name then Proc name ps rets own        (* and the memory maps as parameters *)
    else match ci with
         | None => Proc name ps rets own
         | Some u =>
             let more := map (fun i => (param i, type (type_of m (nth i (nops u) 0))))
                             (seq (List.length (params f)) (List.length (nops u) - 1 - List.length (params f))) in
             match nkind u, getCalledFunction u with
             | KCall parent, Some g =>
                 if String.eqb (llvm_name g) "__SMACK_return_value"
                 then Proc (procName_types f [result parent]) (ps ++ [(param 0, type (result parent))]) rets own
                 else Proc (procName f u) (ps ++ more) rets own
             | _, _ => Proc (procName f u) (ps ++ more) rets own
             end
         end.
  (** The node of the function called __SMACK_return_value *)
  Definition function_named (s : string) : option node :=
    find (fun n => match nkind n with KFunc f => String.eqb (llvm_name f) s | _ => false end) m.
  (** 1085-1091: the first of each name *)
  Fixpoint distinct (names : list string) (ps : list proc) : list proc :=
    match ps with
    | [] => []
    | p :: ps' => if existsb (String.eqb (pname p)) names then distinct names ps' else p :: distinct (pname p :: names) ps'
    end.
  (** 1069-1094 procedure(F) *)
  Definition procedure (n : node) (f : func) : list proc :=
    let callers := findCallers n ++
      (if String.eqb (llvm_name f) "__SMACK_value"
       then match function_named "__SMACK_return_value" with Some r => findCallers r | None => [] end else []) in
    if match callers with [] => true | _ => false end || negb (vararg f) then [procedure1 f None]
    else distinct [] (map (fun u => procedure1 f (Some u)) callers).
  (** SmackModuleGenerator.cpp:48-62, 104-113: the procedures of the program.  Those of contract expressions become
      functions. *)
  Definition procedures : list proc :=
    flat_map (fun n => match nkind n with
                       | KFunc f => if String.eqb (boogie_name f) "__SMACK_decls" then []
                                    else filter (fun p => negb (isContractExpr (pname p))) (procedure n f)
                       | _ => []
                       end) m.

  (** SmackRep.cpp:1100-1122 call *)
  Definition call (f : func) (u : node) : callstmt :=
    let k := match nkind u with KCall _ => 1 | KInvoke _ => 3 | _ => 0 end in
    CallStmt (procName f u) (map (fun i => (i, type (type_of m i))) (firstn (List.length (nops u) - k) (nops u)))
             (if isVoid (nty u) then [] else [(nid u, type (nty u))]).
  (** 350-441, 443-450 valueAnnotation, returnValueAnnotation *)
  Definition valueAnnotation (u : node) : option callstmt :=
    match arguments u with
    | [a] => Some (CallStmt ("__SMACK_value" ++ "." ++ type (type_of m (strip (List.length m) a))) [(a, type (type_of m a))] [(nid u, type (nty u))])
    | [a; b] => Some (CallStmt "__SMACK_values" [(a, type (type_of m a)); (b, type (type_of m b))] [(nid u, type (nty u))])
    | _ => None
    end.
  (** The argument is the variable $r of the procedure; [0] stands for it *)
  Definition returnValueAnnotation (parent : func) (u : node) : callstmt :=
    CallStmt ("__SMACK_value" ++ "." ++ type (result parent)) [(0, type (result parent))] [(nid u, type (nty u))].

  (** SmackInstGenerator.cpp:633-767 visitCallInst: what the call becomes.  None: a failing assertion or
      llvm_unreachable *)
  Inductive emitted := Calls (c : callstmt) | FailingAssert | Nothing | Inlined.
  Definition visitCallInst (u : node) (parent : func) : option emitted :=
    match called u with
    | None => None
    | Some f =>
        let name := llvm_name f in
        if rust_panics o && String.eqb name "__SMACK_RUST_PANIC_MARKER" && should_check o (llvm_name parent) then Some FailingAssert
        else if String.eqb name "__VERIFIER_assert" && negb (should_check o (llvm_name parent)) then Some Nothing
        else if has "__SMACK_value" name then match valueAnnotation u with Some c => Some (Calls c) | None => None end
        else if has "__SMACK_return_value" name then Some (Calls (returnValueAnnotation parent u))
        else if has "__SMACK_mod" name then Some Inlined
        else if has "__SMACK_code" name then Some Inlined
        else if has "__SMACK_decl" name then Some Inlined
        else if has "__SMACK_top_decl" name then Some Inlined
        else if isContractExpr (boogie_name f) then Some Nothing
        else if String.eqb name "__CONTRACT_int_variable" then Some Nothing
        else if String.eqb name "__CONTRACT_forall" then None
        else if String.eqb name "__CONTRACT_requires" || String.eqb name "__CONTRACT_ensures" || String.eqb name "__CONTRACT_invariant" then Some Inlined
        else Some (Calls (call f u))
    end.
  (** 305-312 visitInvokeInst *)
  Definition visitInvokeInst (u : node) : option emitted :=
    match getCalledFunction u with Some f => Some (Calls (call f u)) | None => None end.
  Definition visit (u : node) : option emitted :=
    match nkind u with KCall p => visitCallInst u p | KInvoke p => visitInvokeInst u | _ => None end.
End Rep.
