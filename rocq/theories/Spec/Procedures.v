(** Specification for C59: calls of an LLVM module, and the procedures of a Boogie program.

    A module is a list of values with identities and operands; the operands of a call are its arguments and then
    the function, those of an invoke its arguments, two blocks and the function. *)
From Coq Require Import String List Bool Arith.
Import ListNotations.
Open Scope string_scope.
Open Scope list_scope.

(** ** LLVM *)
Inductive ty :=
| TVoid | TInt (w : nat) | THalf | TFloat | TDouble | TLongDouble | TPtr | TVec (n : nat) (elem : ty)
| TElse.                         (* labels, structures and arrays *)
Record func := Func {
  llvm_name : string;
  boogie_name : string;          (* the name it has in the Boogie program *)
  params : list (string * ty);   (* Boogie names and types of the parameters *)
  result : ty;
  vararg : bool;
  defined : bool }.
Inductive kind := KFunc (f : func) | KCall (parent : func) | KInvoke (parent : func) | KCast | KOther.
Record node := Node { nid : nat; nty : ty; nops : list nat; nkind : kind }.
Definition module_ := list node.
Definition node_of (m : module_) (i : nat) : option node := find (fun n => Nat.eqb (nid n) i) m.
Definition type_of (m : module_) (i : nat) : ty := match node_of m i with Some n => nty n | None => TElse end.

(** Arguments of a call or an invoke *)
Definition arguments (n : node) : list nat :=
  match nkind n with
  | KCall _ => firstn (List.length (nops n) - 1) (nops n)
  | KInvoke _ => firstn (List.length (nops n) - 3) (nops n)
  | _ => []
  end.
(** The value [i] is the function [f], possibly with its type cast. *)
Inductive denotes (m : module_) (i : nat) (f : func) : Prop :=
| d_func t ops : node_of m i = Some (Node i t ops (KFunc f)) -> denotes m i f
| d_cast t j : node_of m i = Some (Node i t [j] KCast) -> denotes m j f -> denotes m i f.
Definition calls (m : module_) (n : node) (f : func) : Prop :=
  In n m /\ (exists p, nkind n = KCall p \/ nkind n = KInvoke p) /\ exists c, last (nops n) 0 = c /\ nops n <> [] /\ denotes m c f.
(** The arguments and the result of the call have the types the function has. *)
Definition well_typed (m : module_) (n : node) (f : func) : Prop :=
  firstn (List.length (params f)) (map (type_of m) (arguments n)) = map snd (params f) /\
  (vararg f = false -> List.length (arguments n) = List.length (params f)) /\
  nty n = result f.

(** ** Boogie *)
Inductive code := MallocCode (param : string) | FreeCode (param : string) | CodeOf (f : func).
Record proc := Proc { pname : string; pparams : list (string * string); prets : list (string * string); pbody : list code }.
(** A call: the procedure, arguments and the variables for results, with their types *)
Record callstmt := CallStmt { cname : string; cargs : list (nat * string); crets : list (nat * string) }.
(** There is exactly one procedure of that name, and it takes and gives the types of the call. *)
Definition resolves (ps : list proc) (c : callstmt) (p : proc) : Prop :=
  filter (fun q => String.eqb (pname q) (cname c)) ps = [p] /\
  map snd (pparams p) = map snd (cargs c) /\ map snd (prets p) = map snd (crets c).
(** What the parameters are when it runs *)
Definition bindings (c : callstmt) (p : proc) : list (string * nat) := combine (map fst (pparams p)) (map fst (cargs c)).

(** ** The names of the functions: different, and a variadic function's name is not continued by another's with a dot *)
Definition functions (m : module_) : list func := flat_map (fun n => match nkind n with KFunc f => [f] | _ => [] end) m.
Definition names_ok (m : module_) : Prop :=
  NoDup (map boogie_name (functions m)) /\
  forall f g, In f (functions m) -> In g (functions m) -> vararg f = true ->
    String.prefix (boogie_name f ++ ".") (boogie_name g) = false.
(** Identities are unique and operands exist. *)
Definition graph_ok (m : module_) : Prop :=
  NoDup (map nid m) /\ forall n i, In n m -> In i (nops n) -> exists k, In k m /\ nid k = i.
(** Casts are casts of pointers.  __SMACK_return_value has no parameters and no body, and __SMACK_value takes anything. *)
Definition casts_ok (m : module_) : Prop :=
  forall n, In n m -> nkind n = KCast -> exists j, nops n = [j] /\ nty n = TPtr /\ type_of m j = TPtr.
Definition annotations_ok (m : module_) : Prop :=
  forall r f, In r m -> nkind r = KFunc f -> llvm_name f = "__SMACK_return_value" ->
    nops r = [] /\ forall u p, In u m -> nkind u = KCall p -> last (nops u) 0 = nid r -> nops u = [nid r].

(** ** Functions whose calls become calls *)
Definition contains (part n : string) : bool := match index 0 part n with Some _ => true | None => false end.
Definition ordinary (f : func) : Prop :=
  Forall (fun p => contains p (llvm_name f) = false)
    ["__SMACK_value"; "__SMACK_return_value"; "__SMACK_mod"; "__SMACK_code"; "__SMACK_decl"; "__SMACK_top_decl"] /\
  Forall (fun n => llvm_name f <> n)
    ["__SMACK_RUST_PANIC_MARKER"; "__CONTRACT_int_variable"; "__CONTRACT_forall"; "__CONTRACT_requires"; "__CONTRACT_ensures"; "__CONTRACT_invariant"] /\
  String.prefix "$expr" (boogie_name f) = false /\ boogie_name f <> "__SMACK_decls" /\
  (vararg f = true -> boogie_name f <> "malloc" /\ boogie_name f <> "free_").
(** What the procedure of a function does: malloc and free allocate and free. *)
Definition code_of (f : func) : list code :=
  let first := match params f with (x, _) :: _ => x | [] => "" end in
  (if String.eqb (boogie_name f) "malloc" then [MallocCode first] else if String.eqb (boogie_name f) "free_" then [FreeCode first] else []) ++
  (if defined f then [CodeOf f] else []).
(** The call runs the function with its arguments, and its result is the result of the instruction. *)
Definition runs (n : node) (f : func) (c : callstmt) (p : proc) : Prop :=
  pbody p = code_of f /\
  List.length (bindings c p) = List.length (arguments n) /\
  firstn (List.length (params f)) (bindings c p) = combine (map fst (params f)) (arguments n) /\
  map snd (bindings c p) = arguments n /\
  map fst (crets c) = match result f with TVoid => [] | _ => [nid n] end.
