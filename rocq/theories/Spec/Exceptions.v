(** Specification for C60: LLVM functions with invoke, landingpad and resume.

    States (memory and registers), the other instructions, arguments and results are parameters. *)
From Coq Require Import ZArith List Bool Arith.
Import ListNotations.

Definition label := nat.
Definition fname := nat.
Inductive instr :=
| Op (k : nat)                                 (* any other instruction; it may fail an assertion *)
| Call (c : nat) (g : fname)                   (* [c]: arguments and result *)
| Pad (r : nat) (cleanup : bool)               (* r = landingpad, with or without cleanup *)
| Br (t : label) | CondBr (k : nat) (t e : label)
| Invoke (c : nat) (g : fname) (normal unwind : label)
| Resume (r : nat) | Ret (k : nat) | Unreachable.
(** Blocks by label; block 0 is the entry *)
Definition body := list (list instr).
Definition block (b : body) (l : label) : list instr := nth l b [].
(** Functions without a body are external *)
Definition program := list (option body).
Definition body_of (p : program) (g : fname) : option body := nth g p None.

Section Semantics.
  Context {State : Type}.
  Record meaning := Meaning {
    op : nat -> State -> option State -> Prop;        (* None: fails *)
    cond : nat -> State -> bool;
    enter : nat -> State -> State;                    (* passing the arguments *)
    leave : nat -> State -> State -> State;           (* back in the caller *)
    set_result : nat -> State -> State;               (* of the function *)
    read : nat -> State -> Z;                         (* register with the exception *)
    write : nat -> Z -> State -> State;
    phi : body -> label -> label -> State -> State;   (* the phi nodes of the target of a jump *)
    external : fname -> State -> State -> Prop;       (* an external function returns *)
    throws : fname -> State -> Z -> State -> Prop }.  (* or throws *)
  Context (M : meaning) (p : program).

  (** How a function ends *)
  Inductive result := Returned (s : State) | Unwound (v : Z) (s : State) | Failed.
  (** [run b l is s r]: the rest [is] of block [l] of a function with body [b] *)
  Inductive run : body -> label -> list instr -> State -> result -> Prop :=
  | r_op b l k is s s' r : op M k s (Some s') -> run b l is s' r -> run b l (Op k :: is) s r
  | r_fail b l k is s : op M k s None -> run b l (Op k :: is) s Failed
  (* a call: an exception leaves the caller too *)
  | r_call b l c g is s s' r : runs g (enter M c s) (Returned s') -> run b l is (leave M c s s') r -> run b l (Call c g :: is) s r
  | r_call_unwinds b l c g is s v s' : runs g (enter M c s) (Unwound v s') -> run b l (Call c g :: is) s (Unwound v (leave M c s s'))
  | r_call_fails b l c g is s : runs g (enter M c s) Failed -> run b l (Call c g :: is) s Failed
  (* an invoke: an exception goes to the landing pad of the unwind destination *)
  | r_invoke b l c g n u is s s' r : runs g (enter M c s) (Returned s') -> run b n (block b n) (phi M b l n (leave M c s s')) r ->
      run b l (Invoke c g n u :: is) s r
  | r_invoke_unwinds b l c g n u is s v s' x cl is' r : runs g (enter M c s) (Unwound v s') -> block b u = Pad x cl :: is' ->
      run b u is' (write M x v (phi M b l u (leave M c s s'))) r -> run b l (Invoke c g n u :: is) s r
  | r_invoke_fails b l c g n u is s : runs g (enter M c s) Failed -> run b l (Invoke c g n u :: is) s Failed
  | r_br b l t is s r : run b t (block b t) (phi M b l t s) r -> run b l (Br t :: is) s r
  | r_then b l k t e is s r : cond M k s = true -> run b t (block b t) (phi M b l t s) r -> run b l (CondBr k t e :: is) s r
  | r_else b l k t e is s r : cond M k s = false -> run b e (block b e) (phi M b l e s) r -> run b l (CondBr k t e :: is) s r
  | r_resume b l x is s : run b l (Resume x :: is) s (Unwound (read M x s) s)
  | r_ret b l k is s : run b l (Ret k :: is) s (Returned (set_result M k s))
  (** Functions *)
  with runs : fname -> State -> result -> Prop :=
  | r_body g b s r : body_of p g = Some b -> run b 0 (block b 0) s r -> runs g s r
  | r_external g s s' : body_of p g = None -> external M g s s' -> runs g s (Returned s')
  | r_throws g s v s' : body_of p g = None -> throws M g s v s' -> runs g s (Unwound v s').
End Semantics.
Arguments meaning : clear implicits.
Arguments result : clear implicits.

(** ** Conditions *)
Definition instructions (p : program) : list (body * label * instr) :=
  flat_map (fun o => match o with None => [] | Some b =>
    flat_map (fun l => map (fun i => (b, l, i)) (block b l)) (seq 0 (length b)) end) p.
(** Functions that are called, and not invoked, do not throw. *)
Definition calls_return {S} (M : meaning S) (p : program) : Prop :=
  forall b l c g, In (b, l, Call c g) (instructions p) -> forall s v s', ~ runs M p g s (Unwound v s').
Definition externals_return {S} (M : meaning S) : Prop := forall g s v s', ~ throws M g s v s'.
Definition only_cleanups (p : program) : Prop := forall b l r cl, In (b, l, Pad r cl) (instructions p) -> cl = true.
Definition invokes_internal (p : program) : Prop := forall b l c g n u, In (b, l, Invoke c g n u) (instructions p) -> body_of p g <> None.
(** No phi nodes in the destinations of invokes *)
Definition no_phis {S} (M : meaning S) (p : program) : Prop := forall b l c g n u s, In (b, l, Invoke c g n u) (instructions p) ->
  phi M b l n s = s /\ phi M b l u s = s.
(** As LLVM demands: the unwind destination of an invoke starts with a landing pad; there are no others there, and
    none where control goes otherwise. *)
Definition no_pad (is : list instr) : Prop := Forall (fun i => match i with Pad _ _ => False | _ => True end) is.
Definition pads_ok (p : program) : Prop :=
  (forall g b, body_of p g = Some b -> no_pad (block b 0)) /\
  forall b l i, In (b, l, i) (instructions p) ->
    match i with
    | Invoke _ _ n u => no_pad (block b n) /\ exists r cl is, block b u = Pad r cl :: is /\ no_pad is
    | Br t => no_pad (block b t)
    | CondBr _ t e => no_pad (block b t) /\ no_pad (block b e)
    | _ => True
    end.
