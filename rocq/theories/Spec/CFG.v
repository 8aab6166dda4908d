(** Specification: LLVM functions as control-flow graphs of basic blocks in SSA
    form, and their executions.  Nothing here refers to SMACK.

    Parameters: [V] values; [E] operands and side-effect free instructions, with
    the registers they read ([uses]) and their meaning [evS] ([None]: undefined
    behaviour, poison); [M] memory; [P] instructions with side effects (loads,
    stores, calls, assertions, assumptions, non-deterministic choices), with
    meaning [prim p args m events result m']; [Ev] what they make observable
    (e.g. the outcome of an assertion). *)
From Coq Require Import List String Bool.
Import ListNotations.

(** Block identities; [Fwd p h] are blocks created later, between [p] and [h]. *)
Inductive label := Blk (n : nat) | Fwd (p h : label).
Fixpoint label_eqb (a b : label) : bool :=
  match a, b with
  | Blk n, Blk m => Nat.eqb n m
  | Fwd p h, Fwd p' h' => label_eqb p p' && label_eqb h h'
  | _, _ => false
  end.

Section CFG.
  Context {V E M P Ev : Type}.

  Inductive stmt :=
  | SAssign (x : string) (e : E)
  | SPrim (x : option string) (p : P) (args : list E).
  Inductive term :=
  | TRet (e : option E)
  | TBr (l : label)
  | TCond (e : E) (l1 l2 : label)
  | TSwitch (e : E) (default : label) (cases : list (V * label))
  | TInvoke (x : option string) (p : P) (args : list E) (normal unwind : label)
  | TResume (e : E)
  | TUnreachable.
  Record block := Block {
    phis : list (string * list (label * E));
    body : list stmt;
    bterm : term }.
  Record func := Func {
    params : list string;
    entry : label;
    blocks : list (label * block) }.

  Fixpoint lookup {A} (l : label) (bs : list (label * A)) : option A :=
    match bs with
    | [] => None
    | (l', b) :: bs' => if label_eqb l l' then Some b else lookup l bs'
    end.
  Definition block_of (f : func) (l : label) : option block := lookup l (blocks f).

  (** In the order of LLVM's getSuccessor. *)
  Definition succs (t : term) : list label :=
    match t with
    | TRet _ | TResume _ | TUnreachable => []
    | TBr l => [l]
    | TCond _ l1 l2 => [l1; l2]
    | TSwitch _ d cases => d :: map snd cases
    | TInvoke _ _ _ n u => [n; u]
    end.
  Definition edge (f : func) (p l : label) : Prop :=
    exists b, block_of f p = Some b /\ In l (succs (bterm b)).

  (** ** Executions *)
  Context (evS : (string -> option V) -> E -> option V)
          (prim : P -> list V -> M -> list Ev -> V -> M -> Prop)
          (** calls that may unwind; the flag says whether they did *)
          (inv : P -> list V -> M -> list Ev -> V -> bool -> M -> Prop)
          (one : V) (veq : V -> V -> bool).

  Definition regs := string -> option V.
  Definition upd (r : regs) (x : string) (v : V) : regs := fun y => if String.eqb x y then Some v else r y.
  Definition updo (r : regs) (x : option string) (v : V) : regs :=
    match x with Some x => upd r x v | None => r end.
  Fixpoint all_some {A} (l : list (option A)) : option (list A) :=
    match l with
    | [] => Some []
    | Some a :: l' => match all_some l' with Some r => Some (a :: r) | None => None end
    | None :: _ => None
    end.
  Definition evals (r : regs) (es : list E) : option (list V) := all_some (map (evS r) es).

  (** Entering block [l] from [p]: all phis take their values simultaneously. *)
  Definition phi_values (r : regs) (p : label) (phis : list (string * list (label * E))) : option (list (string * V)) :=
    all_some (map (fun ph => match lookup p (snd ph) with
                             | Some e => match evS r e with Some v => Some (fst ph, v) | None => None end
                             | None => None end) phis).
  Fixpoint upds (r : regs) (l : list (string * V)) : regs :=
    match l with [] => r | (x, v) :: l' => upds (upd r x v) l' end.
  Definition enter (f : func) (p l : label) (r : regs) : option (list stmt * regs) :=
    match block_of f l with
    | Some b => match phi_values r p (phis b) with Some vs => Some (body b, upds r vs) | None => None end
    | None => None
    end.

  Inductive outcome := Returned (v : option V) | Unwound (v : V).
  Inductive lstate :=
  | LRun (l : label) (k : list stmt) (r : regs) (m : M)
  | LDone (o : outcome) (m : M).

  (** Case selected by a switch. *)
  Fixpoint select_case (v : V) (d : label) (cases : list (V * label)) : label :=
    match cases with
    | [] => d
    | (c, l) :: cases' => if veq v c then l else select_case v d cases'
    end.

  Inductive lstep (f : func) : lstate -> list Ev -> lstate -> Prop :=
  | L_assign : forall l x e k r m v, evS r e = Some v ->
      lstep f (LRun l (SAssign x e :: k) r m) [] (LRun l k (upd r x v) m)
  | L_prim : forall l x p es k r m vs evs v m', evals r es = Some vs -> prim p vs m evs v m' ->
      lstep f (LRun l (SPrim x p es :: k) r m) evs (LRun l k (updo r x v) m')
  | L_ret : forall l r m b, block_of f l = Some b -> bterm b = TRet None ->
      lstep f (LRun l [] r m) [] (LDone (Returned None) m)
  | L_retv : forall l r m b e v, block_of f l = Some b -> bterm b = TRet (Some e) -> evS r e = Some v ->
      lstep f (LRun l [] r m) [] (LDone (Returned (Some v)) m)
  | L_resume : forall l r m b e v, block_of f l = Some b -> bterm b = TResume e -> evS r e = Some v ->
      lstep f (LRun l [] r m) [] (LDone (Unwound v) m)
  | L_br : forall l r m b l' k' r', block_of f l = Some b -> bterm b = TBr l' ->
      enter f l l' r = Some (k', r') -> lstep f (LRun l [] r m) [] (LRun l' k' r' m)
  | L_cond : forall l r m b e v l1 l2 k' r', block_of f l = Some b -> bterm b = TCond e l1 l2 ->
      evS r e = Some v -> enter f l (if veq v one then l1 else l2) r = Some (k', r') ->
      lstep f (LRun l [] r m) [] (LRun (if veq v one then l1 else l2) k' r' m)
  | L_switch : forall l r m b e v d cases k' r', block_of f l = Some b -> bterm b = TSwitch e d cases ->
      evS r e = Some v -> enter f l (select_case v d cases) r = Some (k', r') ->
      lstep f (LRun l [] r m) [] (LRun (select_case v d cases) k' r' m)
  | L_invoke : forall l r m b x p es vs evs v (unwinds : bool) m' n u k' r',
      block_of f l = Some b -> bterm b = TInvoke x p es n u ->
      evals r es = Some vs -> inv p vs m evs v unwinds m' ->
      enter f l (if unwinds then u else n) (updo r x v) = Some (k', r') ->
      lstep f (LRun l [] r m) evs (LRun (if unwinds then u else n) k' r' m').

  (** Undefined behaviour at this state: an operand that is needed next has no
      defined value, or control reaches [unreachable]. *)
  Definition goes_wrong (f : func) (s : lstate) : Prop :=
    match s with
    | LRun l (SAssign x e :: _) r m => evS r e = None
    | LRun l (SPrim x p es :: _) r m => evals r es = None
    | LRun l [] r m =>
        exists b, block_of f l = Some b /\
        match bterm b with
        | TRet None => False
        | TRet (Some e) | TResume e => evS r e = None
        | TUnreachable => True
        | TBr l' => enter f l l' r = None
        | TCond e l1 l2 =>
            match evS r e with Some v => enter f l (if veq v one then l1 else l2) r = None | None => True end
        | TSwitch e d cases =>
            match evS r e with Some v => enter f l (select_case v d cases) r = None | None => True end
        | TInvoke x p es n u =>
            match evals r es with
            | Some vs => exists evs v (w : bool) m', inv p vs m evs v w m' /\
                           enter f l (if w then u else n) (updo r x v) = None
            | None => True
            end
        end
    | LDone _ _ => False
    end.

  Definition lstart (f : func) (args : list V) (m : M) : option lstate :=
    match block_of f (entry f) with
    | Some b => Some (LRun (entry f) (body b) (upds (fun _ => None) (combine (params f) args)) m)
    | None => None
    end.

  Inductive lsteps (f : func) : lstate -> list Ev -> lstate -> Prop :=
  | LS_refl : forall s, lsteps f s [] s
  | LS_step : forall s1 t1 s2 t2 s3, lsteps f s1 t1 s2 -> lstep f s2 t2 s3 -> lsteps f s1 (t1 ++ t2) s3.

  (** What can be observed of an execution: the events so far and, if it has
      finished, how. *)
  Definition result (s : lstate) : option (outcome * M) :=
    match s with LDone o m => Some (o, m) | LRun _ _ _ _ => None end.
  Definition behaves (f : func) (args : list V) (m : M) (t : list Ev) (o : option (outcome * M)) : Prop :=
    exists s0 s, lstart f args m = Some s0 /\ lsteps f s0 t s /\ result s = o.
  Definition undefined_after (f : func) (args : list V) (m : M) (t : list Ev) : Prop :=
    exists s0 s, lstart f args m = Some s0 /\ lsteps f s0 t s /\ goes_wrong f s.

  (** ** Static single assignment form *)
  Context (uses : E -> list string).
  Definition stmt_def (s : stmt) : list string :=
    match s with SAssign x _ => [x] | SPrim (Some x) _ _ => [x] | SPrim None _ _ => [] end.
  Definition stmt_uses (s : stmt) : list string :=
    match s with SAssign _ e => uses e | SPrim _ _ es => flat_map uses es end.
  Definition term_def (t : term) : list string :=
    match t with TInvoke (Some x) _ _ _ _ => [x] | _ => [] end.
  Definition term_uses (t : term) : list string :=
    match t with
    | TRet None | TUnreachable | TBr _ => []
    | TRet (Some e) | TResume e | TCond e _ _ | TSwitch e _ _ => uses e
    | TInvoke _ _ es _ _ => flat_map uses es
    end.
  Definition block_defs (b : block) : list string :=
    map fst (phis b) ++ flat_map stmt_def (body b) ++ term_def (bterm b).

  (** Paths through the graph, and dominance. *)
  Inductive path (f : func) : label -> list label -> Prop :=
  | P_entry : path f (entry f) [entry f]
  | P_edge : forall p l t, path f p t -> edge f p l -> path f l (l :: t).
  Definition reachable (f : func) (l : label) : Prop := exists t, path f l t.
  Definition dominates (f : func) (d l : label) : Prop := forall t, path f l t -> In d t.

  (** [x] has been defined whenever control is at the start of [l] (after its
      phis) / at the end of [l]. *)
  Definition defined_in (f : func) (d : label) (x : string) : Prop :=
    exists b, block_of f d = Some b /\ In x (block_defs b).
  Definition available_at_start (f : func) (l : label) (x : string) : Prop :=
    In x (params f) \/ (exists d, d <> l /\ dominates f d l /\ defined_in f d x) \/
    (exists b, block_of f l = Some b /\ In x (map fst (phis b))).
  Definition available_at_end (f : func) (l : label) (x : string) : Prop :=
    In x (params f) \/ exists d, dominates f d l /\ defined_in f d x.

  Record ssa_form (f : func) : Prop := {
    (** the entry block exists, has no predecessors and no phis *)
    ssa_entry : exists b, block_of f (entry f) = Some b /\ phis b = [];
    ssa_entry_nopred : forall p, ~ edge f p (entry f);
    (** block identities are unique, targets exist *)
    ssa_labels : NoDup (map fst (blocks f));
    ssa_targets : forall p l, edge f p l -> exists b, block_of f l = Some b;
    (** every register is assigned at one place *)
    ssa_unique_block : forall l b, block_of f l = Some b -> NoDup (block_defs b);
    ssa_unique : forall l l' x, defined_in f l x -> defined_in f l' x -> l = l';
    ssa_params : forall l x, defined_in f l x -> ~ In x (params f);
    ssa_params_nodup : NoDup (params f);
    (** definitions dominate uses *)
    ssa_body : forall l b pre s post, block_of f l = Some b -> body b = pre ++ s :: post ->
      forall x, In x (stmt_uses s) -> available_at_start f l x \/ In x (flat_map stmt_def pre);
    ssa_term : forall l b, block_of f l = Some b ->
      forall x, In x (term_uses (bterm b)) -> available_at_start f l x \/ In x (flat_map stmt_def (body b));
    (** every phi has a value for each predecessor, defined at the end of it *)
    ssa_phi : forall p l b x inc, edge f p l -> block_of f l = Some b -> In (x, inc) (phis b) ->
      exists e, lookup p inc = Some e /\ forall y, In y (uses e) -> available_at_end f p y }.

  (** ** Shape of the functions that reach the translation *)
  (** no switch left, invokes lead to blocks without phis, the successors of a
      block are distinct *)
  Record lowered (f : func) : Prop := {
    low_no_switch : forall l b e d c, block_of f l = Some b -> bterm b <> TSwitch e d c;
    low_invoke : forall l b x p es n u l' b', block_of f l = Some b -> bterm b = TInvoke x p es n u ->
      In l' [n; u] -> block_of f l' = Some b' -> phis b' = [];
    low_distinct : forall l b, block_of f l = Some b -> NoDup (succs (bterm b)) }.
  (** no reachable block with several successors jumps back to a block with phis
      that dominates it *)
  Definition normalized (f : func) : Prop :=
    forall l b l' b', block_of f l = Some b -> In l' (succs (bterm b)) ->
      2 <= List.length (succs (bterm b)) -> block_of f l' = Some b' -> phis b' <> [] ->
      reachable f l -> ~ dominates f l' l.

  (** All block identities are original ones. *)
  Definition is_blk (l : label) : Prop := match l with Blk _ => True | Fwd _ _ => False end.
  Definition original (f : func) : Prop :=
    forall l b, In (l, b) (blocks f) -> is_blk l /\ (forall s, In s (succs (bterm b)) -> is_blk s) /\
      forall x inc p e, In (x, inc) (phis b) -> In (p, e) inc -> is_blk p.
End CFG.

(** ** Natural loops (LLVM's LoopInfo): a tree of loops, each with its header
    and blocks. *)
Inductive loop := Loop (header : label) (lblocks : list label) (subloops : list loop).
Fixpoint all_loops (l : loop) : list (label * list label) :=
  match l with Loop h bs subs => (h, bs) :: flat_map all_loops subs end.
(** What is relied on: loops consist of blocks of the function, the
    header among them, and every edge from a reachable block to a block dominating it belongs to a loop with that
    header. *)
Record loop_forest {V E P} (f : @func V E P) (ls : list loop) : Prop := {
  loops_blocks : forall h bs p, In (h, bs) (flat_map all_loops ls) -> In p bs -> exists b, block_of f p = Some b;
  loops_header : forall h bs, In (h, bs) (flat_map all_loops ls) -> In h bs;
  loops_back_edges : forall p h, reachable f p -> edge f p h -> dominates f h p ->
    exists bs, In (h, bs) (flat_map all_loops ls) /\ In p bs }.
Arguments stmt : clear implicits.
Arguments term : clear implicits.
Arguments block : clear implicits.
Arguments func : clear implicits.
Arguments lstate : clear implicits.
Arguments outcome : clear implicits.
