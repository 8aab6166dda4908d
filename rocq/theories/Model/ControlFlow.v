(** Control flow of translated procedures:
    lib/smack/SmackInstGenerator.cpp:74-84 (createBlock, getBlock), 148-172
    (visitBasicBlock), 179-234 (generatePhiAssigns, generateGotoStmts), 240-333
    (terminators), 621-625 (visitPHINode); and the part of Boogie these produce.

    Simplifications: annotations, source locations and the entry-point record
    calls are left out (they do not act on the state); block names are the
    values [BB l] / [Edge p i] instead of the fresh strings "$bb0", "$bb1", ...
    (their uniqueness is property C33); the order of blocks in the procedure is
    not represented (control moves through labels only; the first block is that
    of the entry block). *)
From Coq Require Import List String Bool Arith.
From Verif.Spec Require Import CFG.
Import ListNotations.

Inductive blabel := BB (l : label) | Edge (p : label) (i : nat).

Section Trans.
  (** [T]: Boogie expressions; [tr]: SmackRep::expr (Model/SmackRepInt.v). *)
  Context {V E M P Ev T : Type} (tr : E -> T).

  (** Conditions assumed at the start of a branch. *)
  Inductive cond :=
  | CIsOne (t : T) (positive : bool)    (* e == 1, !(e == 1) *)
  | CTrue | CFalse
  | CExn (positive : bool).             (* $exn, !$exn *)
  Inductive bstmt :=
  | BAssign (xs : list string) (ts : list T)
  | BPrim (x : option string) (p : P) (args : list T)
  | BCall (x : option string) (p : P) (args : list T)   (* may set $exn *)
  | BAssume (c : cond)
  | BSetRet (t : T)                     (* $r := t *)
  | BSetExn (b : bool)                  (* $exn := b *)
  | BSetExnVal (t : T)                  (* $exnv := t *)
  | BGoto (ls : list blabel)
  | BReturn.

  Definition trans_stmt (s : stmt E P) : bstmt :=
    match s with
    | SAssign x e => BAssign [x] [tr e]
    | SPrim x p es => BPrim x p (map tr es)
    end.

  Notation func := (func V E P).
  Notation term := (term V E P).

  (** SmackInstGenerator.cpp:179-201 generatePhiAssigns: for every successor (in
      order, with repetitions) and every phi of it, one component of a
      simultaneous assignment.  LLVM asserts that a phi has an entry for its
      predecessor; the model skips such a phi. *)
  Definition phi_assigns (f : func) (l : label) (t : term) : list (string * T) :=
    flat_map (fun s =>
      match block_of f s with
      | Some b => flat_map (fun ph => match lookup l (snd ph) with
                                      | Some e => [(fst ph, tr e)]
                                      | None => [] end) (phis b)
      | None => []
      end) (succs t).
  Definition generatePhiAssigns (f : func) (l : label) (t : term) : list bstmt :=
    match phi_assigns f l t with
    | [] => []
    | a => [BAssign (map fst a) (map snd a)]
    end.

  (** LLVM BasicBlock::getUniquePredecessor: the only predecessor, however many
      edges it has to the block. *)
  Definition preds (f : func) (l : label) : list label :=
    flat_map (fun lb => if existsb (label_eqb l) (succs (bterm (snd lb))) then [fst lb] else []) (blocks f).
  Definition getUniquePredecessor (f : func) (l : label) : option label :=
    match preds f l with
    | [] => None
    | p :: ps => if forallb (label_eqb p) ps then Some p else None
    end.
  Definition is_unique_pred (f : func) (l p : label) : bool :=
    match getUniquePredecessor f l with Some q => label_eqb q p | None => false end.

  (** The (condition, target) pairs collected by the terminator visitors:
      250-275 branch, 277-303 switch (the loop over the cases runs from
      case_begin to case_begin, so only the default is ever collected), 305-320
      invoke. *)
  Definition targets (t : term) : list (cond * label) :=
    match t with
    | TBr l => [(CTrue, l)]
    | TCond e l1 l2 => [(CIsOne (tr e) true, l1); (CIsOne (tr e) false, l2)]
    | TSwitch e d cases => [(CTrue, d)]
    | TInvoke _ _ _ n u => [(CExn false, n); (CExn true, u)]
    | TRet _ | TResume _ | TUnreachable => []
    end.

  Fixpoint number {A} (i : nat) (l : list A) : list (nat * A) :=
    match l with [] => [] | a :: l' => (i, a) :: number (S i) l' end.

  (** 203-234 generateGotoStmts: where the dispatching goto may go. *)
  Definition goto_targets (f : func) (l : label) (ts : list (cond * label)) : list blabel :=
    match ts with
    | [(_, l')] => [BB l']
    | _ => map (fun it => let '(i, (c, l')) := it in
                  if is_unique_pred f l' l then BB l' else Edge l i) (number 0 ts)
    end.
  (** the statements it inserts in front of the target block [l'] when [l] is its
      unique predecessor (Block::insert puts each before those already there) *)
  Definition inserted (f : func) (l l' : label) (ts : list (cond * label)) : list bstmt :=
    match ts with
    | [_] => []
    | _ => rev (flat_map (fun ct => if label_eqb (snd ct) l' && is_unique_pred f l' l
                                    then [BAssume (fst ct)] else []) ts)
    end.
  Definition front (f : func) (l' : label) : list bstmt :=
    match getUniquePredecessor f l' with
    | Some p => match block_of f p with
                | Some b => inserted f p l' (targets (bterm b))
                | None => []
                end
    | None => []
    end.

  (** 240-333 the terminator visitors *)
  Definition trans_term (f : func) (l : label) (t : term) : list bstmt :=
    match t with
    | TRet None => [BSetExn false; BReturn]
    | TRet (Some e) => [BSetRet (tr e); BSetExn false; BReturn]
    | TResume e => [BSetExn true; BSetExnVal (tr e); BReturn]
    | TUnreachable => [BAssume CFalse]
    | TInvoke x p es n u => [BCall x p (map tr es); BGoto (goto_targets f l (targets t))]
    | _ => generatePhiAssigns f l t ++ [BGoto (goto_targets f l (targets t))]
    end.

  Definition block_code (f : func) (l : label) : option (list bstmt) :=
    match block_of f l with
    | Some b => Some (front f l ++ map trans_stmt (body b) ++ trans_term f l (bterm b))
    | None => None
    end.
  Definition edge_code (f : func) (l : label) (i : nat) : option (list bstmt) :=
    match block_of f l with
    | Some b => match nth_error (targets (bterm b)) i with
                | Some (c, l') => Some [BAssume c; BGoto [BB l']]
                | None => None
                end
    | None => None
    end.
  Definition code_at (f : func) (bl : blabel) : option (list bstmt) :=
    match bl with BB l => block_code f l | Edge l i => edge_code f l i end.

  (** ** Boogie executions *)
  Context (evT : (string -> V) -> T -> option V)
          (prim : P -> list V -> M -> list Ev -> V -> M -> Prop)
          (inv : P -> list V -> M -> list Ev -> V -> bool -> M -> Prop)
          (one : V) (veq : V -> V -> bool).
  Definition benv := string -> V.
  Definition bupd (r : benv) (x : string) (v : V) : benv := fun y => if String.eqb x y then v else r y.
  Definition bupdo (r : benv) (x : option string) (v : V) : benv :=
    match x with Some x => bupd r x v | None => r end.
  Fixpoint bupds (r : benv) (xs : list string) (vs : list V) : benv :=
    match xs, vs with x :: xs', v :: vs' => bupds (bupd r x v) xs' vs' | _, _ => r end.
  (** Boogie functions are total: a term whose value is not determined has some
      value. *)
  Definition has_value (r : benv) (t : T) (v : V) : Prop :=
    match evT r t with Some v' => v = v' | None => True end.

  (** [ret], [exn], [exnv]: the variables $r, $exn, $exnv. *)
  Inductive bstate :=
  | BRun (k : list bstmt) (r : benv) (ret : option V) (exn : bool) (exnv : option V) (m : M)
  | BDone (o : outcome V) (m : M).
  Definition cond_holds (r : benv) (exn : bool) (c : cond) : Prop :=
    match c with
    | CIsOne t pos => exists v, has_value r t v /\ veq v one = pos
    | CTrue => True
    | CFalse => False
    | CExn pos => exn = pos
    end.
  Inductive bstep (f : func) : bstate -> list Ev -> bstate -> Prop :=
  | B_assign : forall xs ts vs k r ret exn exnv m,
      NoDup xs -> Forall2 (has_value r) ts vs ->     (* Boogie rejects repeated left-hand sides *)
      bstep f (BRun (BAssign xs ts :: k) r ret exn exnv m) [] (BRun k (bupds r xs vs) ret exn exnv m)
  | B_prim : forall x p ts vs k r ret exn exnv m evs v m',
      Forall2 (has_value r) ts vs -> prim p vs m evs v m' ->
      bstep f (BRun (BPrim x p ts :: k) r ret exn exnv m) evs (BRun k (bupdo r x v) ret exn exnv m')
  | B_call : forall x p ts vs k r ret exn exnv m evs v w m',
      Forall2 (has_value r) ts vs -> inv p vs m evs v w m' ->
      bstep f (BRun (BCall x p ts :: k) r ret exn exnv m) evs (BRun k (bupdo r x v) ret w exnv m')
  | B_assume : forall c k r ret exn exnv m, cond_holds r exn c ->
      bstep f (BRun (BAssume c :: k) r ret exn exnv m) [] (BRun k r ret exn exnv m)
  | B_ret : forall t v k r ret exn exnv m, has_value r t v ->
      bstep f (BRun (BSetRet t :: k) r ret exn exnv m) [] (BRun k r (Some v) exn exnv m)
  | B_exn : forall b k r ret exn exnv m,
      bstep f (BRun (BSetExn b :: k) r ret exn exnv m) [] (BRun k r ret b exnv m)
  | B_exnv : forall t v k r ret exn exnv m, has_value r t v ->
      bstep f (BRun (BSetExnVal t :: k) r ret exn exnv m) [] (BRun k r ret exn (Some v) m)
  | B_goto : forall ls bl c k r ret exn exnv m, In bl ls -> code_at f bl = Some c ->
      bstep f (BRun (BGoto ls :: k) r ret exn exnv m) [] (BRun c r ret exn exnv m)
  | B_return_normal : forall k r ret exnv m,
      bstep f (BRun (BReturn :: k) r ret false exnv m) [] (BDone (Returned ret) m)
  | B_return_exn : forall k r ret v m,
      bstep f (BRun (BReturn :: k) r ret true (Some v) m) [] (BDone (Unwound v) m).

  Inductive bsteps (f : func) : bstate -> list Ev -> bstate -> Prop :=
  | BS_refl : forall s, bsteps f s [] s
  | BS_step : forall s1 t1 s2 t2 s3, bsteps f s1 t1 s2 -> bstep f s2 t2 s3 -> bsteps f s1 (t1 ++ t2) s3.

  (** Start of the procedure: parameters hold the arguments, everything else is
      arbitrary ([r0]). *)
  Definition bstart (f : func) (args : list V) (r0 : benv) (exn : bool) (m : M) : option bstate :=
    match code_at f (BB (entry f)) with
    | Some c => Some (BRun c (bupds r0 (params f) args) None exn None m)
    | None => None
    end.
  Definition bresult (s : bstate) : option (outcome V * M) :=
    match s with BDone o m => Some (o, m) | _ => None end.
  Definition bbehaves (f : func) (args : list V) (r0 : benv) (exn : bool) (m : M) (t : list Ev) (o : option (outcome V * M)) : Prop :=
    exists s0 s, bstart f args r0 exn m = Some s0 /\ bsteps f s0 t s /\ bresult s = o.
End Trans.
