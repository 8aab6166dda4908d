(** The loop-normalising pass: lib/smack/NormalizeLoops.cpp.

    A function is a value ([Spec/CFG.v]) instead of a mutable object, so each
    mutation returns the changed function.  New blocks are identified by the
    edge they are created for.  The loop forest is LLVM's LoopInfo, an input. *)
From Coq Require Import List String Bool Arith.
From Verif.Spec Require Import CFG.
Import ListNotations.

Section Normalize.
  Context {V E P : Type}.
  Notation func := (func V E P).
  Notation block := (block V E P).
  Notation term := (term V E P).

  Definition update_block (f : func) (l : label) (g : block -> block) : func :=
    Func (params f) (entry f) (map (fun lb => if label_eqb l (fst lb) then (fst lb, g (snd lb)) else lb) (blocks f)).

  (** Instruction::setSuccessor on every successor for which [g] changes it *)
  Definition map_succs (g : label -> label) (t : term) : term :=
    match t with
    | TRet e => TRet e | TResume e => TResume e | TUnreachable => TUnreachable
    | TBr l => TBr (g l)
    | TCond e l1 l2 => TCond e (g l1) (g l2)
    | TSwitch e d cases => TSwitch e (g d) (map (fun c => (fst c, g (snd c))) cases)
    | TInvoke x p es n u => TInvoke x p es (g n) (g u)
    end.

  (** 36-43 makeForwardingBlock (appended to the function) *)
  Definition makeForwardingBlock (f : func) (p h : label) : func :=
    Func (params f) (entry f) (blocks f ++ [(Fwd p h, Block [] [] (TBr h))]).

  (** 49-64 getSuccessorIndices: whether it is non-empty *)
  Definition has_successor_indices (t : term) (h : label) : bool :=
    if List.length (succs t) <=? 1 then false else existsb (label_eqb h) (succs t).

  (** 72-89 splitBlock; the map of new blocks is a list of the split blocks *)
  Definition splitBlock (h : label) (st : func * list label) (p : label) : func * list label :=
    let '(f, bm) := st in
    match block_of f p with
    | Some b =>
        if has_successor_indices (bterm b) h
        then (update_block (makeForwardingBlock f p h) p
                (fun b => Block (phis b) (body b) (map_succs (fun s => if label_eqb s h then Fwd p h else s) (bterm b))),
              bm ++ [p])
        else (f, bm)
    | None => (f, bm)
    end.

  (** 96-107 processPhis *)
  Definition processPhis (h : label) (bm : list label) (b : block) : block :=
    Block (map (fun ph => (fst ph, map (fun pe =>
               (if existsb (label_eqb (fst pe)) bm then Fwd (fst pe) h else fst pe, snd pe)) (snd ph))) (phis b))
          (body b) (bterm b).

  (** std::set: without repetitions.  (The C++ set is ordered by address, which
      only affects the order in which new blocks are appended.) *)
  Fixpoint to_set (l : list label) : list label :=
    match l with
    | [] => []
    | a :: l' => if existsb (label_eqb a) l' then to_set l' else a :: to_set l'
    end.

  (** 109-134 processLoop without its recursion *)
  Definition phiIncBlocks (f : func) (h : label) : list label :=
    match block_of f h with
    | Some b => to_set (flat_map (fun ph => map fst (snd ph)) (phis b))
    | None => []
    end.
  Definition processLoop1 (f : func) (hb : label * list label) : func :=
    let '(h, loopBlocks) := hb in
    let '(f1, blockMap) := fold_left (splitBlock h)
          (filter (fun p => existsb (label_eqb p) loopBlocks) (phiIncBlocks f h)) (f, []) in
    update_block f1 h (processPhis h blockMap).
  (** 109-140 *)
  Fixpoint processLoop (f : func) (l : loop) : func :=
    match l with
    | Loop h bs subs => fold_left processLoop subs (processLoop1 f (h, bs))
    end.
  (** 142-155 runOnModule, on one function *)
  Definition runOnFunction (f : func) (loops : list loop) : func := fold_left processLoop loops f.
End Normalize.
