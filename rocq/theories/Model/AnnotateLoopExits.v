(** lib/smack/AnnotateLoopExits.cpp:47-83: calls of __SMACK_loop_exit at the
    exits of loops.

    The call is inserted before the first instruction of the exit block, even if
    that is a phi; phis are not statements of the translation
    (SmackInstGenerator.cpp:621-625), so in the model the call precedes the
    statements of the block.  The loop forest is LLVM's LoopInfo; the pass walks
    the outermost loops only. *)
From Coq Require Import List String Bool.
From Verif.Spec Require Import CFG.
From Verif.Model Require Import NormalizeLoops.
Import ListNotations.

Section Annotate.
  Context {V E P : Type} (le : P).   (* the function __SMACK_loop_exit *)
  Notation func := (func V E P).
  Notation block := (block V E P).

  (** 47-49 insertLoopExitAssertion, 51-57 processExitBlock *)
  Definition processExitBlock (f : func) (l : label) : func :=
    update_block f l (fun b => Block (phis b) (SPrim None le [] :: body b) (bterm b)).
  (** LLVM Loop::getExitBlocks: the targets outside of the loop of the edges of
      its blocks, with repetitions *)
  Definition getExitBlocks (f : func) (lblocks : list label) : list label :=
    flat_map (fun p => match block_of f p with
                       | Some b => filter (fun s => negb (existsb (label_eqb s) lblocks)) (succs (bterm b))
                       | None => []
                       end) lblocks.
  (** 59-68 annotateLoopExit *)
  Definition annotateLoopExit (f : func) (lp : loop) : func :=
    match lp with Loop _ lblocks _ => fold_left processExitBlock (getExitBlocks f lblocks) f end.
  (** 70-84 runOnFunction *)
  Definition annotateLoopExits (f : func) (loops : list loop) : func := fold_left annotateLoopExit loops f.
End Annotate.
