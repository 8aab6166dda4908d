(** Exceptions in lib/smack/SmackInstGenerator.cpp: visitReturnInst 240-248, visitInvokeInst 305-320, visitResumeInst
    322-327, visitUnreachableInst 329-333, visitLandingPadInst 866-874; share/smack/lib/smack.c:1616-1617, the
    declarations of the variables.

    Simplifications: a dispatch over blocks with assumptions is one statement with guarded targets; the assignments for
    the phi nodes of a target are one statement with the jump (C13); warnings and annotations are left out. *)
From Coq Require Import ZArith List Bool Arith String.
From Verif.Spec Require Import Exceptions.
Import ListNotations.

(** ** Boogie statements *)
Inductive guard := GTrue | GCond (k : nat) (b : bool) | GExn (b : bool).
Inductive stmt :=
| SOp (k : nat) | SCall (c : nat) (g : fname)
| SSetExn (b : bool)                             (* $exn := b *)
| SSetExnv (r : nat) | SReadExnv (r : nat)       (* $exnv := r; r := $exnv *)
| SResult (k : nat)                              (* $r := ... *)
| SGoto (phis : bool) (targets : list (guard * label))
| SReturn | SAssumeFalse.

(** The visitors *)
Definition visit (i : instr) : list stmt :=
  match i with
  | Op k => [SOp k]
  | Call c g => [SCall c g]                                                          (* 633-767 visitCallInst *)
  | Pad r cleanup => SReadExnv r :: (if cleanup then [SSetExn false] else [])        (* 866-874 *)
  | Br t => [SGoto true [(GTrue, t)]]                                                (* 250-274 visitBranchInst *)
  | CondBr k t e => [SGoto true [(GCond k true, t); (GCond k false, e)]]
  | Invoke c g n u => [SCall c g; SGoto false [(GExn false, n); (GExn true, u)]]     (* 305-320: no generatePhiAssigns *)
  | Resume r => [SSetExn true; SSetExnv r; SReturn]                                  (* 322-327 *)
  | Ret k => [SResult k; SSetExn false; SReturn]                                     (* 240-248 *)
  | Unreachable => [SAssumeFalse]                                                    (* 329-333 *)
  end.
Definition translate (b : body) : list (list stmt) := map (flat_map visit) b.

(** ** Boogie's semantics.  The variables $exn and $exnv are global; nothing initializes them. *)
Section Boogie.
  Context {State : Type} (M : meaning State) (p : program).
  Definition bstate : Type := State * bool * Z.
  Inductive bresult := BReturned (s : bstate) | BFailed.
  Definition holds (g : guard) (s : bstate) : Prop :=
    match g with GTrue => True | GCond k b => cond M k (fst (fst s)) = b | GExn b => snd (fst s) = b end.
  Definition bblock (b : body) (l : label) : list stmt := nth l (translate b) [].
  Inductive brun : body -> label -> list stmt -> bstate -> bresult -> Prop :=
  | b_op b l k ss s e v s' r : op M k s (Some s') -> brun b l ss (s', e, v) r -> brun b l (SOp k :: ss) (s, e, v) r
  | b_fail b l k ss s e v : op M k s None -> brun b l (SOp k :: ss) (s, e, v) BFailed
  | b_call b l c g ss s e v s' e' v' r : bruns g (enter M c s, e, v) (BReturned (s', e', v')) ->
      brun b l ss (leave M c s s', e', v') r -> brun b l (SCall c g :: ss) (s, e, v) r
  | b_call_fail b l c g ss s e v : bruns g (enter M c s, e, v) BFailed -> brun b l (SCall c g :: ss) (s, e, v) BFailed
  | b_set b l x ss s e v r : brun b l ss (s, x, v) r -> brun b l (SSetExn x :: ss) (s, e, v) r
  | b_setv b l x ss s e v r : brun b l ss (s, e, read M x s) r -> brun b l (SSetExnv x :: ss) (s, e, v) r
  | b_readv b l x ss s e v r : brun b l ss (write M x v s, e, v) r -> brun b l (SReadExnv x :: ss) (s, e, v) r
  | b_result b l k ss s e v r : brun b l ss (set_result M k s, e, v) r -> brun b l (SResult k :: ss) (s, e, v) r
  | b_goto b l (phis : bool) ts g t ss s e v r : In (g, t) ts -> holds g (s, e, v) ->
      brun b t (bblock b t) ((if phis then phi M b l t s else s), e, v) r -> brun b l (SGoto phis ts :: ss) (s, e, v) r
  | b_return b l ss s : brun b l (SReturn :: ss) s (BReturned s)
  (** A procedure without a body leaves the variables alone; its other effects are the external function's. *)
  with bruns : fname -> bstate -> bresult -> Prop :=
  | b_body g b s r : body_of p g = Some b -> brun b 0 (bblock b 0) s r -> bruns g s r
  | b_external g s e v s' : body_of p g = None -> external M g s s' -> bruns g (s, e, v) (BReturned (s', e, v)).
End Boogie.
Arguments bresult : clear implicits.

(** ** Types: lib/smack/SmackRep.cpp:226-244 type (structures are ref), Prelude.cpp:1061 (ref is the pointer type) *)
Definition pointerType (bit_precise_pointers : bool) : string := if bit_precise_pointers then "bv64" else "i64".
(** The alias i64 = int; bit vectors are their own types *)
Definition expand (t : string) : string := if String.eqb t "i64" then "int" else t.
Definition exnv_type : string := "int".
(** r := $exnv and $exnv := r, with r of type ref *)
Definition assignment_typed (bit_precise_pointers : bool) : bool := String.eqb (expand (pointerType bit_precise_pointers)) exnv_type.
