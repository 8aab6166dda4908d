(** lib/smack/RemoveDeadDefs.cpp *)
From Coq Require Import List String Bool Arith Lia.
From Verif.Spec Require Import CallGraph.
From Verif.Model Require Import MemorySafetyChecker.
Import ListNotations.
Open Scope string_scope.
Open Scope list_scope.

(** The module while the pass runs.  Constant expressions and block addresses belong
    to the context, not to the function they occur in: they go on using the functions
    they mention after that function is erased. *)
Record state := State { live : list func; fixed : list ref; lingering : list ref }.
Definition start (M : module) : state := State (funcs M) (globals M) [].
Definition finish (s : state) : module := Mod (live s) (fixed s).

Definition is_direct (r : ref) : bool := match r with Direct _ => true | _ => false end.
Definition is_block (r : ref) : bool := match r with BlockOf _ => true | _ => false end.

(** F.uses() – all references that exist. *)
Definition uses (s : state) (f : string) : list ref :=
  filter (fun r => String.eqb (ref_name r) f) (flat_map f_refs (live s) ++ fixed s ++ lingering s).

(** llvm::Function::isDefTriviallyDead: droppable linkage, and no use but block
    addresses. *)
Definition trivially_dead (s : state) (F : func) : bool := f_droppable F && forallb is_block (uses s (f_name F)).
(** F.getNumUses() == 0 *)
Definition no_uses (s : state) (F : func) : bool := match uses s (f_name F) with [] => true | _ => false end.

(** SmackOptions::isEntryPoint – lib/smack/SmackOptions.cpp:104-109. *)
Definition is_entry_point (entries : list string) (f : string) : bool := existsb (String.eqb f) entries.

(** The tests of the loop – :25-40. *)
Definition dead (entries : list string) (s : state) (F : func) : bool :=
  (trivially_dead s F || no_uses s F) && negb (contains "__SMACK_" (f_name F)) &&
  negb (contains "__VERIFIER_assume" (f_name F)) && negb (is_entry_point entries (f_name F)).

(** eraseFromParent of all of them – :43-44.  Block addresses of an erased function
    disappear with it. *)
Definition erase (entries : list string) (s : state) : state :=
  let gone := filter (dead entries s) (live s) in
  let kept := filter (fun F => negb (dead entries s F)) (live s) in
  State kept (fixed s)
    (lingering s ++ filter (fun r => negb (is_direct r)) (flat_map f_refs gone)).

(** do … while (!dead.empty()) – :23-45.  The fuel is the number of rounds. *)
Fixpoint rounds (fuel : nat) (entries : list string) (s : state) : option state :=
  match fuel with
  | O => None
  | S k =>
      let s' := erase entries s in
      if existsb (dead entries s) (live s) then rounds k entries s' else Some s'
  end.
Definition remove_dead_defs (fuel : nat) (entries : list string) (M : module) : option module :=
  option_map finish (rounds fuel entries (start M)).
