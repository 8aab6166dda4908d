(** The instrumentation pass of lib/smack/MemorySafetyChecker.cpp. *)
From Coq Require Import ZArith List String Bool.
From Verif.Spec Require Import MemProgram.
Import ListNotations.
Open Scope string_scope.
Open Scope list_scope.
Open Scope Z_scope.

(** llvm::Regex(".*__SMACK_.*").match – Naming.cpp:163, 167: the name contains
    __SMACK_. *)
Fixpoint contains (p n : string) : bool :=
  String.prefix p n || match n with EmptyString => false | String _ n' => contains p n' end.
Definition isSmackName (n : string) : bool := contains "__SMACK_" n.

(** SmackOptions::isEntryPoint – SmackOptions.cpp:104-109 *)
Definition isEntryPoint (EntryPoints : list string) (n : string) : bool := existsb (String.eqb n) EntryPoints.

(** SmackOptions::shouldCheckFunction – SmackOptions.cpp:111-122.  [matches r n]:
    the regular expression r matches and its match is all of n (llvm::Regex is an
    oracle). *)
Definition shouldCheckFunction (matches : string -> string -> bool) (CheckedFunctions : list string) (n : string) : bool :=
  match CheckedFunctions with
  | [] => true
  | _ => existsb (fun r => matches r n) CheckedFunctions
  end.

Section Pass.
  Variable EntryPoints CheckedFunctions : list string.
  Variable matches : string -> string -> bool.

  (** DataLayout::getTypeStoreSize (LLVM: (getTypeSizeInBits(Ty) + 7) / 8), used by
      accessSizeAsPointer – :73-93 *)
  Definition getTypeStoreSize (bits : Z) : Z := (bits + 7) / 8.

  (** What is inserted before an instruction of the function named [f] – :66-71,
      95-111.  The casts of the arguments to i8* (:47-48) are value-preserving and
      not modelled (the length is cast from an integer to a pointer, see C49). *)
  Definition inserted (f : string) (i : inst) : list inst :=
    match i with
    | Load _ w p => [Check p (Const (getTypeStoreSize w))]
    | Store w _ p => [Check p (Const (getTypeStoreSize w))]
    | MemSet d _ len => [Check d len]
    | MemTransfer _ d s len => [Check d len; Check s len]
    | Ret => if isEntryPoint EntryPoints f then [LeakCheck] else []
    | _ => []
    end.

  (** InstVisitor::visit(F): all instructions in order. *)
  Definition visit_block (f : string) (b : list inst) : list inst :=
    flat_map (fun i => inserted f i ++ [i]) b.

  (** runOnFunction – :56-64 *)
  Definition skipped (f : string) : bool := isSmackName f || negb (shouldCheckFunction matches CheckedFunctions f).
  Definition runOnFunction (F : func) : func :=
    if skipped (fname F) then F else Func (fname F) (map (visit_block (fname F)) (fblocks F)).

  Definition runOnModule (M : module) : module := map runOnFunction M.
End Pass.
