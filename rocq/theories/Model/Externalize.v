(** tools/externalizer/ExternalizePass.cpp, and its use when files are linked.

    References to functions are calls; metadata, argument names and addresses taken are
    left out. *)
From Coq Require Import ZArith List String Bool Arith.
From Verif.Spec Require Import Linking.
Import ListNotations.
Open Scope string_scope.
Open Scope list_scope.

(** Module::getFunction *)
Fixpoint getFunction (m : file) (e : string) : option (nat * func) :=
  match m with
  | [] => None
  | (p, f) :: m' => if String.eqb (fname f) e then Some (p, f) else getFunction m' e
  end.
Definition hasExternalLinkage (f : func) : bool := match flink f with Strong => true | _ => false end.

(** A new object is different from all others. *)
Definition fresh (m : file) : nat := S (list_max (map fst m)).
(** Value::replaceAllUsesWith *)
Fixpoint replace_uses (p q : nat) (c : code) : code :=
  match c with
  | Ret v => Ret v
  | Do x a k => Do x a (fun r => replace_uses p q (k r))
  | Call f a k => Call (if Nat.eqb f p then q else f) a (fun r => replace_uses p q (k r))
  end.
Definition replaceAllUsesWith (p q : nat) (m : file) : file :=
  map (fun x => (fst x, Func (fname (snd x)) (flink (snd x))
         (match fbody (snd x) with Some b => Some (fun a => replace_uses p q (b a)) | None => None end))) m.
(** FunctionList::insert before [p] *)
Fixpoint insert_before (p : nat) (x : nat * func) (m : file) : file :=
  match m with
  | [] => [x]
  | y :: m' => if Nat.eqb (fst y) p then x :: y :: m' else y :: insert_before p x m'
  end.
Definition removeFromParent (p : nat) (m : file) : file := filter (fun x => negb (Nat.eqb (fst x) p)) m.
Definition setName (p : nat) (e : string) (m : file) : file :=
  map (fun x => if Nat.eqb (fst x) p then (fst x, Func e (flink (snd x)) (fbody (snd x))) else x) m.

(** externalizeFunction – :18-53.  CloneFunctionInto copies the body.  If the name of the
    copy is taken, LLVM chooses another, but it is not read before setName. *)
Definition externalizeFunction (m : file) (p : nat) (f : func) : file * nat :=
  let copied := fresh m in
  let m1 := insert_before p (copied, Func (fname f ++ ".externalized")%string Strong (fbody f)) m in
  (replaceAllUsesWith p copied m1, copied).

(** ExternalizePass::runOnModule – :54-66 *)
Definition externalize_one (m : file) (e : string) : file :=
  match getFunction m e with
  | Some (p, f) =>
      if hasExternalLinkage f then m
      else let '(m1, external) := externalizeFunction m p f in
           setName external e (removeFromParent p m1)
  | None => m
  end.
Definition runOnModule (entryPoints : list string) (m : file) : file := fold_left externalize_one entryPoints m.

(** share/smack/frontend.py: extern_entry_points (:89-103) and link_bc_files (:482-496):
    the files that are linked; the two calls of llvm-link are taken together. *)
Definition link_bc_files (entry_points : list string) (bitcodes smack_libs : list file) : list file :=
  map (runOnModule entry_points) bitcodes ++ smack_libs.
