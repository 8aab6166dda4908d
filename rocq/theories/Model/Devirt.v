(** lib/utils/Devirt.cpp: calls through function pointers become calls of functions
    that compare the pointer with the possible targets. *)
From Coq Require Import ZArith List Bool String.
From Verif.Spec Require Import IndirectCall.
Import ListNotations.
Open Scope string_scope.
Open Scope list_scope.
Open Scope Z_scope.

(** *** Types *)
Definition ty_eqb (a b : ty) : bool :=
  match a, b with
  | TVoid, TVoid => true
  | TInt x, TInt y | TFloat x, TFloat y | TPtr x, TPtr y | TAgg x, TAgg y => x =? y
  | _, _ => false
  end.
Fixpoint tys_eqb (a b : list ty) : bool :=
  match a, b with [], [] => true | x :: a', y :: b' => ty_eqb x y && tys_eqb a' b' | _, _ => false end.
Definition fty_eqb (a b : fty) : bool := ty_eqb (ret a) (ret b) && tys_eqb (params a) (params b) && Bool.eqb (vararg a) (vararg b).
Definition func_eqb (a b : func) : bool := String.eqb (f_name a) (f_name b).

(** CastInst::castIsValid(ZExt, …), castIsValid(BitCast, …) (vectors and address
    spaces left out). *)
Definition zext_valid (a b : ty) : bool := match a, b with TInt x, TInt y => x <? y | _, _ => false end.
Definition bitcast_valid (a b : ty) : bool :=
  match a, b with
  | TPtr _, TPtr _ => true
  | (TInt x | TFloat x), (TInt y | TFloat y) => x =? y
  | _, _ => false
  end.
(** isZExtOrBitCastable – :80-83 *)
Definition isZExtOrBitCastable (a b : ty) : bool := zext_valid a b || bitcast_valid a b.
(** CastInst::isBitCastable *)
Definition isBitCastable (a b : ty) : bool :=
  match a, b with
  | TVoid, _ | _, TVoid => false
  | _, _ => ty_eqb a b || bitcast_valid a b
  end.

(** castTo – :53-78.  [None]: the cast is not valid (LLVM asserts).  Both casts keep
    the bits. *)
Definition castTo (a : arg) (t : ty) : option arg :=
  if ty_eqb (a_type a) t then Some a
  else if isZExtOrBitCastable (a_type a) t then Some (Arg t (a_bits a)) else None.

(** A call site: the type of the called operand, the type it has before pointer casts
    (stripPointerCastsAndAliases), and the arguments. *)
Record callsite := CallSite { cs_type : fty; cs_stripped : fty; cs_args : list ty }.

Fixpoint args_match (args ps : list ty) : bool :=
  match args, ps with
  | a :: args', p :: ps' => (ty_eqb a p || isZExtOrBitCastable a p) && args_match args' ps'
  | _, _ => true
  end.

(** match – :85-110 *)
Definition match_ (CS : callsite) (F : func) : bool :=
  let N := List.length (cs_args CS) in
  let T := f_type F in
  let M := List.length (params T) in
  (ty_eqb (ret T) (ret (cs_type CS)) || isBitCastable (ret T) (ret (cs_type CS))) &&
  negb (Nat.ltb N M) &&
  negb (Nat.ltb M N && negb (vararg T)) &&
  args_match (cs_args CS) (params T).

(** A bounce function: return type, type of the pointer it takes, types of the other
    parameters, and the targets in the order of buildBounce. *)
Record bounce := Bounce { b_ret : ty; b_ptr : fty; b_params : list ty; b_targets : list func }.

(** checkArgs – :112-127 (M counts the pointer) *)
Definition checkArgs (CS : callsite) (b : bounce) : bool :=
  Nat.eqb (List.length (cs_args CS) + 1) (S (List.length (b_params b))) && args_match (cs_args CS) (b_params b).

(** std::set equality *)
Definition same_set (a b : list func) : bool :=
  forallb (fun x => existsb (func_eqb x) b) a && forallb (fun x => existsb (func_eqb x) a) b.

(** findInCache – :140-180.  The cache is searched in the order of addresses, here in
    list order; targets of a bounce are those it was built for. *)
Definition usable (CS : callsite) (Targets : list func) (b : bounce) : bool :=
  ty_eqb (ret (cs_type CS)) (b_ret b) &&
  fty_eqb (cs_stripped CS) (b_ptr b) &&
  negb (vararg (b_ptr b) && negb (checkArgs CS b)) &&
  same_set Targets (b_targets b).
Definition findInCache (cache : list bounce) (CS : callsite) (Targets : list func) : option bounce :=
  find (usable CS Targets) cache.

(** buildBounce – :191-322 *)
Definition buildBounce (CS : callsite) (Targets : list func) : bounce :=
  Bounce (ret (cs_type CS)) (cs_type CS) (cs_args CS) Targets.

(** makeDirectCall: the targets – :345-354 *)
Definition targets_of (complete : bool) (ccg module_ : list func) (CS : callsite) : list func :=
  if complete then filter (match_ CS) ccg else filter (fun F => f_address_taken F && match_ CS F) module_.

(** makeDirectCall: the bounce used and the new cache – :359-372.  A new bounce may
    come anywhere in the order of the cache. *)
Definition makeDirectCall (complete : bool) (ccg module_ : list func) (cache : list bounce) (CS : callsite) : bounce * list bounce :=
  let Targets := targets_of complete ccg module_ CS in
  match findInCache cache CS Targets with
  | Some b => (b, cache)
  | None => (buildBounce CS Targets, buildBounce CS Targets :: cache)
  end.

(** *** Running the result *)

(** [Calls F args ]: F is called with these arguments and its result returned.
    [Blocked]: the unreachable instruction.  [Returns]: returns without a call.
    [Invalid]: ill-formed code. *)
Inductive outcome := Calls (F : func) (args : list arg) | Blocked | Returns | Invalid.

(** The arguments passed to a target: pairwise, until one list ends – :241-248. *)
Fixpoint pass_args (args : list arg) (ps : list ty) : option (list arg) :=
  match args, ps with
  | a :: args', p :: ps' =>
      match castTo a p, pass_args args' ps' with Some x, Some xs => Some (x :: xs) | _, _ => None end
  | _, _ => Some []
  end.

(** The chain of tests: the entry block goes to the last test made, which falls
    through to the one before, …, to the failure block – :272-318. *)
Fixpoint tests (addr : func -> Z) (none : outcome) (ptr : Z) (args : list arg) (chain : list func) : outcome :=
  match chain with
  | [] => none
  | F :: chain' =>
      if addr F =? ptr then match pass_args args (params (f_type F)) with Some xs => Calls F xs | None => Invalid end
      else tests addr none ptr args chain'
  end.
Definition run_bounce (addr : func -> Z) (b : bounce) (ptr : Z) (args : list arg) : outcome :=
  tests addr (match b_targets b with [] => Returns | _ => Blocked end) ptr args (rev (b_targets b)).

(** The call of the bounce in place of the call site: every argument is cast to the
    type of the parameter – :377-392 (and :393-410 for invoke).  More arguments than
    parameters, or another number, is ill-formed. *)
Definition run_call (addr : func -> Z) (b : bounce) (ptr : Z) (args : list arg) : outcome :=
  if Nat.eqb (List.length args) (List.length (b_params b)) then
    match pass_args args (b_params b) with Some xs => run_bounce addr b ptr xs | None => Invalid end
  else Invalid.

(** runOnModule: all indirect calls in turn – :495-498. *)
Fixpoint run_on_module (module_ : list func) (cache : list bounce) (work : list (bool * list func * callsite)) : list bounce :=
  match work with
  | [] => []
  | (complete, ccg, CS) :: work' =>
      let '(b, cache') := makeDirectCall complete ccg module_ cache CS in
      b :: run_on_module module_ cache' work'
  end.
