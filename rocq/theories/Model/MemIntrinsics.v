(** memcpy and memset (lib/smack/SmackRep.cpp:55, 301-348, 1330-1476). *)
From Coq Require Import ZArith List String Bool.
From Verif.Spec Require Import IR Pointers.
From Verif.Model Require Import Boogie PreludeInt SmackRepInt PreludeMem Globals.
Import ListNotations.
Open Scope string_scope.
Open Scope list_scope.
Open Scope Z_scope.

(** A quantified clause "(forall x: ref :: g1 && ... && gk ==> lhs == rhs)". *)
Record clause := Clause { cl_guards : list expr; cl_lhs : expr; cl_rhs : expr }.

(** A procedure returning M.ret: either the body "M.ret := e; ..." or a list of
    clauses (assumed in the body with --memory-impls, ensured otherwise; both
    leave M.ret constrained by exactly these clauses). *)
Inductive memproc := Assign (e : expr) | Clauses (l : list clause).

Definition MEMORY_INTRINSIC_THRESHOLD : Z := 0.

(** SmackRep.cpp:302-306, 327-331: [unsigned length] of the procedure selected. *)
Definition intrinsic_length (len : option Z) : Z :=
  match len with Some c => u32 c | None => 2 ^ 32 - 1 end.

Definition le (a b : expr) : expr := EFun (indexedName "$sle" [NRef; NBool]) [a; b].
Definition lt (a b : expr) : expr := EFun (indexedName "$slt" [NRef; NBool]) [a; b].
Definition plus (a b : expr) : expr := EFun (indexedName "$add" [NRef]) [a; b].
Definition minus (a b : expr) : expr := EFun (indexedName "$sub" [NRef]) [a; b].

(** SmackRep.cpp:1354-1361: the unrolled copy for lengths up to the threshold. *)
Fixpoint unrolled (rhs : Z -> expr) (k : nat) (m : expr) : expr :=
  match k with
  | 0%nat => m
  | S k' => EUpd (unrolled rhs k' m) (plus (EVar "dst") (EInt (Z.of_nat k'))) (rhs (Z.of_nat k'))
  end.

(** SmackRep.cpp:1330-1403 *)
Definition memcpyProc (length : Z) : memproc :=
  if length <=? MEMORY_INTRINSIC_THRESHOLD then
    Assign (unrolled (fun o => ESel (EVar "M.src") (plus (EVar "src") (EInt o))) (Z.to_nat length) (EVar "M.dst"))
  else
    Clauses
      [ Clause [le (EVar "dst") (EVar "x"); lt (EVar "x") (plus (EVar "dst") (EVar "len"))]
          (ESel (EVar "M.ret") (EVar "x")) (ESel (EVar "M.src") (plus (minus (EVar "src") (EVar "dst")) (EVar "x")));
        Clause [lt (EVar "x") (EVar "dst")]
          (ESel (EVar "M.ret") (EVar "x")) (ESel (EVar "M.dst") (EVar "x"));
        Clause [le (plus (EVar "dst") (EVar "len")) (EVar "x")]
          (ESel (EVar "M.ret") (EVar "x")) (ESel (EVar "M.dst") (EVar "x")) ].

(** SmackRep.cpp:1405-1476 *)
Definition memsetProc (length : Z) : memproc :=
  if length <=? MEMORY_INTRINSIC_THRESHOLD then
    Assign (unrolled (fun _ => EVar "val") (Z.to_nat length) (EVar "M"))
  else
    Clauses
      [ Clause [le (EVar "dst") (EVar "x"); lt (EVar "x") (plus (EVar "dst") (EVar "len"))]
          (ESel (EVar "M.ret") (EVar "x")) (EVar "val");
        Clause [lt (EVar "x") (EVar "dst")]
          (ESel (EVar "M.ret") (EVar "x")) (ESel (EVar "M") (EVar "x"));
        Clause [le (plus (EVar "dst") (EVar "len")) (EVar "x")]
          (ESel (EVar "M.ret") (EVar "x")) (ESel (EVar "M") (EVar "x")) ].

Definition has_value (prog : list fdecl) (I : interp) (r : env) (e : expr) (v : val) : Prop :=
  exists k, eval prog I k r e = Some v.

(** What a call leaves in M.ret, given the state [r] in which the parameters and
    M.ret have their values; pointers are integers or, with --bit-precise-pointers,
    bit-vectors. *)
Definition clause_holds (prog : list fdecl) (I : interp) (bvptr : bool) (P : Z) (r : env) (c : clause) : Prop :=
  forall a, address bvptr P a ->
    let r' := upd_env r "x" (pointer bvptr P a) in
    (forall g, In g (cl_guards c) -> has_value prog I r' g (VBool true)) ->
    exists v, has_value prog I r' (cl_lhs c) v /\ has_value prog I r' (cl_rhs c) v.
Definition returns (prog : list fdecl) (I : interp) (bvptr : bool) (P : Z) (r : env) (p : memproc) : Prop :=
  match p with
  | Assign e => exists v, r "M.ret" = Some v /\ has_value prog I r e v
  | Clauses l => forall c, In c l -> clause_holds prog I bvptr P r c
  end.
