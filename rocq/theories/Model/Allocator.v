(** The memory allocation models of share/smack/lib/smack.c:1605-1898: the Boogie
    procedures $$alloc, $alloc, $malloc, $free, $galloc and the checks, in the
    three memory models, with and without memory safety checking.

    A procedure with a body is the relation between the states before and after;
    a procedure given by "ensures" clauses is the conjunction of its clauses, in
    the order of the source (assume and ensures restrict the executions alike).
    $malloc and $free run between corral_atomic_begin and corral_atomic_end, so
    they are single steps.  A "ref" is represented by its value as a signed
    number: an integer or, with bit-vector pointers, one of [-2^(P-1), 2^(P-1)),
    with arithmetic modulo 2^P; C24_operators (Props/AllocProps.v) relates the
    operations below to the functions of the prelude. *)
From Coq Require Import ZArith List Bool.
From Verif.Spec Require Import LLVMInt.
Import ListNotations.
Open Scope list_scope.
Open Scope Z_scope.

(** share/smack/top.py:412: --mem-mod no-reuse-impls, reuse, no-reuse *)
Inductive memory_model := Impls | Reuse | NoReuse.

(** $base and, in the no-reuse models, $Size are uninterpreted functions: they
    do not change during an execution. *)
Record rigid := Rigid { base : Z -> Z; Size : Z -> Z }.
(** $Alloc, $Size of the reuse model, $CurrAddr, $allocatedCounter *)
Record state := State { Alloc : Z -> bool; SizeMap : Z -> Z; CurrAddr : Z; allocatedCounter : Z }.

Section Allocator.
  Context (bvptr : bool) (P : Z) (v : memory_model) (safety : bool).

  Definition is_ref (a : Z) : Prop := bvptr = true -> - 2 ^ (P - 1) <= a < 2 ^ (P - 1).
  Definition wrap (z : Z) : Z := if bvptr then signed P (pat P z) else z.
  (** $add.ref, $sub.ref *)
  Definition add_ref (a b : Z) : Z := wrap (a + b).
  Definition sub_ref (a b : Z) : Z := wrap (a - b).
  (** Prelude.cpp:1138-1147 *)
  Definition MALLOC_TOP : Z := if P =? 32 then 2147483647 else 9223372036854775807.

  (** The part shared by $$alloc of the no-reuse models (smack.c:1677-1693,
      1773-1789, 1814-1825, 1860-1867) for n > 0. *)
  Definition bump (s : state) (n p : Z) (s' : state) : Prop :=
    p = CurrAddr s /\ sub_ref (CurrAddr s') n >= p /\ CurrAddr s' > 0 /\ CurrAddr s' < MALLOC_TOP.

  Definition based (R : rigid) (p n : Z) : Prop :=
    forall q, is_ref q -> p <= q -> q < add_ref p n -> base R q = p.

  (** $$alloc *)
  Definition alloc (R : rigid) (s : state) (n p : Z) (s' : state) : Prop :=
    match v with
    | Impls =>
        0 <= n /\
        (if 0 <? n then
           bump s n p s' /\
           (if safety then Size R p = n /\ based R p n /\
                           (forall q, Alloc s' q = if q =? p then true else Alloc s q)
            else True)
         else CurrAddr s' = CurrAddr s /\ (if safety then forall q, Alloc s' q = Alloc s q else True))
    | NoReuse =>
        0 <= n /\
        (0 < n -> sub_ref (CurrAddr s') n >= CurrAddr s /\ p = CurrAddr s) /\
        (CurrAddr s' > 0 /\ CurrAddr s' < MALLOC_TOP) /\
        (if safety then
           (0 < n -> Size R p = n) /\ (0 < n -> based R p n) /\ (0 < n -> Alloc s' p = true)
         else True) /\
        (n = 0 -> CurrAddr s = CurrAddr s' /\ p = 0) /\
        (if safety then
           (n = 0 -> Alloc s' p = Alloc s p) /\ (forall q, is_ref q -> q <> p -> Alloc s' q = Alloc s q)
         else True)
    | Reuse =>
        0 <= n /\
        (0 < n -> 0 < p /\ p < sub_ref MALLOC_TOP n) /\
        (n = 0 -> p = 0) /\
        Alloc s p = false /\
        (forall q, is_ref q -> Alloc s q = true -> add_ref p n < q \/ add_ref q (SizeMap s' q) < p) /\
        Alloc s' p = true /\
        SizeMap s' p = n /\
        (forall q, is_ref q -> q <> p -> SizeMap s' q = SizeMap s q) /\
        (forall q, is_ref q -> q <> p -> Alloc s' q = Alloc s q) /\
        (if safety then based R p n else True)
    end.

  (** $alloc (smack.c:1623-1628): stack allocation; the counter is not in its
      modifies set. *)
  Definition stack_alloc (R : rigid) (s : state) (n p : Z) (s' : state) : Prop :=
    alloc R s n p s' /\ allocatedCounter s' = allocatedCounter s.
  (** $malloc (smack.c:1651-1660, 1805-1810); without memory safety there is no
      counter. *)
  Definition malloc (R : rigid) (s : state) (n p : Z) (s' : state) : Prop :=
    alloc R s n p s' /\
    allocatedCounter s' = if negb (n =? 0) && safety then allocatedCounter s + 1 else allocatedCounter s.

  (** The assertions (Impls) and preconditions (the others) of $free with memory
      safety: smack.c:1698-1703, 1745-1746, 1792-1793. *)
  Definition free_check (R : rigid) (s : state) (p : Z) : Prop :=
    p = 0 \/ (base R p = p /\ Alloc s p = true /\ 0 < p).
  (** The effect of $free: smack.c:1695-1707, 1743-1755, 1790-1802, 1827, 1848, 1869.
      Maps and variables not in the modifies clause keep their value. *)
  Definition free_effect (s : state) (p : Z) (s' : state) : Prop :=
    CurrAddr s' = CurrAddr s /\ (forall q, SizeMap s' q = SizeMap s q) /\
    if safety then
      match v with
      | Impls =>
          if negb (p =? 0) then
            (forall q, Alloc s' q = if q =? p then false else Alloc s q) /\
            allocatedCounter s' = allocatedCounter s - 1
          else (forall q, Alloc s' q = Alloc s q) /\ allocatedCounter s' = allocatedCounter s
      | Reuse | NoReuse =>
          (p <> 0 -> Alloc s' p = false) /\
          (p <> 0 -> forall q, is_ref q -> q <> p -> Alloc s' q = Alloc s q) /\
          (p <> 0 -> allocatedCounter s' = allocatedCounter s - 1) /\
          (p = 0 -> allocatedCounter s' = allocatedCounter s)
      end
    else
      allocatedCounter s' = allocatedCounter s /\
      match v with
      | Reuse => Alloc s' p = false /\ (forall q, is_ref q -> q <> p -> Alloc s' q = Alloc s q)
      | Impls | NoReuse => forall q, Alloc s' q = Alloc s q
      end.

  (** __SMACK_check_memory_safety: smack.c:1632-1646 *)
  Definition deref_check (R : rigid) (s : state) (p n : Z) : Prop :=
    Alloc s (base R p) = true /\ base R p <= p /\
    add_ref p n <= add_ref (base R p) (match v with
                                       | Reuse => SizeMap s (base R p)
                                       | Impls | NoReuse => Size R (base R p)
                                       end).

  (** __SMACK_check_memory_leak: smack.c:1877-1881 *)
  Definition leak_check (s : state) : Prop := allocatedCounter s = 0.

  (** $galloc: smack.c:1668-1675, 1716-1727, 1764-1771, called for every global
      variable with memory safety (Prelude.cpp:1161-1175) *)
  Definition galloc (R : rigid) (s : state) (b n : Z) (s' : state) : Prop :=
    based R b n /\ Alloc s' b = true /\
    (forall q, is_ref q -> q <> b -> Alloc s' q = Alloc s q) /\
    match v with
    | Reuse => SizeMap s' b = n /\ (forall q, is_ref q -> q <> b -> SizeMap s' q = SizeMap s q)
    | Impls | NoReuse => Size R b = n
    end /\ CurrAddr s' = CurrAddr s /\ allocatedCounter s' = allocatedCounter s.

  (** $global_allocations (Prelude.cpp:1161-1175) *)
  Fixpoint gallocs (R : rigid) (s : state) (G : list (Z * Z)) (s' : state) : Prop :=
    match G with
    | [] => s' = s
    | (b, n) :: G' => exists s1, galloc R s b n s1 /\ gallocs R s1 G' s'
    end.

  (** The state in which the program starts: all variables have arbitrary values
      at first, then $global_allocations and __SMACK_init_func_memory_model
      (smack.c:1884-1891) run.  In the reuse model $CurrAddr does not exist. *)
  Definition starts (R : rigid) (G : list (Z * Z)) (s : state) : Prop :=
    exists s0 s1, (if safety then gallocs R s0 G s1 else s1 = s0) /\
      (forall q, Alloc s q = Alloc s1 q) /\ (forall q, SizeMap s q = SizeMap s1 q) /\
      CurrAddr s = 1024 /\ allocatedCounter s = 0.

  (** Calls made by the program, with their results. *)
  Inductive event := Malloc (n p : Z) | Alloca (n p : Z) | Free (p : Z).

  Definition step (R : rigid) (s : state) (e : event) (s' : state) : Prop :=
    match e with
    | Malloc n p => is_ref n /\ is_ref p /\ malloc R s n p s'
    | Alloca n p => is_ref n /\ is_ref p /\ stack_alloc R s n p s'
    | Free p => is_ref p /\ (safety = true -> free_check R s p) /\ free_effect s p s'
    end.

  (** Executions; the last call first. *)
  Inductive run (R : rigid) (G : list (Z * Z)) : list event -> state -> Prop :=
  | run_start : forall s, starts R G s -> run R G [] s
  | run_step : forall h s e s', run R G h s -> step R s e s' -> run R G (e :: h) s'.
End Allocator.
