(** Specification: whole programs (Spec/Program.v) that allocate and free memory,
    and what goes wrong in their executions: invalid accesses, invalid frees,
    leaks, failing assertions.  Live blocks are those of Spec/Blocks.v; addresses
    are 64-bit patterns, read as signed numbers.  Nothing here refers to how SMACK
    checks. *)
From Coq Require Import ZArith List String Bool.
From Verif.Spec Require Import LLVMInt IR CFG BitVectorIR ByteMemory Program.
From Verif.Spec Require Blocks.
From Verif.Model Require Import Boogie PreludeInt.
From Verif.Model Require Allocator.
Import ListNotations.
Open Scope list_scope.
Open Scope Z_scope.

(** Instructions with side effects: those of Spec/Program.v; allocation on the
    heap and on the stack (a number of bytes, as an i64, gives an address); free. *)
Inductive sop := Base (o : op) | Malloc | Alloca | Free.

(** What can go wrong: an access of [n] bytes at [p], a free of [p], an assertion,
    a block that is still allocated when the program ends. *)
Inductive reason := BadAccess (p n : Z) | BadFree (p : Z) | BadAssert | Leak.
(** [Memory]: a call of the allocator, with its result.  [Outside]: something this
    property does not speak about: undefined behaviour other than the above, a
    stack variable passed to free (C26), an access reaching beyond the address
    2^63. *)
Inductive sevent := Memory (e : Allocator.event) | Bad (r : reason) | Outside.
Definition lift (e : event) : sevent := match e with Failed => Bad BadAssert | Undefined => Outside end.
Definition quiet (t : list sevent) : Prop := forall e, In e t -> exists a, e = Memory a.

(** Bytes in memory, and the calls of the allocator so far (the last one first). *)
Definition smem : Type := mem * list Allocator.event.
Definition seffect := list val -> smem -> list sevent -> val -> smem -> Prop.

(** Where the blocks are: the first one at 1024, every other one somewhere above
    the one before, all below 2^63 - 1.  An allocation of no bytes gives any
    address. *)
Fixpoint next_free (h : list Allocator.event) : Z :=
  match h with
  | [] => 1024
  | Allocator.Malloc n p :: h' | Allocator.Alloca n p :: h' => if 0 <? n then p + n else next_free h'
  | Allocator.Free _ :: h' => next_free h'
  end.
Fixpoint none_yet (h : list Allocator.event) : bool :=
  match h with
  | [] => true
  | Allocator.Malloc n _ :: h' | Allocator.Alloca n _ :: h' => negb (0 <? n) && none_yet h'
  | Allocator.Free _ :: h' => none_yet h'
  end.
Definition may_be_placed (h : list Allocator.event) (n p : Z) : Prop :=
  n = 0 \/
  0 < n /\ next_free h <= p /\ (none_yet h = true -> p = 1024) /\ p + n < 2 ^ 63 - 1.

(** [o] accesses [n] bytes at [a]. *)
Inductive accesses : op -> list val -> Z -> Z -> Prop :=
| A_load : forall w a, is_iN 64 a -> accesses (Load w) [VBv 64 a] (signed 64 a) (bytes_needed (width w))
| A_store : forall w x a, is_iN 64 a -> accesses (Store w) [x; VBv 64 a] (signed 64 a) (bytes_needed (width w)).

Definition no_call : string -> effect := fun _ _ _ _ _ _ => False.
Definition leaks (G : list (Z * Z)) (h : list Allocator.event) : Prop :=
  exists b, In b (Blocks.live G h) /\ Blocks.bk b = Blocks.Heap.

(** What the instructions do; [G]: the global variables (address and size). *)
Inductive exec_sop (G : list (Z * Z)) (call : string -> seffect) : sop -> seffect :=
| Z_plain : forall o vs m h t v m', exec_op no_call o vs m t v m' -> (forall a n, ~ accesses o vs a n) ->
    exec_sop G call (Base o) vs (m, h) (map lift t) v (m', h)
| Z_access : forall o vs m h t v m' a n, accesses o vs a n -> Blocks.in_bounds G h a n -> exec_op no_call o vs m t v m' ->
    exec_sop G call (Base o) vs (m, h) (map lift t) v (m', h)
| Z_invalid : forall o vs m h u a n, accesses o vs a n -> ~ Blocks.in_bounds G h a n -> a + n < 2 ^ 63 ->
    exec_sop G call (Base o) vs (m, h) [Bad (BadAccess a n)] u (m, h)
| Z_beyond : forall o vs m h u a n, accesses o vs a n -> ~ Blocks.in_bounds G h a n -> 2 ^ 63 <= a + n ->
    exec_sop G call (Base o) vs (m, h) [Outside] u (m, h)
| Z_call : forall f vs st t v st', call f vs st t v st' -> exec_sop G call (Base (Call f)) vs st t v st'
| Z_malloc : forall n p m h, is_iN 64 n -> is_iN 64 p -> may_be_placed h (signed 64 n) (signed 64 p) ->
    let e := Allocator.Malloc (signed 64 n) (signed 64 p) in
    exec_sop G call Malloc [VBv 64 n] (m, h) [Memory e] (VBv 64 p) (m, e :: h)
| Z_alloca : forall n p m h, is_iN 64 n -> is_iN 64 p -> may_be_placed h (signed 64 n) (signed 64 p) ->
    let e := Allocator.Alloca (signed 64 n) (signed 64 p) in
    exec_sop G call Alloca [VBv 64 n] (m, h) [Memory e] (VBv 64 p) (m, e :: h)
| Z_free : forall p m h u, is_iN 64 p -> signed 64 p = 0 \/ Blocks.starts_live G h Blocks.Heap (signed 64 p) ->
    let e := Allocator.Free (signed 64 p) in
    exec_sop G call Free [VBv 64 p] (m, h) [Memory e] u (m, e :: h)
| Z_free_stack : forall p m h u, is_iN 64 p -> Blocks.starts_live G h Blocks.Stack (signed 64 p) ->
    exec_sop G call Free [VBv 64 p] (m, h) [Outside] u (m, h)
| Z_free_invalid : forall p m h u, is_iN 64 p -> signed 64 p <> 0 -> ~ Blocks.starts_live G h Blocks.Heap (signed 64 p) ->
    ~ Blocks.starts_live G h Blocks.Stack (signed 64 p) ->
    exec_sop G call Free [VBv 64 p] (m, h) [Bad (BadFree (signed 64 p))] u (m, h).

(** No invokes. *)
Definition no_invokes {O M X : Type} : O -> list val -> M -> list X -> val -> bool -> M -> Prop :=
  fun _ _ _ _ _ _ _ => False.

Record sfn := SFn {
  sreg_widths : string -> option Z;
  scode : func val (typed sreg_widths width_ok) sop;
  sloops : list loop }.
Definition sprogram := list (string * sfn).
Fixpoint find_sfn (p : sprogram) (f : string) : option sfn :=
  match p with [] => None | (g, F) :: p' => if String.eqb f g then Some F else find_sfn p' f end.

Section Executions.
  (** [entries]: the functions at whose end the memory must have been freed *)
  Context (G : list (Z * Z)) (entries : list string) (p : sprogram).
  Definition sruns (call : string -> seffect) (F : sfn) :=
    behaves (typed_den (sreg_widths F) width_ok) (exec_sop G call) no_invokes bv_true bv_eq (scode F).
  Definition sruns_undefined (call : string -> seffect) (F : sfn) :=
    undefined_after (typed_den (sreg_widths F) width_ok) (exec_sop G call) no_invokes bv_true bv_eq (scode F).

  (** Executions of a call with fewer than [n] active calls: it returns; it
      returns from an entry function with blocks still allocated; it stops after
      something went wrong; behaviour is undefined. *)
  Fixpoint scalls (n : nat) (f : string) (args : list val) (st : smem) (t : list sevent) (v : val) (st' : smem) : Prop :=
    match n with
    | O => False
    | S n => exists F, find_sfn p f = Some F /\ List.length args = List.length (params (scode F)) /\
        ((exists r, sruns (scalls n) F args st t (Some (Returned r, st')) /\ returns r v /\
            (In f entries -> ~ leaks G (snd st'))) \/
         (exists r t0 st1, t = t0 ++ [Bad Leak] /\ sruns (scalls n) F args st t0 (Some (Returned r, st1)) /\
            In f entries /\ leaks G (snd st1)) \/
         (sruns (scalls n) F args st t None /\ ~ quiet t) \/
         (exists t0, t = t0 ++ [Outside] /\ sruns_undefined (scalls n) F args st t0))
    end.

  (** Called with these arguments and this memory, [f] can get to an invalid
      access, an invalid free, a failing assertion, or return with a leak; or to
      something this property does not speak about. *)
  Definition can_go_wrong (f : string) (args : list val) (m : mem) : Prop :=
    exists n t r v st', scalls n f args (m, []) (t ++ [Bad r]) v st' /\ quiet t.
  Definition can_be_outside (f : string) (args : list val) (m : mem) : Prop :=
    exists n t v st', scalls n f args (m, []) (t ++ [Outside]) v st' /\ quiet t.
End Executions.

(** What LLVM and the passes before establish. *)
Record swell_formed (p : sprogram) : Prop := {
  sw_ssa : forall f F, In (f, F) p -> ssa_form (typed_regs (sreg_widths F) width_ok) (scode F);
  sw_lowered : forall f F, In (f, F) p -> lowered (scode F);
  sw_original : forall f F, In (f, F) p -> original (scode F);
  sw_loops : forall f F, In (f, F) p -> loop_forest (scode F) (sloops F) }.
