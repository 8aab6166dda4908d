(** Specification: whole programs (Spec/Program.v) together with what the points-to
    analysis says about the pointer of each load and store, and the executions
    that the default encoding with memory split into regions can be expected to
    get right.

    As in Spec/DefaultMode.v an execution leaves what the encoding describes when
    its behaviour is undefined or an integer operation is not the mathematical
    one; for memory, when an access is not one of those that the points-to graph
    and the types describe ([expected], [describes]). *)
From Coq Require Import ZArith List String Bool.
From Verif.Spec Require Import LLVMInt IR CFG BitVectorIR ByteMemory Encodings Aliasing FlatMemory PointsTo Program DefaultMode.
From Verif.Model Require Import Boogie PreludeInt PreludeMem Regions RegionVars.
From Verif.Props Require Import RegionProps.
Import ListNotations.
Open Scope list_scope.
Open Scope Z_scope.

(** ** Programs with what is known about pointers *)
(** An instruction and, for a load or store, what the points-to analysis says
    about its pointer: node, offset, size and type of the access. *)
Record pop := Pop { what : op; about : Regions.access }.
Record afn := AFn {
  areg_widths : string -> option Z;
  acode : func val (typed areg_widths width_ok) pop;
  aloops : list loop }.
Definition aprogram := list (string * afn).
Fixpoint find_afn (q : aprogram) (f : string) : option afn :=
  match q with [] => None | (g, F) :: q' => if String.eqb f g then Some F else find_afn q' f end.

(** The program without it. *)
Section Map.
  Context {V E P Q : Type} (g : P -> Q).
  Definition map_stmt (s : stmt E P) : stmt E Q :=
    match s with SAssign x e => SAssign x e | SPrim x p es => SPrim x (g p) es end.
  Definition map_term (t : term V E P) : term V E Q :=
    match t with
    | TRet e => TRet e
    | TBr l => TBr l
    | TCond e l1 l2 => TCond e l1 l2
    | TSwitch e d cs => TSwitch e d cs
    | TInvoke x p es n u => TInvoke x (g p) es n u
    | TResume e => TResume e
    | TUnreachable => TUnreachable
    end.
  Definition map_block (b : block V E P) : block V E Q :=
    Block (phis b) (map map_stmt (body b)) (map_term (bterm b)).
  Definition map_func (f : func V E P) : func V E Q :=
    Func (params f) (entry f) (map (fun lb => (fst lb, map_block (snd lb))) (blocks f)).
End Map.
Definition plain_fn (F : afn) : fn := Fn (areg_widths F) (map_func what (acode F)) (aloops F).
Definition plain (q : aprogram) : program := map (fun fF => (fst fF, plain_fn (snd fF))) q.

(** What LLVM and the passes before the loop pass establish. *)
Record awell_formed (q : aprogram) : Prop := {
  aw_ssa : forall f F, In (f, F) q -> ssa_form (typed_regs (areg_widths F) width_ok) (acode F);
  aw_lowered : forall f F, In (f, F) q -> lowered (acode F);
  aw_original : forall f F, In (f, F) q -> original (acode F);
  aw_loops : forall f F, In (f, F) q -> loop_forest (acode F) (aloops F);
  aw_conditions : forall f F l b e l1 l2, In (f, F) q -> block_of (acode F) l = Some b -> bterm b = TCond e l1 l2 ->
    operand_width (proj1_sig e) = 1;
  aw_registers : forall f F x n, In (f, F) q -> areg_widths F x = Some n -> 1 <= n }.

(** ** Memory accesses *)
(** Which accesses are described: at this address, of this type, through a pointer
    about which this is known. *)
Definition expected := Z -> Program.access -> Regions.access -> bool.
Definition one_of (ok : expected) (x : dyn) : Prop :=
  exists w, d_ty x = AInt (Program.width w) /\ ok (d_addr x) w (d_static x) = true.
(** The points-to graph [dsa], with the pointers [l] of the program, is right
    about them; and memory is not reinterpreted. *)
Record describes (dsa : nat -> node_info) (l : list Regions.access) (ok : expected) : Prop := {
  ds_pointers : Forall proper l;
  ds_sound : forall D, (forall x, In x D -> one_of ok x) -> points_to_sound 64 dsa l D;
  ds_address : forall a w A, ok a w A = true -> 0 <= a < 2 ^ 64;
  ds_typed : forall a w A a' w' A' i j, ok a w A = true -> ok a' w' A' = true ->
    0 <= i < bytes_needed (Program.width w) -> 0 <= j < bytes_needed (Program.width w') ->
    bytes_at a i = bytes_at a' j -> a = a' /\ w = w' }.

Definition described (ok : expected) (o : pop) (vs : list val) : Prop :=
  match what o, vs with
  | Load w, [VBv n a] => n = 64 /\ ok a w (about o) = true
  | Store w, [VBv k _; VBv n a] => k = Program.width w /\ n = 64 /\ ok a w (about o) = true
  | (Assume | Assert), [VBv n _] => n = 32
  | Input _, [] => True
  | Call _, _ => True
  | _, _ => False
  end.
Inductive described_op (ok : expected) (call : string -> effect) : pop -> effect :=
| D_described : forall o vs m t v m', exec_op call (what o) vs m t v m' -> described ok o vs -> described_op ok call o vs m t v m'
| D_other : forall o vs m v m', ~ described ok o vs -> described_op ok call o vs m [Undefined] v m'.

(** ** Executions, with [Undefined] wherever the encoding is inexact *)
Definition no_ainvoke : pop -> list val -> mem -> list event -> val -> bool -> mem -> Prop :=
  fun _ _ _ _ _ _ _ => False.
Section Executions.
  Context (all : bool) (ok : expected) (q : aprogram).
  Definition described_runs (call : string -> effect) (F : afn) :=
    behaves (exact_den all (areg_widths F)) (described_op ok call) no_ainvoke bv_true bv_eq (acode F).
  Definition described_undefined (call : string -> effect) (F : afn) :=
    undefined_after (exact_den all (areg_widths F)) (described_op ok call) no_ainvoke bv_true bv_eq (acode F).
  Fixpoint described_calls (n : nat) (f : string) (args : list val) (m : mem) (t : list event) (v : val) (m' : mem) : Prop :=
    match n with
    | O => False
    | S n => exists F, find_afn q f = Some F /\ List.length args = List.length (params (acode F)) /\
        ((exists r, described_runs (described_calls n) F args m t (Some (Returned r, m')) /\ returns r v) \/
         (described_runs (described_calls n) F args m t None /\ (In Failed t \/ In Undefined t)) \/
         (exists t0, t = t0 ++ [Undefined] /\ described_undefined (described_calls n) F args m t0))
    end.
  (** Some execution leaves what the encoding describes before it fails. *)
  Definition can_be_undescribed (f : string) (args : list val) (m : mem) : Prop :=
    exists n t v m', described_calls n f args m (t ++ [Undefined]) v m' /\ ~ In Failed t /\ ~ In Undefined t.
End Executions.
