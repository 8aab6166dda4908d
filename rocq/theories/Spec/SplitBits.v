(** Specification: executions of whole programs (Spec/SplitMemory.v) that stay
    within what the points-to graph describes, when integers are bit-vectors.

    Nothing is said about types or overlapping accesses here: only that the graph
    is right ([points_to_sound], Spec/PointsTo.v) about the accesses made. *)
From Coq Require Import ZArith List String Bool.
From Verif.Spec Require Import LLVMInt IR CFG BitVectorIR ByteMemory Encodings Aliasing FlatMemory PointsTo Program DefaultMode SplitMemory.
From Verif.Model Require Import Boogie PreludeInt PreludeMem Regions RegionVars.
From Verif.Props Require Import RegionProps.
Import ListNotations.
Open Scope list_scope.
Open Scope Z_scope.

(** The points-to graph [dsa], with the pointers [l] of the program, is right
    about the accesses [ok]. *)
Record graph_right (dsa : nat -> node_info) (l : list Regions.access) (ok : expected) : Prop := {
  gr_pointers : Forall proper l;
  gr_sound : forall D, (forall x, In x D -> one_of ok x) -> points_to_sound 64 dsa l D;
  gr_address : forall a w A, ok a w A = true -> 0 <= a < 2 ^ 64 }.

(** ** Executions, with [Undefined] at an access that is not described and, with
    [ub], at undefined behaviour *)
Section Executions.
  Context (ub : bool) (ok : expected) (q : aprogram).
  Definition graph_runs (call : string -> effect) (F : afn) :=
    behaves (typed_den (areg_widths F) width_ok) (described_op ok call) no_ainvoke bv_true bv_eq (acode F).
  Definition graph_undefined (call : string -> effect) (F : afn) :=
    undefined_after (typed_den (areg_widths F) width_ok) (described_op ok call) no_ainvoke bv_true bv_eq (acode F).
  Fixpoint graph_calls (n : nat) (f : string) (args : list val) (m : mem) (t : list event) (v : val) (m' : mem) : Prop :=
    match n with
    | O => False
    | S n => exists F, find_afn q f = Some F /\ List.length args = List.length (params (acode F)) /\
        ((exists r, graph_runs (graph_calls n) F args m t (Some (Returned r, m')) /\ returns r v) \/
         (graph_runs (graph_calls n) F args m t None /\ (In Failed t \/ In Undefined t)) \/
         (ub = true /\ exists t0, t = t0 ++ [Undefined] /\ graph_undefined (graph_calls n) F args m t0))
    end.
  (** Some execution makes an access that the graph does not describe (or, with
      [ub], has undefined behaviour) before it fails. *)
  Definition can_leave_graph (f : string) (args : list val) (m : mem) : Prop :=
    exists n t v m', graph_calls n f args m (t ++ [Undefined]) v m' /\ ~ In Failed t /\ ~ In Undefined t.
End Executions.
