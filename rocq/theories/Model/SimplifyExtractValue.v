(** lib/utils/SimplifyExtractValue.cpp, as steps on straight-line code. *)
From Coq Require Import ZArith List Bool.
From Verif.Spec Require Import Aggregates AggProgram.
Import ListNotations.
Open Scope list_scope.
Open Scope Z_scope.

(** Value::replaceAllUsesWith *)
Definition subst_op (d : nat) (o : operand) (x : operand) : operand :=
  match x with OV y => if Nat.eqb y d then o else x | OC _ => x end.
Definition subst (d : nat) (o : operand) (i : inst) : inst :=
  match i with
  | IExtract e a idx => IExtract e (subst_op d o a) idx
  | IInsert e a v idx => IInsert e (subst_op d o a) (subst_op d o v) idx
  | ILoad e t p => ILoad e t (subst_op d o p)
  | IGep e t p idx => IGep e t (subst_op d o p) idx
  | IOther e k ops => IOther e k (map (subst_op d o) ops)
  end.

(** The common part of two index lists is removed; [Some]: they differ within –
    the loop :147-177. *)
Fixpoint compare (ext ins : list Z) : option (list Z * list Z) :=
  match ext, ins with
  | x :: ext', i :: ins' => if x =? i then compare ext' ins' else None
  | _, _ => Some (ext, ins)
  end.

(** What replaces "d = extractvalue a, idx": instructions put in front of it, and
    the operand that replaces its uses.  [f]: names not used so far. *)
Record rewrite_result := Rewrite { before_ev : list inst; value : operand }.

(** Undef and zero of the type of the extractvalue instruction. *)
Definition sub_type (t : ty) (idx : list Z) : option ty :=
  match component t idx with Some (_, s) => Some s | None => None end.

(** Extraction from a constant – :69-121; other constants are left – :122. *)
Definition from_const (f : nat) (c : const) (idx : list Z) : option rewrite_result :=
  match idx with
  | [] => Some (Rewrite [] (OC c))                                          (* :61-68 *)
  | i :: idx' =>
      match c with
      | CUndef t => option_map (fun s => Rewrite [] (OC (CUndef s))) (sub_type t idx)
      | CZero t => option_map (fun s => Rewrite [] (OC (CZero s))) (sub_type t idx)
      | CAgg l =>
          match (if 0 <=? i then nth_error l (Z.to_nat i) else None) with
          | None => None                                                    (* not well-formed *)
          | Some V =>
              match idx' with
              | [] => Some (Rewrite [] (OC V))
              | _ => Some (Rewrite [IExtract f (OC V) idx'] (OV f))
              end
          end
      | COther _ => None
      end
  end.

(** Extraction from the result of an insertvalue – :144-226 *)
Definition from_insert (f : nat) (A V : operand) (ins idx : list Z) : option rewrite_result :=
  match compare idx ins with
  | None => Some (Rewrite [IExtract f A idx] (OV f))
  | Some ([], []) => Some (Rewrite [] V)
  | Some ([], ins') => Some (Rewrite [IExtract f A idx; IInsert (S f) (OV f) V ins'] (OV (S f)))
  | Some (ext', _) => Some (Rewrite [IExtract f V ext'] (OV f))
  end.

(** Extraction from the result of a load – :123-143: a getelementptr and a load of
    the component, placed before the load. *)
Definition from_load (f : nat) (t : ty) (p : operand) (idx : list Z) : option (list inst * operand) :=
  match sub_type t idx with
  | Some s => Some ([IGep f t p (0 :: idx); ILoad (S f) s (OV f)], OV (S f))
  | None => None
  end.

(** Names for new instructions. *)
Definition fresh (f : nat) (p : list inst) : Prop :=
  forall i, In i p -> (dest i < f)%nat /\ (forall y, uses i y -> (y < f)%nat).

(** One replacement in a program: "d = extractvalue a, idx" preceded by the
    instruction defining a. *)
Inductive simplifies : list inst -> list inst -> Prop :=
| s_const : forall p d c idx q f b v, fresh f (p ++ IExtract d (OC c) idx :: q) ->
    from_const f c idx = Some (Rewrite b v) ->
    simplifies (p ++ IExtract d (OC c) idx :: q) (p ++ b ++ map (subst d v) q)
| s_empty : forall p d x q,                                                  (* :61-68 *)
    simplifies (p ++ IExtract d (OV x) [] :: q) (p ++ map (subst d (OV x)) q)
| s_insert : forall p x A V ins r d idx q f b v, idx <> [] ->
    fresh f (p ++ IInsert x A V ins :: r ++ IExtract d (OV x) idx :: q) ->
    from_insert f A V ins idx = Some (Rewrite b v) ->
    simplifies (p ++ IInsert x A V ins :: r ++ IExtract d (OV x) idx :: q)
               (p ++ IInsert x A V ins :: r ++ b ++ map (subst d v) q)
| s_load : forall p x t P r d idx q f b v, idx <> [] ->
    fresh f (p ++ ILoad x t P :: r ++ IExtract d (OV x) idx :: q) ->
    from_load f t P idx = Some (b, v) ->
    simplifies (p ++ ILoad x t P :: r ++ IExtract d (OV x) idx :: q)
               (p ++ b ++ ILoad x t P :: r ++ map (subst d v) q).

(** The pass: replacements as long as there are some – :52-233 *)
Inductive pass : list inst -> list inst -> Prop :=
| pass_done : forall p, pass p p
| pass_step : forall p p1 p2, simplifies p p1 -> pass p1 p2 -> pass p p2.
