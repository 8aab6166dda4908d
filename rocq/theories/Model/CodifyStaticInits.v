(** lib/smack/CodifyStaticInits.cpp: the initializers of global variables become
    stores in the procedure __SMACK_static_init; and where it is called
    (SmackRep.cpp:102-109, 1238-1251, SmackModuleGenerator.cpp:80-85). *)
From Coq Require Import ZArith List Bool String.
From Verif.Spec Require Import Aggregates.
From Verif.Model Require Import Globals.
Import ListNotations.
Open Scope list_scope.
Open Scope Z_scope.

(** A global variable: its type, its initializer (none: a declaration), and
    whether it is read (DSA->isRead, an oracle). *)
Record global := Global { g_id : nat; g_type : ty; g_init : option agg; g_read : bool }.

(** An element of the work list: a constant with its type, the global, indices. *)
Record item := Item { it_type : ty; it_val : agg; it_global : global; it_idxs : list Z }.
(** IRB.CreateStore(V, IRB.CreateGEP(P, I)) *)
Record init_store := InitStore { is_type : ty; is_val : agg; is_global : global; is_idxs : list Z }.

(** :60-63, 70-73 *)
Definition extend (I : list Z) (i : Z) : list Z := (match I with [] => [0] | _ => I end) ++ [i].

(** for (unsigned i = N; i-- > 0;) worklist.push_front(...) – :57-65, 67-75; the
    number of elements is truncated to 32 bits. *)
Definition push_elements (kids : list (Z * ty * agg)) (P : global) (I : list Z) (wl : list item) : list item :=
  fold_left (fun wl k => match k with (i, T, A) => Item T A P (extend I i) :: wl end) (rev kids) wl.

(** The elements 0, ..., n-1 of a constant aggregate; [None] if there are fewer. *)
Fixpoint elements (V : agg) (i : Z) (Ts : list ty) : option (list (Z * ty * agg)) :=
  match Ts with
  | [] => Some []
  | T :: Ts' =>
      match element V i, elements V (i + 1) Ts' with
      | Some A, Some l => Some ((i, T, A) :: l)
      | _, _ => None
      end
  end.

(** The while loop – :46-79; [None]: not finished within the fuel, or an ill-formed
    constant. *)
Fixpoint codify (fuel : nat) (wl : list item) : option (list init_store) :=
  match wl with
  | [] => Some []
  | Item T V P Ix :: wl' =>
      match fuel with
      | O => None
      | S f =>
          match T with
          | TScalar _ _ => option_map (cons (InitStore T V P Ix)) (codify f wl')
          | TArray n T' =>
              match elements V 0 (repeat T' (Z.to_nat (u32 n))) with
              | Some kids => codify f (push_elements kids P Ix wl')
              | None => None
              end
          | TStruct _ Ts =>
              match elements V 0 Ts with
              | Some kids => codify f (push_elements kids P Ix wl')
              | None => None
              end
          end
      end
  end.

(** :41-44 *)
Definition initial (globals : list global) : list item :=
  flat_map (fun G => match g_init G with
                     | Some V => if g_read G then [Item (g_type G) V G []] else []
                     | None => []
                     end) globals.
Definition static_init (fuel : nat) (globals : list global) : option (list init_store) := codify fuel (initial globals).

(** *** Meaning of the emitted code: [addr] gives the addresses of the globals. *)
Definition run_init_store (addr : nat -> Z) (e : init_store) (m m' : Z -> Z) : Prop :=
  exists o bits a x, gep_offset (g_type (is_global e)) (is_idxs e) = Some (o, TScalar bits a) /\
    is_val e = Sc x /\ stored (addr (g_id (is_global e)) + o) bits x m m'.
Inductive run_init_stores (addr : nat -> Z) : list init_store -> (Z -> Z) -> (Z -> Z) -> Prop :=
| ri_nil : forall m, run_init_stores addr [] m m
| ri_cons : forall e l m m1 m2, run_init_store addr e m m1 -> run_init_stores addr l m1 m2 -> run_init_stores addr (e :: l) m m2.

(** *** Where it is called *)
Open Scope string_scope.
Definition INITIALIZE_PROC : string := "$initialize".
Definition STATIC_INIT_PROC : string := "__SMACK_static_init".
Definition INIT_FUNC_PREFIX : string := "__SMACK_init_func".

(** SmackRep::SmackRep – SmackRep.cpp:102-109; addInitFunc appends the functions
    whose name starts with INIT_FUNC_PREFIX and is not an entry point, in the order
    of the module (SmackModuleGenerator.cpp:80-85). *)
Definition initFuncs (memory_safety : bool) (entries : list string) (defined : list string) : list string :=
  (if memory_safety then ["$global_allocations"] else []) ++ [STATIC_INIT_PROC] ++
  filter (fun f => negb (existsb (String.eqb f) entries) && String.prefix INIT_FUNC_PREFIX f) defined.

(** The calls at the start of procedure [f]: SmackModuleGenerator.cpp:80-82. *)
Definition first_calls (entries : list string) (f : string) : list string :=
  if existsb (String.eqb f) entries then [INITIALIZE_PROC] else [].
