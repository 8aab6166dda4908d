(** Boogie's reading of the auxiliary declarations of Model/Vectors.v: type checking,
    and which interpretations of the functions satisfy the declarations. *)
From Coq Require Import ZArith List String Bool.
From Verif.Spec Require Import LLVMInt VectorOps.
From Verif.Model Require Import Boogie PreludeInt SmackRepInt Vectors.
Import ListNotations.
Open Scope string_scope.
Open Scope list_scope.
Open Scope Z_scope.

(** ** Types: the names i1, i8, … are synonyms of int, bvN is built in
    (Prelude.cpp:1058-1068), each datatype is a type of its own. *)
Inductive bty := TInt | TBv (w : Z) | TBool | TVec (n : nat) (t : tyname) | TOther.
Definition bty_of (T : vtype) : bty :=
  match T with
  | Sc (NInt _) => TInt | Sc (NBv w) => TBv w | Sc NBool => TBool | Sc _ => TOther
  | Vec n t => TVec n t
  end.
Definition bty_dec (a b : bty) : {a = b} + {a <> b}.
Proof. repeat (decide equality; try apply Z.eq_dec). Defined.
Definition bty_eqb (a b : bty) : bool := if bty_dec a b then true else false.
Fixpoint btys_eqb (a b : list bty) : bool :=
  match a, b with [], [] => true | x :: a', y :: b' => bty_eqb x y && btys_eqb a' b' | _, _ => false end.

Definition scalar_types (ts : list vtype) : option (list tyname) :=
  fold_right (fun T acc => match T, acc with Sc t, Some l => Some (t :: l) | _, _ => None end) (Some []) ts.
(** The prelude function a name with scalar types only refers to. *)
Definition scalar_name (f : vname) : option fname :=
  match scalar_types (vn_types f) with Some ts => Some (indexedName (op_string (vn_op f)) ts) | None => None end.
Definition vname_dec (a b : vname) : {a = b} + {a <> b}.
Proof. repeat (decide equality; try apply Z.eq_dec). Defined.

Section Typing.
  Context (prog : list fdecl) (tbl : list decl).
  (** Parameter and result types of a declared function. *)
  Definition signature (f : vname) : option (list bty * bty) :=
    match scalar_name f with
    | Some g => match lookup prog g with
                | Some d => Some (map (fun p => bty_of (Sc (snd p))) (fd_params d), bty_of (Sc (fd_ret d)))
                | None => None
                end
    | None =>
        match find (fun d => match d with DFun F => if vname_dec (vf_name F) f then true else false | _ => false end) tbl with
        | Some (DFun F) => Some (map (fun p => bty_of (snd p)) (vf_params F), bty_of (vf_ret F))
        | _ => None
        end
    end.
  Definition declared (T : vtype) : bool :=
    match T with
    | Sc _ => true
    | Vec n t => existsb (fun d => if key_dec (decl_key d) (KType n t) then true else false) tbl &&
                 existsb (fun d => if key_dec (decl_key d) (KMk n t) then true else false) tbl
    end.
  Fixpoint bound (vars : list (string * vtype)) (x : string) : option vtype :=
    match vars with [] => None | (y, T) :: vars' => if String.eqb y x then Some T else bound vars' x end.

  Fixpoint typeof (vars : list (string * vtype)) (e : vexpr) : option bty :=
    let fix typesof (es : list vexpr) : option (list bty) :=
      match es with
      | [] => Some []
      | e :: es' => match typeof vars e, typesof es' with Some t, Some ts => Some (t :: ts) | _, _ => None end
      end in
    match e with
    | XVar x => option_map bty_of (bound vars x)
    | XInt _ => Some TInt
    | XScalar _ => None
    | XMk n t es =>
        match typesof es with
        | Some ts => if btys_eqb ts (repeat (bty_of (Sc t)) n) && declared (Vec n t) then Some (TVec n t) else None
        | None => None
        end
    | XSel n t i e =>
        match typeof vars e with
        | Some T => if bty_eqb T (TVec n t) && (i <? n)%nat && declared (Vec n t) then Some (bty_of (Sc t)) else None
        | None => None
        end
    | XFun f es =>
        match signature f, typesof es with
        | Some (ps, r), Some ts => if btys_eqb ts ps then Some r else None
        | _, _ => None
        end
    end.

  Definition well_typed (d : decl) : bool :=
    match d with
    | DType _ _ | DMk _ _ => true
    | DFun F =>
        forallb (fun p => declared (snd p)) (vf_params F) && declared (vf_ret F) &&
        match vf_body F with
        | Some b => match typeof (vf_params F) b with Some t => bty_eqb t (bty_of (vf_ret F)) | None => false end
        | None => true
        end
    | DAxiom _ _ vars l r =>
        forallb (fun p => declared (snd p)) vars &&
        match typeof vars l, typeof vars r with Some a, Some b => bty_eqb a b | _, _ => false end
    end.
  (** Boogie accepts the declarations. *)
  Definition accepted : bool := forallb well_typed tbl.
End Typing.

(** ** Values *)
Inductive vval := SV (v : val) | VV (n : nat) (t : tyname) (ls : list val).
Definition scalar_in (t : tyname) (v : val) : Prop :=
  match t with
  | NInt _ => exists z, v = VInt z
  | NBv w => exists z, v = VBv w z /\ 0 <= z < 2 ^ w
  | NBool => exists b, v = VBool b
  | _ => False
  end.
(** [v] is a value of the Boogie type [T]. *)
Definition in_type (v : vval) (T : vtype) : Prop :=
  match T, v with
  | Sc t, SV x => scalar_in t x
  | Vec n t, VV n' t' ls => n' = n /\ t' = t /\ List.length ls = n /\ Forall (scalar_in t) ls
  | _, _ => False
  end.

Section Meaning.
  Context (prog : list fdecl) (I : interp).
  (** An interpretation of all functions; Boogie functions are total. *)
  Context (M : vname -> list vval -> vval).
  Definition venv := string -> option vval.

  Definition unS (v : vval) : option val := match v with SV x => Some x | VV _ _ _ => None end.
  Fixpoint unSs (vs : list vval) : option (list val) :=
    match vs with
    | [] => Some []
    | v :: vs' => match unS v, unSs vs' with Some x, Some xs => Some (x :: xs) | _, _ => None end
    end.
  Definition tyname_dec (a b : tyname) : {a = b} + {a <> b}.
  Proof. decide equality; apply Z.eq_dec. Defined.

  Fixpoint veval (r : venv) (e : vexpr) : option vval :=
    let fix vevals (es : list vexpr) : option (list vval) :=
      match es with
      | [] => Some []
      | e :: es' => match veval r e, vevals es' with Some v, Some vs => Some (v :: vs) | _, _ => None end
      end in
    match e with
    | XVar x => r x
    | XInt z => Some (SV (VInt z))
    | XScalar e => option_map SV (eval prog I 5 (fun x => match r x with Some (SV v) => Some v | _ => None end) e)
    | XMk n t es =>
        match vevals es with
        | Some vs => match unSs vs with
                     | Some xs => if (List.length xs =? n)%nat then Some (VV n t xs) else None
                     | None => None
                     end
        | None => None
        end
    | XSel n t i e =>
        match veval r e with
        | Some (VV n' t' ls) => if (n =? n')%nat && (if tyname_dec t t' then true else false) then option_map SV (nth_error ls i) else None
        | _ => None
        end
    | XFun f es => match vevals es with Some vs => Some (M f vs) | None => None end
    end.

  Fixpoint assign (vars : list (string * vtype)) (vs : list vval) : venv :=
    match vars, vs with
    | (x, _) :: vars', v :: vs' => fun y => if String.eqb x y then Some v else assign vars' vs' y
    | _, _ => fun _ => None
    end.

  (** [M] satisfies the declarations [tbl] on top of the prelude [prog], whose
      functions are nested less than five deep. *)
  Record satisfies (tbl : list decl) : Prop := {
    sat_type : forall F vs, In (DFun F) tbl -> Forall2 in_type vs (map snd (vf_params F)) ->
      in_type (M (vf_name F) vs) (vf_ret F);
    sat_body : forall F b vs, In (DFun F) tbl -> vf_body F = Some b -> Forall2 in_type vs (map snd (vf_params F)) ->
      veval (assign (vf_params F) vs) b = Some (M (vf_name F) vs);
    sat_axiom : forall f k vars l r vs, In (DAxiom f k vars l r) tbl -> Forall2 in_type vs (map snd vars) ->
      exists v, veval (assign vars vs) l = Some v /\ veval (assign vars vs) r = Some v;
    (** the scalar functions are those of the prelude *)
    sat_scalar_type : forall f g d vs, scalar_name f = Some g -> lookup prog g = Some d ->
      Forall2 in_type (map SV vs) (map (fun p => Sc (snd p)) (fd_params d)) -> in_type (M f (map SV vs)) (Sc (fd_ret d));
    sat_scalar : forall f g d vs v, scalar_name f = Some g -> lookup prog g = Some d ->
      Forall2 in_type (map SV vs) (map (fun p => Sc (snd p)) (fd_params d)) -> scalar_in (fd_ret d) v ->
      eval_call prog I 5 g vs = Some v -> M f (map SV vs) = SV v }.
End Meaning.
