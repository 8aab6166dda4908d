(** Specification for C57: programs over vectors, their iterators and boxes, as lists.

    An element is [Some x], or [None] if nothing is known about its value.  With
    [loses] = false this is what Rust's standard library does, apart from the order in
    which a vector drops its elements (last to first here) and from boxes, which drop
    nothing.  With [loses] = true a vector that is full forgets its elements when it
    grows, and its old buffer is not freed. *)
From Coq Require Import ZArith List Bool.
Import ListNotations.
Open Scope list_scope.
Open Scope Z_scope.

Inductive outcome (A : Type) :=
| Ok (a : A)
| Panicked          (* a Rust panic *)
| AssertFailed      (* a failing assert! *)
| Invalid           (* an access or a free outside of the allocated memory *)
| Blocked           (* the execution is not feasible: no memory *)
| Rejected.         (* not a Rust program: a variable is used that is not there *)
Arguments Ok {A}. Arguments Panicked {A}. Arguments AssertFailed {A}. Arguments Invalid {A}. Arguments Blocked {A}. Arguments Rejected {A}.

Definition var := nat.
Inductive op (T : Type) :=
| VecNew (x : var) | VecWithCapacity (x : var) (n : Z) | VecOf (x : var) (l : list T)      (* vec![...] *)
| Push (x : var) (t : T) | Pop (x : var) | Append (x y : var) | Insert (x : var) (i : nat) (t : T) | Remove (x : var) (i : nat)
| Len (x : var) | Get (x : var) (i : nat) | Set_ (x : var) (i : nat) (t : T)
| IntoIter (x : var) | Next (x : var) | NextBack (x : var) | SizeHint (x : var)
| BoxNew (x : var) (t : T) | BoxGet (x : var)
| Drop (x : var).
Arguments VecNew {T}. Arguments VecWithCapacity {T}. Arguments VecOf {T}. Arguments Push {T}. Arguments Pop {T}. Arguments Append {T}.
Arguments Insert {T}. Arguments Remove {T}. Arguments Len {T}. Arguments Get {T}. Arguments Set_ {T}. Arguments IntoIter {T}.
Arguments Next {T}. Arguments NextBack {T}. Arguments SizeHint {T}. Arguments BoxNew {T}. Arguments BoxGet {T}. Arguments Drop {T}.

(** What an operation returns *)
Inductive obs (E : Type) := Nothing | Elem (e : E) | Maybe (e : option E) | Number (n : Z).
Arguments Nothing {E}. Arguments Elem {E}. Arguments Maybe {E}. Arguments Number {E}.

(** Variables *)
Section Env.
  Context {O : Type}.
  Definition env := list (var * O).
  Fixpoint get (x : var) (e : env) : option O :=
    match e with [] => None | (y, o) :: e' => if Nat.eqb x y then Some o else get x e' end.
  Fixpoint put (x : var) (o : O) (e : env) : env :=
    match e with [] => [] | (y, o') :: e' => if Nat.eqb x y then (y, o) :: e' else (y, o') :: put x o e' end.
  Fixpoint del (x : var) (e : env) : env :=
    match e with [] => [] | (y, o') :: e' => if Nat.eqb x y then e' else (y, o') :: del x e' end.
End Env.
Arguments env : clear implicits.

Section Spec.
  Context {T : Type} (loses : bool) (sz : Z).
  Notation elem := (option T).
  (** A vector with its capacity, what an iterator still has to return, a box *)
  Inductive aobj := AVec (l : list elem) (cap : Z) | AIter (l : list elem) | ABox (t : T).
  (** The variables, the elements dropped so far (the last one first), and the number of
      memory blocks nothing refers to any more *)
  Record astate := AState { avars : env aobj; dropped : list elem; leaked : nat }.
  Definition len {A} (l : list A) : Z := Z.of_nat (List.length l).

  (** push: a full vector grows first. *)
  Definition push (v : list elem * Z * nat) (t : elem) : list elem * Z * nat :=
    match v with
    | (l, cap, k) =>
        if (len l =? cap) && loses then (map (fun _ => None) l ++ [t], 2 * cap, S k) else (l ++ [t], cap, k)
    end.
  Definition pushes (v : list elem * Z * nat) (ts : list elem) : list elem * Z * nat := fold_left push ts v.
  Definition insert_at (i : nat) (l : list elem) (t : elem) : list elem := firstn i l ++ t :: skipn i l.
  Definition remove_at (i : nat) (l : list elem) : list elem := firstn i l ++ skipn (S i) l.
  Definition replace_at (i : nat) (l : list elem) (t : elem) : list elem := firstn i l ++ t :: skipn (S i) l.

  Definition declare (x : var) (o : aobj) (k : nat) (s : astate) : outcome (astate * obs elem) :=
    match get x (avars s) with
    | Some _ => Rejected
    | None => Ok (AState ((x, o) :: avars s) (dropped s) (k + leaked s), Nothing)
    end.
  Definition with_vec (x : var) (s : astate) (f : list elem -> Z -> outcome (astate * obs elem)) : outcome (astate * obs elem) :=
    match get x (avars s) with Some (AVec l cap) => f l cap | _ => Rejected end.
  Definition update (x : var) (o : aobj) (k : nat) (s : astate) : astate := AState (put x o (avars s)) (dropped s) (k + leaked s).

  Definition astep (s : astate) (o : op T) : outcome (astate * obs elem) :=
    match o with
    | VecNew x => declare x (AVec [] 32) 0 s
    | VecWithCapacity x n =>
        match get x (avars s) with
        | Some _ => Rejected
        | None => if 2 ^ 64 <=? n * sz then Panicked else declare x (AVec [] n) 0 s
        end
    | VecOf x l => match pushes ([], 32, O) (map Some l) with (l', cap, k) => declare x (AVec l' cap) k s end
    | Push x t => with_vec x s (fun l cap => match push (l, cap, O) (Some t) with (l', cap', k) => Ok (update x (AVec l' cap') k s, Nothing) end)
    | Pop x => with_vec x s (fun l cap =>
        match rev l with
        | [] => Ok (s, Maybe None)
        | t :: r => Ok (update x (AVec (rev r) cap) O s, Maybe (Some t))
        end)
    | Append x y =>
        if Nat.eqb x y then Rejected
        else with_vec x s (fun l cap => with_vec y s (fun l' cap' =>
          match pushes ([], 32, O) (rev l') with (d, _, k) =>
            match pushes (l, cap, O) (rev d) with (l'', cap'', k') =>
              Ok (AState (put x (AVec l'' cap'') (put y (AVec [] cap') (avars s))) (dropped s) (k + k' + leaked s), Nothing)
            end end))
    | Insert x i t => with_vec x s (fun l cap =>
        if (i <=? List.length l)%nat then
          if (len l =? cap) && loses
          then Ok (update x (AVec (insert_at i (map (fun _ => None) l) (Some t)) (2 * cap)) 1 s, Nothing)
          else Ok (update x (AVec (insert_at i l (Some t)) cap) O s, Nothing)
        else AssertFailed)
    | Remove x i => with_vec x s (fun l cap =>
        match nth_error l i with
        | Some t => Ok (update x (AVec (remove_at i l) cap) O s, Elem t)
        | None => AssertFailed
        end)
    | Len x => with_vec x s (fun l cap => Ok (s, Number (len l)))
    | Get x i => with_vec x s (fun l cap =>
        match nth_error l i with Some t => Ok (s, Elem t) | None => Panicked end)
    | Set_ x i t => with_vec x s (fun l cap =>
        match nth_error l i with
        | Some t' => Ok (AState (put x (AVec (replace_at i l (Some t)) cap) (avars s)) (t' :: dropped s) (leaked s), Nothing)
        | None => Panicked
        end)
    | IntoIter x => with_vec x s (fun l cap => Ok (update x (AIter l) O s, Nothing))
    | Next x =>
        match get x (avars s) with
        | Some (AIter []) => Ok (s, Maybe None)
        | Some (AIter (t :: l)) => Ok (update x (AIter l) O s, Maybe (Some t))
        | _ => Rejected
        end
    | NextBack x =>
        match get x (avars s) with
        | Some (AIter l) => match rev l with [] => Ok (s, Maybe None) | t :: r => Ok (update x (AIter (rev r)) O s, Maybe (Some t)) end
        | _ => Rejected
        end
    | SizeHint x => match get x (avars s) with Some (AIter l) => Ok (s, Number (len l)) | _ => Rejected end
    | BoxNew x t => declare x (ABox t) 0 s
    | BoxGet x => match get x (avars s) with Some (ABox t) => Ok (s, Elem (Some t)) | _ => Rejected end
    | Drop x =>
        match get x (avars s) with
        | Some (AVec l _) => Ok (AState (del x (avars s)) (l ++ dropped s) (leaked s), Nothing)
        | Some (AIter l) => Ok (AState (del x (avars s)) (rev l ++ dropped s) (leaked s), Nothing)
        | Some (ABox _) => Ok (AState (del x (avars s)) (dropped s) (S (leaked s)), Nothing)
        | None => Rejected
        end
    end.

  (** A program: the operations one after the other *)
  Fixpoint aruns (s : astate) (l : list (op T)) : outcome (astate * list (obs elem)) :=
    match l with
    | [] => Ok (s, [])
    | o :: l' =>
        match astep s o with
        | Ok (s', r) => match aruns s' l' with Ok (s'', rs) => Ok (s'', r :: rs) | Panicked => Panicked | AssertFailed => AssertFailed
                        | Invalid => Invalid | Blocked => Blocked | Rejected => Rejected end
        | Panicked => Panicked | AssertFailed => AssertFailed | Invalid => Invalid | Blocked => Blocked | Rejected => Rejected
        end
    end.
End Spec.
Arguments aobj : clear implicits. Arguments astate : clear implicits.

(** A value is as predicted. *)
Definition known {T} (e : option T) (t : T) : Prop := match e with Some x => t = x | None => True end.
Inductive predicted {T} : obs (option T) -> obs T -> Prop :=
| pr_nothing : predicted Nothing Nothing
| pr_elem e t : known e t -> predicted (Elem e) (Elem t)
| pr_none : predicted (Maybe None) (Maybe None)
| pr_some e t : known e t -> predicted (Maybe (Some e)) (Maybe (Some t))
| pr_number n : predicted (Number n) (Number n).

Definition known_obs {T} (o : obs T) : obs (option T) :=
  match o with Nothing => Nothing | Elem t => Elem (Some t) | Maybe None => Maybe None | Maybe (Some t) => Maybe (Some (Some t)) | Number n => Number n end.

(** The memory allocated before: nonempty blocks of positive addresses, apart from each other *)
Definition blocks (L : list (Z * Z)) : Prop :=
  Forall (fun b => 0 < fst b /\ 0 < snd b /\ fst b + snd b < 2 ^ 63 - 1) L /\
  ForallOrdPairs (fun a b => fst a + snd a <= fst b \/ fst b + snd b <= fst a) L.
(** No vector is created with capacity 0. *)
Definition capacities {T} (l : list (op T)) : Prop := forall x n, In (VecWithCapacity x n) l -> 0 < n.
Definition start {T} : astate T := AState [] [] 0.

(** No vector ever holds more elements than the capacity it was created with, 32 unless
    stated, and no vector of more than 32 elements is appended to another. *)
Section Fits.
  Context {T : Type} (sz : Z).
  Definition room (s : astate T) : Prop := forall x l cap, get x (avars s) = Some (AVec l cap) -> len l <= cap.
  Definition small (s : astate T) (o : op T) : Prop :=
    match o with Append x y => forall l cap, get y (avars s) = Some (AVec l cap) -> len l <= 32 | _ => True end.
  Fixpoint fits (s : astate T) (l : list (op T)) : Prop :=
    match l with
    | [] => True
    | o :: l' => small s o /\ match astep false sz s o with Ok (s', _) => room s' /\ fits s' l' | _ => True end
    end.
End Fits.

(** Two programs end the same way, unless the first has no memory left. *)
Inductive agrees {A B} (R : A -> B -> Prop) : outcome A -> outcome B -> Prop :=
| ag_blocked b : agrees R Blocked b
| ag_ok a b : R a b -> agrees R (Ok a) (Ok b)
| ag_panic : agrees R Panicked Panicked
| ag_assert : agrees R AssertFailed AssertFailed
| ag_reject : agrees R Rejected Rejected.
