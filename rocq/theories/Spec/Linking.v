(** Programs in several files: what their functions do when the files are linked. *)
From Coq Require Import ZArith List String Bool Arith.
Import ListNotations.
Open Scope string_scope.
Open Scope list_scope.

(** Code that acts, observes the answers and calls functions by reference. *)
Inductive code :=
| Ret (v : Z)
| Do (action : string) (arg : Z) (k : Z -> code)
| Call (f : nat) (arg : Z) (k : Z -> code).

(** [Static]: only seen in its file.  [Weak]: gives way to a [Strong] one.  Without a body
    it is a declaration. *)
Inductive linkage := Strong | Weak | Static.
Record func := Func { fname : string; flink : linkage; fbody : option (Z -> code) }.
(** The functions of a file and what refers to them. *)
Definition file := list (nat * func).

Fixpoint named (n : string) (m : file) : option func :=
  match m with
  | [] => None
  | (_, f) :: m' => if String.eqb (fname f) n then Some f else named n m'
  end.
Fixpoint name_of (m : file) (p : nat) : option string :=
  match m with
  | [] => None
  | (q, f) :: m' => if Nat.eqb q p then Some (fname f) else name_of m' p
  end.

(** The first file that defines the name with that linkage. *)
Fixpoint first_def (lk : linkage) (ms : list file) (j : nat) (n : string) : option (nat * (Z -> code)) :=
  match ms with
  | [] => None
  | m :: ms' =>
      match named n m, lk with
      | Some (Func _ Strong (Some b)), Strong => Some (j, b)
      | Some (Func _ Weak (Some b)), Weak => Some (j, b)
      | _, _ => first_def lk ms' (S j) n
      end
  end.
(** The function that all files see under the name. *)
Definition global (ms : list file) (n : string) : option (nat * (Z -> code)) :=
  match first_def Strong ms 0 n with
  | Some d => Some d
  | None => first_def Weak ms 0 n
  end.
(** The function that file [i] sees under the name. *)
Definition denotes (ms : list file) (i : nat) (n : string) : option (nat * (Z -> code)) :=
  match named n (nth i ms []) with
  | Some (Func _ Static (Some b)) => Some (i, b)
  | _ => global ms n
  end.

(** Files can be linked if no name has two strong definitions. *)
Definition strongly (m : file) (n : string) : Prop := exists b, named n m = Some (Func n Strong (Some b)).
Definition links (ms : list file) : Prop :=
  forall n i j, i < List.length ms -> j < List.length ms -> strongly (nth i ms []) n -> strongly (nth j ms []) n -> i = j.

(** What can be observed of an execution, up to some point or to its end: actions, with
    their answers, and calls of functions that are not defined. *)
Inductive event := Acted (action : string) (arg answer : Z) | Unknown (f : string) (arg answer : Z).
Inductive obs (ms : list file) : nat -> code -> list event -> option Z -> Prop :=
| o_stop i c : obs ms i c [] None
| o_ret i v : obs ms i (Ret v) [] (Some v)
| o_do i x a k r t v : obs ms i (k r) t v -> obs ms i (Do x a k) (Acted x a r :: t) v
| o_call i p n j b a k t1 r t2 v : name_of (nth i ms []) p = Some n -> denotes ms i n = Some (j, b) ->
    obs ms j (b a) t1 (Some r) -> obs ms i (k r) t2 v -> obs ms i (Call p a k) (t1 ++ t2) v
| o_in i p n j b a k t : name_of (nth i ms []) p = Some n -> denotes ms i n = Some (j, b) ->
    obs ms j (b a) t None -> obs ms i (Call p a k) t None
| o_unknown i p n a k r t v : name_of (nth i ms []) p = Some n -> denotes ms i n = None ->
    obs ms i (k r) t v -> obs ms i (Call p a k) (Unknown n a r :: t) v.

(** Calling what file [i] knows as [n]; calling the linked program's [n]. *)
Definition calls (ms : list file) (i : nat) (n : string) (a : Z) (t : list event) (v : option Z) : Prop :=
  exists p, name_of (nth i ms []) p = Some n /\ obs ms i (Call p a Ret) t v.
Definition enters (ms : list file) (n : string) (a : Z) (t : list event) (v : option Z) : Prop :=
  exists j b, global ms n = Some (j, b) /\ obs ms j (b a) t v.

(** Files as compilers write them: names and references are unique, code refers to
    functions of the file, and only definitions are weak or static. *)
Inductive refers : code -> nat -> Prop :=
| r_here p a k : refers (Call p a k) p
| r_call p a k r q : refers (k r) q -> refers (Call p a k) q
| r_do x a k r q : refers (k r) q -> refers (Do x a k) q.
Record well_formed (m : file) : Prop := {
  wf_ids : NoDup (map fst m);
  wf_names : NoDup (map (fun q => fname (snd q)) m);
  wf_refs : forall p f b a q, In (p, f) m -> fbody f = Some b -> refers (b a) q -> In q (map fst m);
  wf_decl : forall p f, In (p, f) m -> fbody f = None -> flink f = Strong }.
