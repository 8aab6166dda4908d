(** Specification: violation witnesses for SV-COMP.  A witness is a path: an entry node,
    one edge for each input the program read, and an edge to the violation.  Nothing here
    refers to SMACK's code. *)
From Coq Require Import ZArith List String Ascii Bool.
From Verif.Spec Require Import Regex TraceValues.
Import ListNotations.
Open Scope string_scope.
Open Scope list_scope.

(** ** Traces *)
(** What a step says: an input function returned a value; a function is called or
    returns; an assertion fails; something else. *)
Inductive note := Reads (f v : string) | Calls (f : string) | Returns (f : string) | Fails | Says (s : string).
Record step := Step { s_file : string; s_line : string; said : note }.
Definition text (n : note) : string :=
  match n with
  | Reads f v => "smack:ext:" ++ f ++ " = " ++ v
  | Calls f => "CALL " ++ f
  | Returns f => "RETURN from " ++ f
  | Fails => "ASSERTION FAILS"
  | Says s => s
  end.

(** Texts that cannot be taken for something else *)
Definition quiet (s : string) : Prop := ~ occurs "CALL" s /\ ~ occurs "RETURN from" s /\ ~ occurs "ASSERTION FAILS" s.
Definition one_line (s : string) : Prop := ~ occurs (String newline "") s.
Definition simple (s : string) : Prop := ~ occurs "=" s /\ one_line s /\ ~ occurs "bv" s /\ trimmed s.
Definition note_ok (n : note) : Prop :=
  match n with
  | Reads f v => (exists x, f = ("__VERIFIER_nondet" ++ x)%string) /\ simple f /\ simple v /\ quiet (text n)
  | Calls f => trimmed f /\ ~ occurs "RETURN from" (text n) /\ ~ occurs "ASSERTION FAILS" (text n)
  | Returns f => trimmed f /\ ~ occurs "CALL" (text n) /\ ~ occurs "ASSERTION FAILS" (text n)
  | Fails => True
  | Says s => quiet s /\ forall x, s <> ("smack:ext:__VERIFIER_nondet" ++ x)%string
  end.

(** SMACK's library is not part of the program. *)
Definition library (file : string) : Prop :=
  exists a b c, file = (a ++ "/smack/lib/" ++ b ++ "." ++ String c "")%string /\ b <> "" /\ (c = "c" \/ c = "h" \/ c = "|")%char.

(** ** Calls *)
(** Functions of the program, as opposed to dispatchers and initialisers *)
Definition counted (f : string) : Prop :=
  (forall x, f <> ("devirtbounce" ++ x)%string) /\ f <> "$initialize" /\ f <> "__SMACK_static_init" /\ f <> "__SMACK_init_func_memory_model".
Definition enters_or_leaves (n : note) : Prop := match n with Calls f | Returns f => counted f | _ => False end.
Inductive balanced : list note -> Prop :=
| bal_nil : balanced []
| bal_other : forall n l, ~ enters_or_leaves n -> balanced l -> balanced (n :: l)
| bal_call : forall f a b, counted f -> balanced a -> balanced b -> balanced (Calls f :: a ++ Returns f :: b).
(** After these notes, [f] is the function that is executing. *)
Definition executing (l : list note) (f : string) : Prop :=
  (balanced l /\ f = "main") \/ exists a b, l = a ++ Calls f :: b /\ counted f /\ balanced b.
(** Every return is from the function that is executing. *)
Definition calls_match (l : list note) : Prop :=
  forall a f b, l = a ++ Returns f :: b -> counted f -> exists a1 b1, a = a1 ++ Calls f :: b1 /\ balanced b1.

(** The name of a function of the source: LLVM appends a dot and a number to make names
    unique. *)
Definition source_name (f g : string) : Prop := ~ occurs "." g /\ (f = g \/ exists x, f = (g ++ "." ++ x)%string).

(** ** Witnesses *)
Definition data := list (string * string).
(** [picks P l k]: [k] are those elements of [l] that satisfy [P], in order. *)
Inductive picks {A} (P : A -> Prop) : list A -> list A -> Prop :=
| pick_nil : picks P [] []
| pick_yes : forall x l k, P x -> picks P l k -> picks P (x :: l) (x :: k)
| pick_no : forall x l k, ~ P x -> picks P l k -> picks P (x :: l) k.
Definition own (s : step) : Prop := ~ library (s_file s).
Definition is_input (s : step) : Prop := own s /\ exists f v, said s = Reads f v.
(** What the edge for an input says: the line, the value, the input function, and the
    function that read it. *)
Definition input_label (before : list step) (s : step) (d : data) : Prop :=
  exists f v g h past, said s = Reads f v /\ picks own before past /\ executing (map said past) g /\ source_name g h /\
    d = [ ("startline", s_line s); ("assumption", "\result == " ++ v ++ ";"); ("assumption.resultfunction", f); ("assumption.scope", h) ]%string.
Inductive labels : list step -> list step -> list data -> Prop :=
| lab_nil : forall before, labels before [] []
| lab_input : forall before s l d ds, is_input s -> input_label before s d -> labels (before ++ [s]) l ds -> labels before (s :: l) (d :: ds)
| lab_other : forall before s l ds, ~ is_input s -> labels (before ++ [s]) l ds -> labels before (s :: l) ds.

(** A path with these edge labels; whether its last node is a violation *)
Fixpoint chain (ids : list string) (l : list data) : list (string * string * data) :=
  match ids, l with
  | a :: ((b :: _) as ids'), d :: l' => (a, b, d) :: chain ids' l'
  | _, _ => []
  end.
Record witness := Witness { w_nodes : list (string * data); w_edges : list (string * string * data) }.
Definition is_path (l : list data) (violation : bool) (w : witness) : Prop :=
  exists ids, map fst (w_nodes w) = ids /\ NoDup ids /\ List.length ids = S (List.length l) /\ w_edges w = chain ids l /\
    map snd (w_nodes w) = [("entry", "true")] ::
      (if violation then repeat [] (List.length l - 1) ++ [[("violation", "true")]] else repeat [] (List.length l)).

(** ** Values *)
(** Texts of numbers have no capitals. *)
Definition no_capitals (s : string) : Prop := s <> "" /\ all (fun c => negb (andb (Nat.leb 65 (nat_of_ascii c)) (Nat.leb (nat_of_ascii c) 90))) s.
(** What C says about [\result == kUL] when an input of a signed type returned [x] and
    unsigned long has [m] bits, at least as many as the type: [x] is converted to unsigned
    long. *)
Definition equals_in_c (m x k : Z) : Prop := (x mod 2 ^ m = k)%Z.
