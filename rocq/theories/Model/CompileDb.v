(** share/smack/frontend.py: json_compilation_database_frontend and boogie_frontend. *)
From Coq Require Import List String Ascii Bool Arith.
From Verif.Spec Require Import CompileDb.
Import ListNotations.
Open Scope string_scope.
Open Scope list_scope.

(** \b after a word character.  Simplified: ASCII only. *)
Definition boundary (s : string) : bool := match s with EmptyString => true | String c _ => negb (word_char c) end.
Definition digit19 (c : ascii) : bool := ((49 <=? nat_of_ascii c) && (nat_of_ascii c <=? 57))%nat.
(** optimization_flags.sub("-O0", …), with -O[1-9]\b – frontend.py:284, 306 *)
Fixpoint sub_opt (s : string) : string :=
  match s with
  | EmptyString => EmptyString
  | String a s1 =>
      match s1 with
      | String b (String d rest) =>
          if (Ascii.eqb a "-" && Ascii.eqb b "O" && digit19 d && boundary rest)%bool then String a (String b (String "0" (sub_opt rest)))
          else String a (sub_opt s1)
      | _ => String a (sub_opt s1)
      end
  end.
(** The group: up to the next blank. *)
Fixpoint token (s : string) : string :=
  match s with EmptyString => EmptyString | String c s' => if Ascii.eqb c " " then EmptyString else String c (token s') end.
(** What \1 is: up to the last .o\b. *)
Fixpoint last_o (t : string) : option string :=
  match t with
  | EmptyString => None
  | String c t' =>
      match last_o t' with
      | Some u => Some (String c u)
      | None => match t' with String o v => if (Ascii.eqb c "." && Ascii.eqb o "o" && boundary v)%bool then Some EmptyString else None | _ => None end
      end
  end.
Definition match_out (s : string) : option string :=
  match s with
  | String a (String b (String c rest)) => if (Ascii.eqb a "-" && Ascii.eqb b "o" && Ascii.eqb c " ")%bool then last_o (token rest) else None
  | _ => None
  end.
(** output_flags.sub(r"-o \1.bc", …), with a group of non-blanks between -o and .o – :283, 305; [n] characters of a match are still
    to be left out. *)
Fixpoint sub_out (n : nat) (s : string) : string :=
  match s with
  | EmptyString => EmptyString
  | String c s' =>
      match n with
      | S n' => sub_out n' s'
      | O => match match_out s with
             | Some u => ("-o " ++ u ++ ".bc" ++ sub_out (String.length u + 4) s')%string
             | None => String c (sub_out 0 s')
             end
      end
  end.
(** The command that is run – :304-308.  Not modelled: that it is split at blanks. *)
Definition rewrite_command (c : string) : string := (sub_opt (sub_out 0 c) ++ " -emit-llvm")%string.
(** re.sub('[.]o$', '.bc', f) – :290.  Simplified: no line breaks in names. *)
Fixpoint bc_name (f : string) : string :=
  match f with
  | EmptyString => EmptyString
  | String c f' => if String.eqb f ".o" then ".bc" else String c (bc_name f')
  end.

(** What is run – :286-308: commands in their directories; llvm-link of these files into bc_file, which is
    then linked with the models into linked_bc_file. *)
Inductive action := Run (command directory : string) | LinkBc (files : list string).
Definition action_of (e : entry) : action :=
  match e with Compile c d => Run (rewrite_command c) d | Link os => LinkBc (map bc_name os) end.
(** None: more than one input file is an error – :280-281. *)
Definition json_frontend (inputs : list string) (db : list entry) : option (list action) :=
  if (1 <? List.length inputs)%nat then None else Some (map action_of db).
(** The files in linked_bc_file after this, which llvm2bpl translates; each linking overwrites it. *)
Definition linked (l : list action) : option (list string) :=
  fold_left (fun acc a => match a with LinkBc fs => Some fs | Run _ _ => acc end) l None.

(** boogie_frontend – :267-274: what the Boogie file holds after it; it is opened with 'a+'. *)
Definition boogie_frontend (inputs : list string) (input old : string) : option string :=
  if (1 <? List.length inputs)%nat then None else Some (old ++ input)%string.
