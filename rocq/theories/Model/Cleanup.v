(** share/smack/top.py, utils.py: temporary files and the ends of a run. *)
From Coq Require Import ZArith List String Bool.
From Verif.Spec Require Import Cleanup.
Import ListNotations.
Open Scope list_scope.

(** How a command ended, and whether try_command raises an exception or exits with a text (exit
    code 1 for both) – utils.py:43-98.  SIGSEGV is 11. *)
Definition raises (symbooglix : bool) (e : ending) : bool :=
  match e with
  | NotStarted => true
  | TimedOut => false
  | Exited rc => if (rc =? -11)%Z then true else negb (rc =? 0)%Z && negb symbooglix
  end.
(** What main does up to its end – top.py:989-1006: temporary files (and directories) are made, and
    commands run, which write files.  Simplified: all else that may raise an exception in main is
    a command that could not be started. *)
Inductive act := Temp (n : string) | Command (writes : list string) (e : ending).
(** In single steps.  temporary_file, temporary_directory – utils.py:14-26: the file is made, then its name
    is noted, unless in debug mode.  Not modelled: the logs try_command writes in debug mode. *)
Inductive action := Create (n : string) | Note (n : string) | Write (n : string) | Raise.
Definition steps_of (symbooglix debug : bool) (a : act) : list action :=
  match a with
  | Temp n => Create n :: (if debug then [] else [Note n])
  | Command ws e => map Write ws ++ (if raises symbooglix e then [Raise] else [])
  end.
(** Where the run is: in main, with the exit code of its regular end; in the finally clause
    (remove_temp_files – utils.py:29-34, top.py:1011-1012) with the exit code it will have; in the handler of
    SIGTERM (top.py:980-985), which interrupts main or the finally clause; over. *)
Inductive phase := Main (l : list action) (code : Z) | Finally (todo : list string) (code : Z) | Handler (todo : list string) (in_main : bool) | Over (code : Z).
(** The files in the directory, temporary_files (utils.py:11), and, for the statements only, all the files that were made as temporary. *)
Record state := State { here : list string; noted : list string; made : list string; at_ : phase }.
(** os.unlink or shutil.rmtree, if it is there – utils.py:31-34. *)
Definition gone (f : string) (l : list string) : list string := filter (fun x => negb (String.eqb x f)) l.

(** One step – top.py:980-1012.  sys.exit(0) in the handler goes up to the finally clause, or, if that was
    interrupted, ends the run.  KeyboardInterrupt is caught in main – top.py:1008-1009: sys.exit
    with a text is exit code 1; in the finally clause it ends the run (130).  While the handler
    interrupts main, the command is still running; try_command kills it on the way out – utils.py:100-104. *)
Definition step (s : state) (e : option event) : state :=
  match at_ s with
  | Main l code =>
      match e with
      | Some Term => State (here s) (noted s) (made s) (Handler (noted s) true)
      | Some Interrupt => State (here s) (noted s) (made s) (Finally (noted s) 1)
      | Some (Child _) => s
      | None =>
          match l with
          | [] => State (here s) (noted s) (made s) (Finally (noted s) code)
          | Create n :: l' => State (n :: here s) (noted s) (made s ++ [n]) (Main l' code)
          | Note n :: l' => State (here s) (noted s ++ [n]) (made s) (Main l' code)
          | Write n :: l' => State (n :: here s) (noted s) (made s) (Main l' code)
          | Raise :: _ => State (here s) (noted s) (made s) (Finally (noted s) 1)
          end
      end
  | Finally todo code =>
      match e with
      | Some Term => State (here s) (noted s) (made s) (Handler (noted s) false)
      | Some Interrupt => State (here s) (noted s) (made s) (Over 130)
      | Some (Child _) => s
      | None =>
          match todo with
          | [] => State (here s) (noted s) (made s) (Over code)
          | f :: l => State (gone f (here s)) (noted s) (made s) (Finally l code)
          end
      end
  | Handler todo in_main =>
      match e with
      | Some Term => State (here s) (noted s) (made s) (Handler (noted s) in_main)
      | Some Interrupt => State (here s) (noted s) (made s) (if in_main then Finally (noted s) 1 else Over 130)
      | Some (Child f) => if in_main then State (f :: here s) (noted s) (made s) (at_ s) else s
      | None =>
          match todo with
          | [] => State (here s) (noted s) (made s) (if in_main then Finally (noted s) 0 else Over 0)
          | f :: l => State (gone f (here s)) (noted s) (made s) (Handler l in_main)
          end
      end
  | Over _ => s
  end.
(** A run, in a directory with these files – top.py:988-1012. *)
Definition run (symbooglix debug : bool) (acts : list act) (code : Z) (files : list string) (h : history) : state :=
  fold_left step h (State files [] [] (Main (flat_map (steps_of symbooglix debug) acts) code)).
(** fortran_compile_to_bc – frontend.py:165-196: flang writes the temporary [ll], sed edits it, llvm-as writes
    [bc], whose name is that of [ll] with another extension, and rm removes [ll] (left out here). *)
Definition fortran_compile_to_bc (ll bc : string) : list act :=
  [Temp ll; Command [ll] (Exited 0); Command [ll] (Exited 0); Command [bc] (Exited 0); Command [] (Exited 0)].
