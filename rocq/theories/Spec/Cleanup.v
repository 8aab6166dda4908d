(** Signals, and what is seen of a run that is over. *)
From Coq Require Import ZArith List String.
Import ListNotations.

(** What may come while smack runs: SIGTERM, SIGINT, or that the command smack has started writes
    a file. *)
Inductive event := Term | Interrupt | Child (file : string).
(** At each moment, what comes, if anything. *)
Definition history := list (option event).
Definition calm (h : history) : Prop := forall e, In (Some e) h -> exists f, e = Child f.
Definition no_interrupt (h : history) : Prop := ~ In (Some Interrupt) h.
(** How a command that was run ended; an exit code below 0 is a signal. *)
Inductive ending := NotStarted | TimedOut | Exited (rc : Z).
(** A command has failed if it could not be started, if it crashed, or if it gave an exit code other than 0
    (which some verifiers do without having failed). *)
Inductive failed (any_code : bool) : ending -> Prop :=
| failed_start : failed any_code NotStarted
| failed_crash : failed any_code (Exited (-11))
| failed_code rc : any_code = false -> rc <> 0%Z -> failed any_code (Exited rc).
