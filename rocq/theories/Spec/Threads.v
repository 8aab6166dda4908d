(** What can be seen of a run of a pthread program: the events, newest first. *)
From Coq Require Import ZArith List Bool.
Import ListNotations.
Open Scope Z_scope.

Inductive event :=
| Locked (t m : Z)                 (* pthread_mutex_lock of m has returned 0 in thread t *)
| Unlocked (t m : Z)               (* the mutex was released by pthread_mutex_unlock *)
| Inited (t m : Z)                 (* pthread_mutex_init *)
| Refused (t m code : Z)           (* lock or unlock returned an error code *)
| Created (t c f a : Z)            (* t made the thread c for the routine f and argument a *)
| Started (c f a : Z)              (* in thread c routine f was entered with a *)
| Finished (c v : Z)               (* the start routine of c returned v *)
| Exited (c v : Z)                 (* c called pthread_exit with v *)
| Joined (t c : Z) (v : option Z)  (* pthread_join of c returned 0 in t, with the result v if asked for *)
| Deadlk (t : Z).                  (* pthread_join returned EDEADLK *)

(** A thread is between a successful lock and its unlock. *)
Fixpoint holds (log : list event) (t m : Z) : bool :=
  match log with
  | [] => false
  | Locked t' m' :: log' => ((t' =? t) && (m' =? m)) || holds log' t m
  | Unlocked t' m' :: log' => negb ((t' =? t) && (m' =? m)) && holds log' t m
  | _ :: log' => holds log' t m
  end.
Definition mutual_exclusion (log : list event) : Prop := forall t t' m, holds log t m = true -> holds log t' m = true -> t = t'.
(** At every successful lock nobody held the mutex, not even the same thread. *)
Definition free_when_locked (log : list event) : Prop := forall l2 t m l1, log = l2 ++ Locked t m :: l1 -> forall t', holds l1 t' m = false.

(** What programs have to respect: no initialization of a mutex in use; and release by
    the owner only. *)
Definition no_reinit (log : list event) : Prop := forall l2 t m l1, log = l2 ++ Inited t m :: l1 -> forall t', holds l1 t' m = false.
Definition owner_releases (log : list event) : Prop := forall l2 t m l1, log = l2 ++ Unlocked t m :: l1 -> holds l1 t m = true.

(** pthread_join comes after the end of the routine. *)
Definition join_waits (log : list event) : Prop := forall l2 t c v l1, log = l2 ++ Joined t c v :: l1 -> exists r, In (Finished c r) l1.
(** Every thread runs at most once, with the routine and argument given, and ends
    after it began. *)
Definition starts_created (log : list event) : Prop := forall l2 c f a l1, log = l2 ++ Started c f a :: l1 ->
  (exists t, In (Created t c f a) l1) /\ forall f' a', ~ In (Started c f' a') l1.
Definition finish_started (log : list event) : Prop := forall l2 c v l1, log = l2 ++ Finished c v :: l1 ->
  (exists f a, In (Started c f a) l1) /\ forall v', ~ In (Finished c v') l1.
(** The value of the last pthread_exit of a thread. *)
Fixpoint exit_value (log : list event) (c : Z) : option Z :=
  match log with
  | [] => None
  | Exited c' v :: log' => if c' =? c then Some v else exit_value log' c
  | _ :: log' => exit_value log' c
  end.
