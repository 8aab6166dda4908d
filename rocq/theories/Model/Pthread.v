(** share/smack/lib/pthread.c: threads that call the functions of this file, step by
    step; every access of shared data outside corral_atomic_begin/end is a step of its
    own.  Other code of the threads may call these functions at any time with any
    arguments and write the variables that hold thread handles; it does not touch the
    mutexes and the variables of the library.  Corral gives every thread an identifier
    of its own, greater than 0 (corral_getThreadID, corral_getChildThreadID: trusted);
    all interleavings are possible. *)
From Coq Require Import ZArith List Bool.
From Verif.Spec Require Import Threads.
Import ListNotations.
Open Scope Z_scope.

(** include/bits/pthreadtypes.h:8-19, 28-38; include/pthread.h:11-13 *)
Definition PTHREAD_MUTEX_NORMAL := 0.
Definition PTHREAD_MUTEX_ERRORCHECK := 2.
Definition UNLOCKED := 0.
Definition UNINITIALIZED := 0.
Definition INITIALIZED := 1.
Record mutex := Mutex { lock : Z; init : Z; type : Z }.

(** $pthreadStatus – :24-35 *)
Inductive status := Uninitialized | Waiting | Running | Stopped.

(** Where a thread is. *)
Inductive pc :=
| User                                        (* outside the library *)
| LType (m : Z) | LN1 (m : Z) | LN2 (m : Z) | LE1 (m : Z) | LE2 (m : Z) | LAtomic (m : Z)      (* pthread_mutex_lock *)
| UType (m : Z) (re : bool) | UN1 (m : Z) (re : bool) | UN2 (m : Z) (re : bool) | UE1 (m : Z) (re : bool) | UE2 (m : Z) (re : bool) | UAtomic (m : Z) (re : bool)
                                              (* pthread_mutex_unlock; [re]: in pthread_cond_wait *)
| CWait (m : Z)                               (* pthread_cond_wait *)
| I1 (m ty : Z) | I2 (m ty : Z) | I3 (m ty : Z)   (* pthread_mutex_init *)
| D1 (m : Z) | D2 (m : Z) | DAtomic (m : Z)   (* pthread_mutex_destroy *)
| CrSpawned (h c : Z)                         (* pthread_create, after the async call *)
| JWait (c : Z) (ret : bool) | JRead (c : Z)  (* pthread_join *)
| X1 (v : Z) | X2 (v : Z)                     (* pthread_exit *)
| W0 (h f a : Z) | W1 (f a : Z) | W2 (f a : Z) | W3 (f a : Z) | W4  (* __call_wrapper *)
| Done.

Record state := State {
  mx : Z -> mutex;            (* the mutexes *)
  stat : Z -> status;         (* $pthreadStatus *)
  pret : Z -> Z;              (* __SMACK_PthreadReturn *)
  vars : Z -> Z;              (* variables of type pthread_t *)
  thr : Z -> option pc;       (* the threads that exist *)
  err : bool;                 (* an assertion failed *)
  log : list event
}.

Definition upd {A} (f : Z -> A) (x : Z) (v : A) : Z -> A := fun y => if y =? x then v else f y.
Definition goto (s : state) (t : Z) (p : pc) : state := State (mx s) (stat s) (pret s) (vars s) (upd (thr s) t (Some p)) (err s) (log s).
Definition say (e : event) (s : state) : state := State (mx s) (stat s) (pret s) (vars s) (thr s) (err s) (e :: log s).
Definition fail (s : state) : state := State (mx s) (stat s) (pret s) (vars s) (thr s) true (log s).
Definition set_mutex (s : state) (m : Z) (x : mutex) : state := State (upd (mx s) m x) (stat s) (pret s) (vars s) (thr s) (err s) (log s).
Definition set_status (s : state) (t : Z) (x : status) : state := State (mx s) (upd (stat s) t x) (pret s) (vars s) (thr s) (err s) (log s).
Definition set_pret (s : state) (t v : Z) : state := State (mx s) (stat s) (upd (pret s) t v) (vars s) (thr s) (err s) (log s).
Definition set_var (s : state) (h v : Z) : state := State (mx s) (stat s) (pret s) (upd (vars s) h v) (thr s) (err s) (log s).

Section Steps.
Variable checked : bool.     (* assertions: no DISABLE_PTHREAD_ASSERTS, and assertions are checked *)
Variable max_threads : Z.    (* SMACK_MAX_THREADS *)

(** An assertion of the library. *)
Definition assert_ (b : bool) (s : state) (ok : state) : state := if checked && negb b then fail s else ok.

(** After the release: return, or lock again in pthread_cond_wait. *)
Definition released (re : bool) (m : Z) : pc := if re then LType m else User.

(** Steps inside the library, of thread [t] at [p] in [s]; [None]: it waits (a blocked
    assume). *)
Definition lib_step (s : state) (t : Z) (p : pc) : option state :=
  match p with
  (* pthread_mutex_lock – :121-147 *)
  | LType m =>
      if t <? max_threads then
        if type (mx s m) =? PTHREAD_MUTEX_NORMAL then Some (goto s t (if checked then LN1 m else LAtomic m))
        else if type (mx s m) =? PTHREAD_MUTEX_ERRORCHECK then Some (goto s t (LE1 m))
        else Some (assert_ false s (goto s t (LAtomic m)))
      else None
  | LN1 m => Some (assert_ (init (mx s m) =? INITIALIZED) s (goto s t (LN2 m)))
  | LN2 m => Some (assert_ (negb (lock (mx s m) =? t)) s (goto s t (LAtomic m)))
  | LE1 m => if negb (init (mx s m) =? INITIALIZED) then Some (say (Refused t m 22) (goto s t User)) else Some (goto s t (LE2 m))
  | LE2 m => if lock (mx s m) =? t then Some (say (Refused t m 35) (goto s t User)) else Some (goto s t (LAtomic m))
  | LAtomic m =>
      if lock (mx s m) =? UNLOCKED
      then Some (say (Locked t m) (goto (set_mutex s m (Mutex t (init (mx s m)) (type (mx s m)))) t User))
      else None
  (* pthread_mutex_unlock – :149-172 *)
  | UType m re =>
      if t <? max_threads then
        if type (mx s m) =? PTHREAD_MUTEX_NORMAL then Some (goto s t (if checked then UN1 m re else UAtomic m re))
        else if type (mx s m) =? PTHREAD_MUTEX_ERRORCHECK then Some (goto s t (UE1 m re))
        else Some (assert_ false s (goto s t (UAtomic m re)))
      else None
  | UN1 m re => Some (assert_ (init (mx s m) =? INITIALIZED) s (goto s t (UN2 m re)))
  | UN2 m re => Some (assert_ (lock (mx s m) =? t) s (goto s t (UAtomic m re)))
  | UE1 m re => if negb (init (mx s m) =? INITIALIZED) then Some (say (Refused t m 22) (goto s t (released re m))) else Some (goto s t (UE2 m re))
  | UE2 m re => if negb (lock (mx s m) =? t) then Some (say (Refused t m 1) (goto s t (released re m))) else Some (goto s t (UAtomic m re))
  | UAtomic m re => Some (say (Unlocked t m) (goto (set_mutex s m (Mutex UNLOCKED (init (mx s m)) (type (mx s m)))) t (released re m)))
  (* pthread_cond_wait – :201-221 (whether the condition variable is initialized is
     decided by the caller of this step) *)
  | CWait m => if t <? max_threads then Some (assert_ (t =? lock (mx s m)) s (goto s t (UType m true))) else None
  (* pthread_mutex_init – :103-119 *)
  | I1 m ty => Some (say (Inited t m) (goto (set_mutex s m (Mutex UNLOCKED (init (mx s m)) (type (mx s m)))) t (I2 m ty)))
  | I2 m ty => Some (goto (set_mutex s m (Mutex (lock (mx s m)) INITIALIZED (type (mx s m)))) t (I3 m ty))
  | I3 m ty => Some (goto (set_mutex s m (Mutex (lock (mx s m)) (init (mx s m)) ty)) t User)
  (* pthread_mutex_destroy – :174-184 *)
  | D1 m => Some (assert_ (init (mx s m) =? INITIALIZED) s (goto s t (D2 m)))
  | D2 m => Some (assert_ (lock (mx s m) =? UNLOCKED) s (goto s t (DAtomic m)))
  | DAtomic m => Some (goto (set_mutex s m (Mutex (lock (mx s m)) UNINITIALIZED (type (mx s m)))) t User)
  (* pthread_create – :281-286 *)
  | CrSpawned h c => if c <? max_threads then Some (goto (set_var s h c) t User) else None
  (* pthread_join – :63-74 *)
  | JWait c ret =>
      match stat s c with
      | Stopped => if ret then Some (goto s t (JRead c)) else Some (say (Joined t c None) (goto s t User))
      | _ => None
      end
  | JRead c => Some (say (Joined t c (Some (pret s c))) (goto s t User))
  (* pthread_exit – :83-95 *)
  | X1 v => if t <? max_threads then Some (assert_ (match stat s t with Running => true | _ => false end) s (goto s t (X2 v))) else None
  | X2 v => Some (say (Exited t v) (goto (set_pret s t v) t User))
  (* __call_wrapper – :256-268 *)
  | W0 h f a => if (t <? max_threads) && (t =? vars s h) then Some (goto s t (W1 f a)) else None
  | W1 f a => Some (goto (set_status s t Waiting) t (W2 f a))
  | W2 f a => Some (goto (set_status s t Running) t (W3 f a))
  | W3 f a => Some (say (Started t f a) (goto s t User))
  | W4 => Some (goto (set_status s t Stopped) t Done)
  | User | Done => None
  end.

(** The calls a thread may make. *)
Inductive call : state -> Z -> state -> Prop :=
| c_lock : forall s t m, call s t (goto s t (LType m))
| c_unlock : forall s t m, call s t (goto s t (UType m false))
| c_wait : forall s t m, call s t (goto s t (CWait m))
| c_wait_fail : forall s t, checked = true -> call s t (fail s)        (* assert(__cond->init == INITIALIZED) – :204 *)
| c_init : forall s t m ty, call s t (goto s t (I1 m ty))
| c_destroy : forall s t m, call s t (goto s t (D1 m))
| c_create : forall s t h f a c, 0 < c -> thr s c = None ->            (* :271-280 *)
    call s t (say (Created t c f a) (goto (goto s c (W0 h f a)) t (CrSpawned h c)))
| c_join : forall s t c ret, t <> c -> call s t (goto s t (JWait c ret))
| c_join_self : forall s t, call s t (say (Deadlk t) s)                (* :60-61 *)
| c_exit : forall s t v, call s t (goto s t (X1 v))
| c_var : forall s t h v, call s t (set_var s h v)                     (* the thread's own code *)
| c_finish : forall s t v, (exists f a, In (Started t f a) (log s)) -> (* the start routine returns *)
    call s t (say (Finished t v) (goto s t W4)).

(** One step of some thread.  An assertion that failed ends the run. *)
Inductive step : state -> state -> Prop :=
| s_lib : forall s t p s', err s = false -> thr s t = Some p -> lib_step s t p = Some s' -> step s s'
| s_call : forall s t s', err s = false -> thr s t = Some User -> call s t s' -> step s s'.

(** The main thread is there at the beginning; the mutexes are [m0], other contents of
    memory are arbitrary, the library's variables are initialized – :8, :32-34. *)
Inductive reachable (m0 : Z -> mutex) : state -> Prop :=
| r_start : forall v t0, 0 < t0 -> reachable m0 (State m0 (fun _ => Uninitialized) (fun _ => 0) v (upd (fun _ => None) t0 (Some User)) false [])
| r_step : forall s s', reachable m0 s -> step s s' -> reachable m0 s'.
End Steps.
