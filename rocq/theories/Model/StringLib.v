(** share/smack/lib/string.c, function by function.  The loops are bounded by fuel
    ([Out]: more steps are needed); [UB]: an access of a byte that is not allocated;
    [Blocked]: a failing __VERIFIER_assume. *)
From Coq Require Import ZArith List Bool.
From Verif.Spec Require Import CString.
Import ListNotations.
Open Scope Z_scope.

Inductive res (A : Type) := Ret (a : A) | UB | Blocked | Out.
Arguments Ret {A} a.
Arguments UB {A}.
Arguments Blocked {A}.
Arguments Out {A}.
Definition bind {A B} (x : res A) (f : A -> res B) : res B :=
  match x with Ret a => f a | UB => UB | Blocked => Blocked | Out => Out end.
Notation "x <- e ;; f" := (bind e (fun x => f)) (at level 61, e at next level, right associativity).

Definition ld (m : mem) (p : Z) : res Z := match m p with Some v => Ret v | None => UB end.
Definition upd (m : mem) (p v : Z) : mem := fun a => if a =? p then Some v else m a.
Definition st (m : mem) (p v : Z) : res mem := match m p with Some _ => Ret (upd m p v) | None => UB end.
(** char is signed (x86); unsigned char is the byte itself. *)
Definition schar (b : Z) : Z := if b <? 128 then b else b - 256.
(** size_t: 64 bits *)
Definition size_t (z : Z) : Z := z mod 2 ^ 64.

(** memcmp – :8-27; [nd]: the value of __VERIFIER_nondet_int *)
Fixpoint memcmp (k : nat) (m : mem) (nd s1 s2 n : Z) : res Z :=
  match k with
  | O => Out
  | S k =>
      if n =? 0 then Ret 0
      else
        a <- ld m s1 ;; b <- ld m s2 ;;
        if negb (a =? b) then
          if a <? b then (if nd <? 0 then Ret nd else Blocked) else (if 0 <? nd then Ret nd else Blocked)
        else memcmp k m nd (s1 + 1) (s2 + 1) (size_t (n - 1))
  end.

(** while (( *dest++ = *src++ )); – :31, :80 *)
Fixpoint copy_loop (k : nat) (m : mem) (dest src : Z) : res mem :=
  match k with
  | O => Out
  | S k => c <- ld m src ;; m' <- st m dest c ;; if c =? 0 then Ret m' else copy_loop k m' (dest + 1) (src + 1)
  end.
(** strcpy – :29-34 *)
Definition strcpy (k : nat) (m : mem) (dest src : Z) : res (Z * mem) :=
  let save := dest in m' <- copy_loop k m dest src ;; Ret (save, m').

(** strncpy – :36-45 *)
Fixpoint strncpy_1 (k : nat) (m : mem) (dest src n i : Z) : res (Z * mem) :=
  match k with
  | O => Out
  | S k =>
      if i <? n then
        c <- ld m (src + i) ;;
        if negb (c =? 0) then m' <- st m (dest + i) c ;; strncpy_1 k m' dest src n (size_t (i + 1)) else Ret (i, m)
      else Ret (i, m)
  end.
Fixpoint strncpy_2 (k : nat) (m : mem) (dest n i : Z) : res mem :=
  match k with
  | O => Out
  | S k => if i <? n then m' <- st m (dest + i) 0 ;; strncpy_2 k m' dest n (size_t (i + 1)) else Ret m
  end.
Definition strncpy (k : nat) (m : mem) (dest src n : Z) : res (Z * mem) :=
  im <- strncpy_1 k m dest src n 0 ;; m' <- strncpy_2 k (snd im) dest n (fst im) ;; Ret (dest, m').

(** strlen – :47-52 *)
Fixpoint strlen_loop (k : nat) (m : mem) (str count : Z) : res Z :=
  match k with
  | O => Out
  | S k => c <- ld m (str + count) ;; if c =? 0 then Ret count else strlen_loop k m str (size_t (count + 1))
  end.
Definition strlen (k : nat) (m : mem) (str : Z) : res Z := strlen_loop k m str 0.

(** strcmp – :56-62 *)
Fixpoint strcmp_loop (k : nat) (m : mem) (s1 s2 n : Z) : res Z :=
  match k with
  | O => Out
  | S k =>
      a <- ld m (s1 + n) ;; b <- ld m (s2 + n) ;;
      if schar a =? schar b then (if schar a =? 0 then Ret 0 else strcmp_loop k m s1 s2 (size_t (n + 1)))
      else Ret (schar a - schar b)
  end.
Definition strcmp (k : nat) (m : mem) (s1 s2 : Z) : res Z := strcmp_loop k m s1 s2 0.

(** strncmp – :64-73 *)
Fixpoint strncmp (k : nat) (m : mem) (s1 s2 n : Z) : res Z :=
  match k with
  | O => Out
  | S k =>
      if n =? 0 then Ret 0
      else
        a <- ld m s1 ;; b <- ld m s2 ;;
        if negb (schar a =? schar b) then Ret (schar a - schar b) else strncmp k m (s1 + 1) (s2 + 1) (size_t (n - 1))
  end.

(** while ( *dest ) dest++; – :79-80, :90-91 *)
Fixpoint end_loop (k : nat) (m : mem) (dest : Z) : res Z :=
  match k with
  | O => Out
  | S k => c <- ld m dest ;; if c =? 0 then Ret dest else end_loop k m (dest + 1)
  end.
(** strcat – :77-86 *)
Definition strcat (k : nat) (m : mem) (dest src : Z) : res (Z * mem) :=
  let retDest := dest in d <- end_loop k m dest ;; m' <- copy_loop k m d src ;; Ret (retDest, m').

(** strncat – :88-98 *)
Fixpoint strncat_loop (k : nat) (m : mem) (dest src n : Z) : res (Z * mem) :=
  match k with
  | O => Out
  | S k =>
      if n =? 0 then Ret (dest, m)
      else c <- ld m src ;; m' <- st m dest c ;; strncat_loop k m' (dest + 1) (src + 1) (size_t (n - 1))
  end.
Definition strncat (k : nat) (m : mem) (dest src n : Z) : res (Z * mem) :=
  let retDest := dest in
  d <- end_loop k m dest ;; dm <- strncat_loop k m d src n ;; m' <- st (snd dm) (fst dm) 0 ;; Ret (retDest, m').

(** strchr – :102-111; c is an int *)
Fixpoint strchr (k : nat) (m : mem) (src c : Z) : res Z :=
  match k with
  | O => Out
  | S k => x <- ld m src ;; if x =? 0 then Ret 0 else if schar x =? c then Ret src else strchr k m (src + 1) c
  end.

(** strrchr – :113-123 *)
Fixpoint strrchr_loop (k : nat) (m : mem) (src c result : Z) : res Z :=
  match k with
  | O => Out
  | S k => x <- ld m src ;; if x =? 0 then Ret result else strrchr_loop k m (src + 1) c (if schar x =? c then src else result)
  end.
Definition strrchr (k : nat) (m : mem) (src c : Z) : res Z := strrchr_loop k m src c 0.

(** for (p = s2; *p && *p != *s1; p++); – :129, :141 *)
Fixpoint scan (k : nat) (m : mem) (x p : Z) : res Z :=
  match k with
  | O => Out
  | S k => c <- ld m p ;; if negb (c =? 0) && negb (c =? x) then scan k m x (p + 1) else Ret p
  end.
(** strspn – :125-135, strcspn – :137-147: they differ in the test ( !*p or *p ). *)
Fixpoint span_loop (neg : bool) (k : nat) (m : mem) (s1 s2 n : Z) : res Z :=
  match k with
  | O => Out
  | S k' =>
      x <- ld m s1 ;;
      if x =? 0 then Ret n
      else p <- scan k m x s2 ;; c <- ld m p ;; if Bool.eqb (c =? 0) neg then Ret n else span_loop neg k' m (s1 + 1) s2 (size_t (n + 1))
  end.
Definition strspn (k : nat) (m : mem) (s1 s2 : Z) : res Z := span_loop true k m s1 s2 0.
Definition strcspn (k : nat) (m : mem) (s1 s2 : Z) : res Z := span_loop false k m s1 s2 0.

(** strpbrk – :149-155 *)
Fixpoint pbrk_inner (k : nat) (m : mem) (x c2 : Z) : res bool :=
  match k with
  | O => Out
  | S k => c <- ld m c2 ;; if c =? 0 then Ret false else if x =? c then Ret true else pbrk_inner k m x (c2 + 1)
  end.
Fixpoint strpbrk (k : nat) (m : mem) (c1 s2 : Z) : res Z :=
  match k with
  | O => Out
  | S k' =>
      x <- ld m c1 ;;
      if x =? 0 then Ret 0 else b <- pbrk_inner k m x s2 ;; if b : bool then Ret c1 else strpbrk k' m (c1 + 1) s2
  end.

(** strstr – :157-166 *)
Fixpoint str_inner (k : nat) (m : mem) (h n : Z) : res Z :=
  match k with
  | O => Out
  | S k =>
      x <- ld m h ;;
      if x =? 0 then Ret n else y <- ld m n ;; if negb (y =? 0) && (x =? y) then str_inner k m (h + 1) (n + 1) else Ret n
  end.
Fixpoint strstr (k : nat) (m : mem) (haystack needle : Z) : res Z :=
  match k with
  | O => Out
  | S k' =>
      x <- ld m haystack ;;
      if x =? 0 then Ret 0
      else n <- str_inner k m haystack needle ;; y <- ld m n ;; if y =? 0 then Ret haystack else strstr k' m (haystack + 1) needle
  end.

(** strtok – :168-194; [olds]: the static variable *)
Definition strtok (k : nat) (m : mem) (olds str delim : Z) : res (Z * Z * mem) :=
  let str := if str =? 0 then olds else str in
  if str =? 0 then Ret (0, olds, m)
  else
    n <- strspn k m str delim ;;
    let str := str + n in
    c <- ld m str ;;
    if c =? 0 then Ret (0, olds, m)
    else
      let tok := str in
      s <- strpbrk k m str delim ;;
      if s =? 0 then Ret (tok, 0, m)
      else m' <- st m s 0 ;; Ret (tok, s + 1, m').
