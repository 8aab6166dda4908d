(** share/smack/lib/smack.rs: the vectors, iterators and boxes Rust programs get under
    SMACK, and its allocation functions.

    Memory is a map from addresses to bytes and the list of the allocated blocks (start,
    size).  malloc takes its address from a sequence of choices and the execution is
    infeasible if it is not free, as with $malloc (C24); free is checked as with memory
    safety.  rustc compiles with -C opt-level=0 (share/smack/frontend.py:366-377), so that
    the arithmetic of usize panics when it overflows.  An element of type T is the list
    of its [sz] bytes; the drops the compiler inserts for the elements are recorded in a
    log.  __VERIFIER_memcpy is declared (smack.rs:20) but nowhere defined, so a call of it
    is one of an undefined procedure: it returns any value and leaves the memory alone. *)
From Coq Require Import ZArith List Bool.
From Verif.Spec Require Import RustVec.
Import ListNotations.
Open Scope list_scope.
Open Scope Z_scope.

Section Rust.
  Context {T : Type} (sz : Z) (enc : T -> list Z) (dec : list Z -> T).

  Record heap := Heap { bytes : Z -> Z; live : list (Z * Z); choices : nat -> Z; log : list T }.
  Definition M (A : Type) : Type := heap -> outcome (heap * A).
  Definition ret {A} (a : A) : M A := fun h => Ok (h, a).
  Definition bind {A B} (m : M A) (f : A -> M B) : M B := fun h =>
    match m h with
    | Ok (h', a) => f a h'
    | Panicked => Panicked | AssertFailed => AssertFailed | Invalid => Invalid | Blocked => Blocked | Rejected => Rejected
    end.
  Notation "'let*' x := m 'in' f" := (bind m (fun x => f)) (at level 200, x pattern, m at level 100, f at level 200).
  Definition panic {A} : M A := fun _ => Panicked.

  (** ** The machine *)
  Definition USIZE : Z := 2 ^ 64.
  Definition mul (a b : Z) : M Z := if a * b <? USIZE then ret (a * b) else panic.
  Definition add (a b : Z) : M Z := if a + b <? USIZE then ret (a + b) else panic.
  Definition sub (a b : Z) : M Z := if b <=? a then ret (a - b) else panic.
  (** $MALLOC_TOP, Prelude.cpp:1138-1147 *)
  Definition TOP : Z := 9223372036854775807.
  Definition malloc (n : Z) : M Z := fun h =>
    let p := choices h O in
    let rest k := choices h (S k) in
    if n =? 0 then Ok (Heap (bytes h) (live h) rest (log h), p)
    else if (0 <? p) && (p + n <? TOP) && forallb (fun b => (p + n <=? fst b) || (fst b + snd b <=? p)) (live h)
    then Ok (Heap (bytes h) ((p, n) :: live h) rest (log h), p)
    else Blocked.
  Definition free (p : Z) : M unit := fun h =>
    if p =? 0 then Ok (h, tt)
    else if existsb (fun b => fst b =? p) (live h)
    then Ok (Heap (bytes h) (filter (fun b => negb (fst b =? p)) (live h)) (choices h) (log h), tt)
    else Invalid.
  Definition valid (h : heap) (a n : Z) : bool :=
    (n =? 0) || existsb (fun b => (fst b <=? a) && (a + n <=? fst b + snd b)) (live h).
  Definition content (h : heap) (a n : Z) : list Z := map (fun k => bytes h (a + Z.of_nat k)) (seq 0 (Z.to_nat n)).
  Definition overwrite (f : Z -> Z) (a : Z) (bs : list Z) : Z -> Z :=
    fun x => if (a <=? x) && (x <? a + Z.of_nat (List.length bs)) then nth (Z.to_nat (x - a)) bs 0 else f x.
  Definition rd (a n : Z) : M (list Z) := fun h => if valid h a n then Ok (h, content h a n) else Invalid.
  Definition wr (a : Z) (bs : list Z) : M unit := fun h =>
    if valid h a (Z.of_nat (List.length bs)) then Ok (Heap (overwrite (bytes h) a bs) (live h) (choices h) (log h), tt) else Invalid.
  (** std::ptr::read, write, copy (memmove), *const T::offset; the drop of an element *)
  Definition offset (p k : Z) : Z := p + k * sz.
  Definition ptr_read (p : Z) : M T := let* bs := rd p sz in ret (dec bs).
  Definition ptr_write (p : Z) (t : T) : M unit := wr p (enc t).
  Definition ptr_copy (src dst count : Z) : M unit := let* bs := rd src (count * sz) in wr dst bs.
  Definition drop_elem (t : T) : M unit := fun h => Ok (Heap (bytes h) (live h) (choices h) (t :: log h), tt).
  (** the macro assert!, smack.rs:60-66 *)
  Definition assert_ (b : bool) : M unit := fun h => if b then Ok (h, tt) else AssertFailed.
  (** a call of __VERIFIER_memcpy, smack.rs:20: an undefined procedure *)
  Definition verifier_memcpy (dest src count : Z) : M Z := fun h =>
    Ok (Heap (bytes h) (live h) (fun k => choices h (S k)) (log h), choices h O).

  (** ** Allocation functions, smack.rs:148-203 *)
  Definition prim_alloc (size align : Z) : M Z := malloc size.
  Definition memset (p ch n : Z) : M unit := wr p (repeat (ch mod 256) (Z.to_nat n)).
  Definition prim_alloc_zeroed (size align : Z) : M Z := let* result := malloc size in let* _ := memset result 0 size in ret result.
  Definition prim_dealloc (p size align : Z) : M unit := free p.
  (** share/smack/lib/stdlib.c:37-44 realloc *)
  Definition realloc (p n : Z) : M Z := let* _ := free p in malloc n.
  Definition prim_realloc (p old_size align new_size : Z) : M Z := realloc p new_size.
  Definition std_alloc (size align : Z) : M Z := prim_alloc size align.
  Definition std_alloc_zeroed (size align : Z) : M Z := prim_alloc size align.
  Definition std_dealloc (p size align : Z) : M unit := prim_dealloc p size align.
  Definition std_realloc (p size align new_size : Z) : M Z := prim_realloc p size align new_size.
  (** 211-218 sized_realloc *)
  Definition sized_realloc (orig_ptr orig_size new_size : Z) : M Z :=
    let* result := malloc new_size in
    let* _ := verifier_memcpy result orig_ptr orig_size in
    ret result.

  (** ** RawVec, smack.rs:267-308: pointer and capacity *)
  Record rawvec := RawVec { rptr : Z; rcap : Z }.
  Definition raw_new : M rawvec := let* n := mul 32 sz in let* p := malloc n in ret (RawVec p 32).
  Definition raw_with_capacity (cap : Z) : M rawvec := let* n := mul cap sz in let* p := malloc n in ret (RawVec p cap).
  Definition raw_grow (b : rawvec) : M rawvec :=
    let* new_cap := mul 2 (rcap b) in
    let* n := mul (rcap b) sz in
    let* n' := mul new_cap sz in
    let* p := sized_realloc (rptr b) n n' in
    ret (RawVec p new_cap).
  Definition raw_drop (b : rawvec) : M unit := free (rptr b).

  (** ** Vec, smack.rs:310-451 *)
  Record vec := Vec { buf : rawvec; vlen : Z }.
  Definition vec_new : M vec := let* b := raw_new in ret (Vec b 0).
  Definition vec_with_capacity (cap : Z) : M vec := let* b := raw_with_capacity cap in ret (Vec b 0).
  Definition vec_push (v : vec) (t : T) : M vec :=
    let* b := if vlen v =? rcap (buf v) then raw_grow (buf v) else ret (buf v) in
    let* _ := ptr_write (offset (rptr b) (vlen v)) t in
    let* n := add (vlen v) 1 in
    ret (Vec b n).
  Definition vec_pop (v : vec) : M (vec * option T) :=
    if vlen v =? 0 then ret (v, None)
    else let* n := sub (vlen v) 1 in
         let* t := ptr_read (offset (rptr (buf v)) n) in
         ret (Vec (buf v) n, Some t).
  (** Option::unwrap *)
  Definition unwrap (o : option T) : M T := match o with Some t => ret t | None => panic end.
  (** The loops of append: [k] is olen - i. *)
  Fixpoint move_all (k : nat) (from to : vec) : M (vec * vec) :=
    match k with
    | O => ret (from, to)
    | S k' => let* (from', o) := vec_pop from in
              let* t := unwrap o in
              let* to' := vec_push to t in
              move_all k' from' to'
    end.
  (** Drop for Vec: while let Some(_) = self.pop() {}, then RawVec's *)
  Fixpoint pop_all (k : nat) (v : vec) : M vec :=
    match k with
    | O => ret v
    | S k' => let* (v', o) := vec_pop v in
              match o with None => ret v' | Some t => let* _ := drop_elem t in pop_all k' v' end
    end.
  Definition vec_drop (v : vec) : M unit := let* v' := pop_all (S (Z.to_nat (vlen v))) v in raw_drop (buf v').
  Definition vec_append (v other : vec) : M (vec * vec) :=
    let olen := Z.to_nat (vlen other) in
    let* drain := vec_new in
    let* (other', drain') := move_all olen other drain in
    let* (drain'', v') := move_all olen drain' v in
    let* _ := vec_drop drain'' in
    ret (v', other').
  Definition vec_insert (v : vec) (index : Z) (t : T) : M vec :=
    let* _ := assert_ (index <=? vlen v) in
    let* b := if rcap (buf v) =? vlen v then raw_grow (buf v) else ret (buf v) in
    let* _ := if index <? vlen v then
                let* n := sub (vlen v) index in
                ptr_copy (offset (rptr b) index) (offset (rptr b) (index + 1)) n
              else ret tt in
    let* _ := ptr_write (offset (rptr b) index) t in
    let* n := add (vlen v) 1 in
    ret (Vec b n).
  Definition vec_remove (v : vec) (index : Z) : M (vec * T) :=
    let* _ := assert_ (index <? vlen v) in
    let* n := sub (vlen v) 1 in
    let* result := ptr_read (offset (rptr (buf v)) index) in
    let* k := sub n index in
    let* _ := ptr_copy (offset (rptr (buf v)) (index + 1)) (offset (rptr (buf v)) index) k in
    ret (Vec (buf v) n, result).
  (** v[i] through Deref and DerefMut: the bounds check of slices *)
  Definition vec_get (v : vec) (i : Z) : M T := if i <? vlen v then ptr_read (offset (rptr (buf v)) i) else panic.
  Definition vec_set (v : vec) (i : Z) (t : T) : M unit :=
    if i <? vlen v then
      let* old := ptr_read (offset (rptr (buf v)) i) in
      let* _ := drop_elem old in
      ptr_write (offset (rptr (buf v)) i) t
    else panic.
  (** vec![...], smack.rs:571-578 *)
  Fixpoint push_all (v : vec) (l : list T) : M vec :=
    match l with [] => ret v | t :: l' => let* v' := vec_push v t in push_all v' l' end.
  Definition vec_of (l : list T) : M vec := let* v := vec_new in push_all v l.

  (** ** IntoIter, smack.rs:417-430, 467-554; [sz] is not 0 *)
  Record iter := Iter { ibuf : rawvec; istart : Z; iend : Z }.
  Definition into_iter (v : vec) : iter :=
    let p := rptr (buf v) in
    Iter (buf v) p (if sz =? 0 then p + vlen v else if vlen v =? 0 then p else offset p (vlen v)).
  Definition next (i : iter) : M (iter * option T) :=
    if istart i =? iend i then ret (i, None)
    else let* t := ptr_read (istart i) in
         ret (Iter (ibuf i) (if sz =? 0 then istart i + 1 else offset (istart i) 1) (iend i), Some t).
  Definition next_back (i : iter) : M (iter * option T) :=
    if istart i =? iend i then ret (i, None)
    else let e := if sz =? 0 then iend i - 1 else offset (iend i) (-1) in
         let* t := ptr_read e in
         ret (Iter (ibuf i) (istart i) e, Some t).
  Definition size_hint (i : iter) : Z := (iend i - istart i) / (if sz =? 0 then 1 else sz).
  (** Drop for IntoIter: for _ in &mut *self {}; [k] bounds the number of rounds *)
  Fixpoint next_all (k : nat) (i : iter) : M iter :=
    match k with
    | O => ret i
    | S k' => let* (i', o) := next i in
              match o with None => ret i' | Some t => let* _ := drop_elem t in next_all k' i' end
    end.
  Definition iter_drop (i : iter) : M unit := let* i' := next_all (S (Z.to_nat (size_hint i))) i in raw_drop (ibuf i').

  (** ** Box, smack.rs:588-612; it has no Drop *)
  Definition box_new (t : T) : M Z := let* p := malloc sz in let* _ := ptr_write (offset p 0) t in ret p.
  Definition box_get (p : Z) : M T := ptr_read p.

  (** ** Programs *)
  Inductive obj := OVec (v : vec) | OIter (i : iter) | OBox (p : Z).
  Definition reject {A} : M A := fun _ => Rejected.
  Definition with_vec (x : var) (e : env obj) {A} (f : vec -> M A) : M A := match get x e with Some (OVec v) => f v | _ => reject end.
  Definition with_iter (x : var) (e : env obj) {A} (f : iter -> M A) : M A := match get x e with Some (OIter i) => f i | _ => reject end.
  Definition fresh (x : var) (e : env obj) {A} (m : M A) : M A := match get x e with Some _ => reject | None => m end.
  Definition step (e : env obj) (o : op T) : M (env obj * obs T) :=
    match o with
    | VecNew x => fresh x e (let* v := vec_new in ret ((x, OVec v) :: e, Nothing))
    | VecWithCapacity x n => fresh x e (let* v := vec_with_capacity n in ret ((x, OVec v) :: e, Nothing))
    | VecOf x l => fresh x e (let* v := vec_of l in ret ((x, OVec v) :: e, Nothing))
    | Push x t => with_vec x e (fun v => let* v' := vec_push v t in ret (put x (OVec v') e, Nothing))
    | Pop x => with_vec x e (fun v => let* (v', r) := vec_pop v in ret (put x (OVec v') e, Maybe r))
    | Append x y => if Nat.eqb x y then reject
                    else with_vec x e (fun v => with_vec y e (fun w =>
                      let* (v', w') := vec_append v w in ret (put x (OVec v') (put y (OVec w') e), Nothing)))
    | Insert x i t => with_vec x e (fun v => let* v' := vec_insert v (Z.of_nat i) t in ret (put x (OVec v') e, Nothing))
    | Remove x i => with_vec x e (fun v => let* (v', r) := vec_remove v (Z.of_nat i) in ret (put x (OVec v') e, Elem r))
    | Len x => with_vec x e (fun v => ret (e, Number (vlen v)))
    | Get x i => with_vec x e (fun v => let* r := vec_get v (Z.of_nat i) in ret (e, Elem r))
    | Set_ x i t => with_vec x e (fun v => let* _ := vec_set v (Z.of_nat i) t in ret (e, Nothing))
    | IntoIter x => with_vec x e (fun v => ret (put x (OIter (into_iter v)) e, Nothing))
    | Next x => with_iter x e (fun i => let* (i', r) := next i in ret (put x (OIter i') e, Maybe r))
    | NextBack x => with_iter x e (fun i => let* (i', r) := next_back i in ret (put x (OIter i') e, Maybe r))
    | SizeHint x => with_iter x e (fun i => ret (e, Number (size_hint i)))
    | BoxNew x t => fresh x e (let* p := box_new t in ret ((x, OBox p) :: e, Nothing))
    | BoxGet x => match get x e with Some (OBox p) => let* t := box_get p in ret (e, Elem t) | _ => reject end
    | Drop x => match get x e with
                | Some (OVec v) => let* _ := vec_drop v in ret (del x e, Nothing)
                | Some (OIter i) => let* _ := iter_drop i in ret (del x e, Nothing)
                | Some (OBox p) => ret (del x e, Nothing)
                | None => reject
                end
    end.
  Fixpoint runs (e : env obj) (l : list (op T)) : M (env obj * list (obs T)) :=
    match l with
    | [] => ret (e, [])
    | o :: l' => let* (e', r) := step e o in let* (e'', rs) := runs e' l' in ret (e'', r :: rs)
    end.
End Rust.
