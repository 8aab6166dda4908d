(** C57: Rust programs see vectors, iterators and boxes that are lists and values. *)
From Coq Require Import ZArith List Bool Lia Permutation.
From Verif.Spec Require Import RustVec.
From Verif.Model Require Import RustVec.
From Verif.Proofs Require Import RustVecList RustAlloc.
Import ListNotations.
Open Scope list_scope.
Open Scope Z_scope.

(** All programs over vectors, iterators and boxes of elements of any size, from any
    memory: the outcome and every result are those of lists, where growing makes the
    old elements unknown; memory allocated elsewhere is neither freed nor changed, no
    access is outside the allocated blocks, and what is allocated is one block per
    variable and the leaked ones. *)
Theorem C57_refinement : forall (T : Type) (sz : Z) (enc : T -> list Z) (dec : list Z -> T) (h0 : heap) (l : list (op T)),
  0 < sz < 2 ^ 58 -> (forall t, Z.of_nat (List.length (enc t)) = sz) -> (forall t, dec (enc t) = t) ->
  blocks (live h0) -> log h0 = [] -> capacities l ->
  agrees (fun (m : heap * (env obj * list (obs T))) (a : astate T * list (obs (option T))) =>
      Forall2 predicted (snd a) (snd (snd m)) /\ Forall2 known (dropped (fst a)) (log (fst m)) /\
      incl (live h0) (live (fst m)) /\
      List.length (live (fst m)) = (List.length (live h0) + List.length (avars (fst a)) + leaked (fst a))%nat /\
      (forall b x, In b (live h0) -> fst b <= x < fst b + snd b -> bytes (fst m) x = bytes h0 x))
    (runs sz enc dec [] l h0) (aruns true sz start l).
Proof. intros T sz enc dec h0 l [S1 S2] E D B L C. apply main; auto. Qed.
Print Assumptions C57_refinement.

(** While no vector outgrows its capacity, all results and drops are exactly those of
    plain lists. *)
Theorem C57_lists : forall (T : Type) (sz : Z) (enc : T -> list Z) (dec : list Z -> T) (h0 : heap) (l : list (op T)),
  0 < sz < 2 ^ 58 -> (forall t, Z.of_nat (List.length (enc t)) = sz) -> (forall t, dec (enc t) = t) ->
  blocks (live h0) -> log h0 = [] -> capacities l -> fits sz start l ->
  agrees (fun (m : heap * (env obj * list (obs T))) (a : astate T * list (obs (option T))) =>
      snd a = map known_obs (snd (snd m)) /\ dropped (fst a) = map Some (log (fst m)))
    (runs sz enc dec [] l h0) (aruns false sz start l).
Proof. intros T sz enc dec h0 l [S1 S2] E D B L C F. apply main_list; auto. Qed.
Print Assumptions C57_lists.

(** The allocation functions: a new block apart from all others, zeroed by the zeroing
    one; freeing removes exactly that block and cannot be repeated; reallocating
    replaces the block. *)
Theorem C57_allocation : forall (T : Type) (h : @heap T) (n al : Z), 0 < n -> blocks (live h) ->
  match std_alloc n al h with
  | Ok (h', p) => live h' = (p, n) :: live h /\ blocks (live h') /\ bytes h' = bytes h
  | Blocked => True
  | _ => False
  end /\
  match prim_alloc_zeroed n al h with
  | Ok (h', p) => live h' = (p, n) :: live h /\ blocks (live h') /\ (forall x, p <= x < p + n -> bytes h' x = 0) /\
      (forall x, x < p \/ p + n <= x -> bytes h' x = bytes h x)
  | Blocked => True
  | _ => False
  end /\
  forall p m size, In (p, m) (live h) ->
    match std_dealloc p size al h with
    | Ok (h', _) => Permutation (live h) ((p, m) :: live h') /\ blocks (live h') /\ bytes h' = bytes h /\
        (forall size' al', std_dealloc p size' al' h' = Invalid)
    | _ => False
    end /\
    match std_realloc p size al n h with
    | Ok (h', q) => exists R, Permutation (live h) ((p, m) :: R) /\ Permutation (live h') ((q, n) :: R) /\ blocks (live h') /\ bytes h' = bytes h
    | Blocked => True
    | _ => False
    end.
Proof.
  intros T h n al Hn B. split; [apply alloc_ok; auto|]. split; [apply alloc_zeroed_ok; auto|].
  intros p m size H. split; [apply dealloc_ok; auto|apply realloc_ok; auto].
Qed.
Print Assumptions C57_allocation.

(** Freeing what is not the start of a block is reported. *)
Theorem C57_bad_free : forall (T : Type) (h : @heap T) (p size al : Z),
  p <> 0 -> (forall n, ~ In (p, n) (live h)) -> std_dealloc p size al h = Invalid.
Proof. intros T h p size al. apply dealloc_bad. Qed.
Print Assumptions C57_bad_free.

(** ** Examples: elements of two bytes *)
Definition ex_enc (t : nat * nat) : list Z := [Z.of_nat (fst t); Z.of_nat (snd t)].
Definition ex_dec (l : list Z) : nat * nat := (Z.to_nat (nth 0 l 0), Z.to_nat (nth 1 l 0)).
Definition ex_heap : @heap (nat * nat) := Heap (fun _ => 9) [(10, 5)] (fun k => 1000 * Z.of_nat (S k)) [].
Definition ex_prog : list (op (nat * nat)) :=
  [VecNew 0; Push 0 (1, 2); Push 0 (3, 4); Insert 0 1 (5, 6); VecWithCapacity 1 2; Push 1 (7, 8); Append 0 1; Len 0; Len 1; Get 0 3;
   Remove 0 0; Set_ 0 0 (9, 9); IntoIter 0; SizeHint 0; NextBack 0; Next 0; BoxNew 2 (4, 4); BoxGet 2; Pop 1; Drop 0]%nat.

Example C57_nonvacuous :
  (forall t, Z.of_nat (List.length (ex_enc t)) = 2) /\ (forall t, ex_dec (ex_enc t) = t) /\
  blocks (live ex_heap) /\ capacities ex_prog /\ fits 2 start ex_prog /\
  match runs 2 ex_enc ex_dec [] ex_prog ex_heap with
  | Ok (h, (e, rs)) =>
      rs = [Nothing; Nothing; Nothing; Nothing; Nothing; Nothing; Nothing; Number 4; Number 0; Elem (7, 8);
            Elem (1, 2); Nothing; Nothing; Number 3; Maybe (Some (7, 8)); Maybe (Some (9, 9)); Nothing; Elem (4, 4); Maybe None; Nothing]%nat /\
      log h = [(3, 4); (5, 6)]%nat /\ map fst (live h) = [4000; 2000; 10]
  | _ => False
  end.
Proof.
  split; [reflexivity|]. split.
  { intros [a b]. unfold ex_dec, ex_enc; cbn. rewrite !Nat2Z.id. reflexivity. }
  split. { unfold blocks. cbn. split; repeat constructor; cbn; lia. }
  split. { intros x n H. cbn in H. repeat (destruct H as [H|H]; [try discriminate; injection H as <- <-; lia|]). destruct H. }
  split.
  { cbn. unfold room. cbn.
    repeat match goal with
      | |- _ /\ _ => split
      | |- True => exact I
      | |- forall x l cap, _ -> _ =>
          intros x l cap H; destruct x as [|[|[|x]]]; cbn in H; try discriminate; injection H as <- <-; cbn; lia
      | |- forall l cap, _ -> _ => intros l cap H; injection H as <- <-; cbn; lia
      end. }
  vm_compute. repeat split.
Qed.

(** smack.rs:20, 211-218: a vector that grows loses its elements, because the procedure
    that is to copy them is defined nowhere.  After pushing 33 elements on a new vector the
    first one is an arbitrary value. *)
Theorem C57_growth_refuted :
  match runs 2 ex_enc ex_dec [] [VecOf 0 (repeat (7, 7) 33); Get 0 0]%nat ex_heap with
  | Ok (h, (e, rs)) => rs = [Nothing; Elem (9, 9)]%nat
  | _ => False
  end /\
  match aruns false 2 start [VecOf 0 (repeat (7, 7) 33); Get 0 0]%nat with
  | Ok (s, rs) => rs = [Nothing; Elem (Some (7, 7))]%nat
  | _ => False
  end.
Proof. split; vm_compute; reflexivity. Qed.
Print Assumptions C57_growth_refuted.

(** smack.rs:289-301: and its old memory is never freed. *)
Theorem C57_growth_leak_refuted :
  match runs 2 ex_enc ex_dec [] [VecOf 0 (repeat (7, 7) 33); Drop 0]%nat ex_heap with
  | Ok (h, _) => live h = [(1000, 64); (10, 5)]
  | _ => False
  end.
Proof. vm_compute. reflexivity. Qed.
Print Assumptions C57_growth_leak_refuted.

(** smack.rs:283-301: doubling the capacity 0 gives 0, so that the first push on a vector
    created with capacity 0 writes outside of its memory. *)
Theorem C57_capacity_zero_refuted : runs 2 ex_enc ex_dec [] [VecWithCapacity 0 0; Push 0 (1, 1)]%nat ex_heap = Invalid.
Proof. vm_compute. reflexivity. Qed.
Print Assumptions C57_capacity_zero_refuted.

(** smack.rs:590-612: a box has no drop: its content is not dropped and its memory not
    freed. *)
Theorem C57_box_refuted :
  match runs 2 ex_enc ex_dec [] [BoxNew 0 (1, 1); Drop 0]%nat ex_heap with
  | Ok (h, _) => log h = [] /\ live h = [(1000, 2); (10, 5)]
  | _ => False
  end.
Proof. vm_compute. split; reflexivity. Qed.
Print Assumptions C57_box_refuted.

(** smack.rs:444-450: a vector drops its elements from the last to the first, Rust's from
    the first to the last: here (2, 2) is dropped first. *)
Theorem C57_drop_order_refuted :
  match runs 2 ex_enc ex_dec [] [VecOf 0 [(1, 1); (2, 2)]; Drop 0]%nat ex_heap with
  | Ok (h, _) => log h = [(1, 1); (2, 2)]%nat
  | _ => False
  end.
Proof. vm_compute. reflexivity. Qed.
Print Assumptions C57_drop_order_refuted.

(** smack.rs:158-161, 168-171, 193-203: the std version of the zeroing allocation does not zero, and
    reallocation does not keep the contents. *)
Theorem C57_alloc_zeroed_refuted :
  match @std_alloc_zeroed (nat * nat) 4 1 ex_heap with Ok (h, p) => bytes h p = 9 | _ => False end.
Proof. vm_compute. reflexivity. Qed.
Print Assumptions C57_alloc_zeroed_refuted.
(** smack.rs:193-203: reallocation does not keep the contents. *)
Theorem C57_realloc_refuted :
  match bind (std_alloc 1 1) (fun p => bind (wr p [5]) (fun _ => std_realloc p 1 1 2)) ex_heap with
  | Ok (h, q) => bytes h q = 9
  | _ => False
  end.
Proof. vm_compute. reflexivity. Qed.
Print Assumptions C57_realloc_refuted.
