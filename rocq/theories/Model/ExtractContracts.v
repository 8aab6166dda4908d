(** lib/smack/ExtractContracts.cpp, and the use of its result in SmackInstGenerator.cpp:
    728-757.

    Blocks keep their positions: a piece of a block is named by the block and the index of
    its first item.  llvm::CodeExtractor is modelled by what it accepts and by the code that
    remains.  Simplifications: the arguments of extracted functions are all local values;
    the loops of a function are given (LoopInfo). *)
From Coq Require Import List Bool Arith.
From Verif.Spec Require Import Contracts.
Import ListNotations.

Definition label := (nat * nat)%type.
Definition label_eqb (a b : label) : bool := (fst a =? fst b) && (snd a =? snd b).
Definition mem_label (x : label) (l : list label) : bool := existsb (label_eqb x) l.
Inductive pterm := PJump (l : label) (phis : bool) | PBranch (c : nat) (t e : label) | PReturn.
Record piece := Piece { ops : list nat; con : option (kind * nat); pt : pterm }.

(** splitContractBlocks – :73-98: the blocks end after each contract (splitBasicBlock puts
    the new block behind the old one; it becomes the next to be looked at). *)
Fixpoint split (l s i : nat) (acc : list nat) (items : list item) (tm : term) : list (label * piece) :=
  match items with
  | [] => [((l, s), Piece acc None (match tm with Jump d => PJump (d, 0) true | Branch c d e => PBranch c (d, 0) (e, 0) | Return => PReturn end))]
  | Do o :: r => split l s (S i) (acc ++ [o]) r tm
  | Contract k e :: r => ((l, s), Piece acc (Some (k, e)) (PJump (l, S i) false)) :: split l (S i) (S i) [] r tm
  end.
Fixpoint pieces_from (l : nat) (F : function) : list (label * piece) :=
  match F with [] => [] | (items, tm) :: F' => split l 0 0 [] items tm ++ pieces_from (S l) F' end.
Definition pieces (F : function) : list (label * piece) := pieces_from 0 F.
Definition find_piece (ps : list (label * piece)) (x : label) : option piece :=
  match find (fun p => label_eqb x (fst p)) ps with Some p => Some (snd p) | None => None end.

(** The pieces that end in a contract, in the order of the function. *)
Definition is_contract (p : piece) : bool := match con p with Some _ => true | None => false end.
Definition contracts (ps : list (label * piece)) : list label := map fst (filter (fun p => is_contract (snd p)) ps).

(** blockPrefix – :41-51: the blocks up to the last of the given ones. *)
Fixpoint take_to (x : label) (l : list label) : list label :=
  match l with [] => [] | y :: l => if label_eqb y x then [y] else y :: take_to x l end.
Definition block_prefix (BBs : list label) (blocks : list label) : list label :=
  match rev BBs with [] => [] | x :: _ => take_to x blocks end.
(** blockPrefix for loops – :57-69: without the header *)
Definition loop_prefix (BBs : list label) (header : label) (blocks : list label) : list label :=
  match rev BBs with [] => [] | x :: _ => take_to x (filter (fun y => negb (label_eqb y header)) blocks) end.
(** The blocks of a loop after splitting: addBasicBlockToLoop (:89) puts new ones at the end. *)
Definition loop_labels (ps : list (label * piece)) (loop : list nat) : list label :=
  map (fun b => (b, 0)) loop ++ filter (fun x => negb (snd x =? 0) && existsb (Nat.eqb (fst x)) loop) (map fst ps).

(** llvm::CodeExtractor accepts a region if no block but the first has predecessors
    outside; with several exits the call's result is used, and erasing it (:214, :248)
    fails.  [alloca]: the instructions that are (not accepted either). *)
Definition successors (p : piece) : list label := match pt p with PJump l _ => [l] | PBranch _ t e => [t; e] | PReturn => [] end.
Definition entries_ok (ps : list (label * piece)) (region : list label) : bool :=
  forallb (fun p => mem_label (fst p) region || forallb (fun x => negb (mem_label x (tl region))) (successors (snd p))) ps.
Definition exits (ps : list (label * piece)) (region : list label) : list label :=
  flat_map (fun p => if mem_label (fst p) region then filter (fun x => negb (mem_label x region)) (successors (snd p)) else []) ps.
Definition no_alloca (alloca : nat -> bool) (ps : list (label * piece)) (region : list label) : bool :=
  forallb (fun p => negb (mem_label (fst p) region) || forallb (fun o => negb (alloca o)) (ops (snd p))) ps.
Definition no_return (ps : list (label * piece)) (region : list label) : bool :=
  forallb (fun p => negb (mem_label (fst p) region) || negb (match pt (snd p) with PReturn => true | _ => false end)) ps.
Definition extractable (alloca : nat -> bool) (ps : list (label * piece)) (region : list label) : option label :=
  if entries_ok ps region && no_alloca alloca ps region && no_return ps region then
    match exits ps region with
    | [] => None
    | x :: r => if forallb (label_eqb x) r then Some x else None
    end
  else None.

(** The procedure: its requires and ensures expressions, one for each contract, named by
    the piece that ends in it (getContractExprs :181-189, :200-213; SmackInstGenerator
    746-749), and the place where its code starts once the call of the region is gone. *)
Record proc := Proc { requires : list label; ensures : list label; region : list label; start : label }.
Definition of_kind (k : kind) (ps : list (label * piece)) (region : list label) : list label :=
  map fst (filter (fun p => mem_label (fst p) region &&
    match con (snd p), k with Some (Requires, _), Requires | Some (Ensures, _), Ensures | Some (Invariant, _), Invariant => true | _, _ => false end) ps).
(** runOnModule – :193-217, for contracts outside of loops; None: the pass fails *)
Definition extract (alloca : nat -> bool) (F : function) : option proc :=
  let ps := pieces F in
  match contracts ps with
  | [] => Some (Proc [] [] [] (0, 0))
  | _ =>
      let r := block_prefix (contracts ps) (map fst ps) in
      match extractable alloca ps r with
      | Some x => match of_kind Invariant ps r with [] => Some (Proc (of_kind Requires ps r) (of_kind Ensures ps r) r x) | _ => None end (* 751: assert(L) *)
      | None => None
      end
  end.
(** ... and for those in a loop (:219-251, SmackInstGenerator 750-757): the assertions at
    the start of the loop's header, and the region. *)
Definition extract_loop (alloca : nat -> bool) (F : function) (header : nat) (loop : list nat) : option (list label * list label) :=
  let ps := pieces F in
  let cs := filter (fun x => existsb (Nat.eqb (fst x)) loop) (contracts ps) in
  let r := loop_prefix cs (header, 0) (loop_labels ps loop) in
  match extractable alloca ps r with
  | Some x => Some (of_kind Invariant ps r, r)
  | None => None
  end.

(** ** What the result means *)
Section Boogie.
  Context {A T M : Type} (E : meaning A T M) (ps : list (label * piece)) (a : A).
  Fixpoint run_ops (l : list nat) (t : T) (m : M) : option (T * M) :=
    match l with [] => Some (t, m) | o :: l => match act E o a t m with Some (t', m') => run_ops l t' m' | None => None end end.
  Definition next (x : label) (p : piece) (t : T) (m : M) : option (label * T) :=
    match pt p with
    | PJump d phis => Some (d, if phis then edge E (fst x) (fst d) a t m else t)
    | PBranch c d e => let d := if test E c a t m then d else e in Some (d, edge E (fst x) (fst d) a t m)
    | PReturn => None
    end.
  (** An expression: the copy of the region in which the contract of [target] returns its
      argument and leaving the region returns true (setReturnToArgumentValue :118-150). *)
  Inductive value := Value (v : bool) | Fails.
  Fixpoint eval (fuel : nat) (region : list label) (target x : label) (t : T) (m : M) : option value :=
    match fuel with
    | O => None
    | S fuel =>
        if mem_label x region then
          match find_piece ps x with
          | None => Some Fails
          | Some p =>
              match run_ops (ops p) t m with
              | None => Some Fails
              | Some (t, m) =>
                  match label_eqb x target, con p with
                  | true, Some (_, e) => Some (Value (test E e a t m))
                  | _, _ => match next x p t m with Some (y, t) => eval fuel region target y t m | None => Some (Value true) end
                  end
              end
          end
        else Some (Value true)
    end.
  (** The code that remains *)
  Inductive ending := Ended (m : M) | Fault.
  Fixpoint execute (fuel : nat) (x : label) (t : T) (m : M) : option ending :=
    match fuel with
    | O => None
    | S fuel =>
        match find_piece ps x with
        | None => Some Fault
        | Some p =>
            match run_ops (ops p) t m with
            | None => Some Fault
            | Some (t, m) => match next x p t m with Some (y, t) => execute fuel y t m | None => Some (Ended m) end
            end
        end
    end.
End Boogie.
Section Verified.
  Context {A T M : Type} (E : meaning A T M) (F : function) (P : proc).
  (** requires and ensures are evaluated in the memory before and after the call, with the
      values of the parameters. *)
  Definition true_in (l : list label) (a : A) (m : M) : Prop :=
    forall x, In x l -> exists fuel, eval E (pieces F) a fuel (region P) x (0, 0) (undef E) m = Some (Value true).
  Definition verified : Prop :=
    forall a m fuel r, true_in (requires P) a m -> execute E (pieces F) a fuel (start P) (undef E) m = Some r ->
      exists m', r = Ended m' /\ true_in (ensures P) a m'.
End Verified.
