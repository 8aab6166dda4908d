(** lib/smack/VerifierCodeMetadata.cpp and lib/smack/AddTiming.cpp: which instructions
    are verifier code, their costs, and the annotations of the Boogie code
    (SmackInstGenerator.cpp:98-138, 148-164).

    Simplifications: the users of an instruction are the instructions that have it as
    an operand (LLVM admits no others, so the search of VerifierCodeMetadata.cpp:43-68
    ends at its first level); the metadata of an instruction are those of these two
    passes, in the order in which their kinds are registered; the price of an
    instruction is what llvm::TargetTransformInfo returns, an unsigned 32-bit number. *)
From Coq Require Import ZArith List String Bool.
From Verif.Spec Require Import BoogieSyntax VerifierCode.
From Verif.Model Require Import MemorySafetyChecker.
Import ListNotations.
Open Scope string_scope.
Open Scope list_scope.
Open Scope Z_scope.

(** llvm::CallInst (an invoke is none) *)
Definition isCallInst (i : instr) : bool := match op i with CallIntrinsic | CallOther => true | _ => false end.
(** VerifierCodeMetadata.cpp:27-41 isVerifierFunctionCall *)
Definition isVerifierFunctionCall (i : instr) : bool :=
  match callee i with
  | Some n => String.prefix "__VERIFIER_" n || String.prefix "__SMACK_" n || String.prefix "__CONTRACT_" n
  | None => false
  end.
Definition isMarked (marks : list nat) (i : nat) : bool := existsb (Nat.eqb i) marks.
Definition refers (i : nat) (o : operand) : bool := match o with Inst j => Nat.eqb i j | Elsewhere => false end.
(** llvm::Value::users *)
Definition users (m : list instr) (i : instr) : list instr := filter (fun u => existsb (refers (id i)) (operands u)) m.
Definition instr_of (m : list instr) (i : nat) : option instr := find (fun x => Nat.eqb i (id x)) m.
(** 43-68 onlyVerifierUsers *)
Definition onlyVerifierUsers (m : list instr) (marks : list nat) (i : instr) : bool :=
  forallb (fun u => isMarked marks (id u)) (users m i).
(** 112-125 visitCallInst, visitInstruction: the marked instructions and the work list *)
Definition initial (m : list instr) : list nat :=
  map id (filter (fun i => isCallInst i && isVerifierFunctionCall i) m).
(** 93-102: the loop over the operands of an instruction *)
Definition step_operand (m : list instr) (st : list nat * list nat) (v : operand) : list nat * list nat :=
  let (marks, queue) := st in
  match v with
  | Inst j =>
      match instr_of m j with
      | Some J =>
          if negb (isMarked marks (id J)) && negb (isCallInst J) then
            if onlyVerifierUsers m marks J then (id J :: marks, queue ++ [id J]) else st
          else st
      | None => st
      end
  | Elsewhere => st
  end.
(** 91-104: the while loop; every instruction enters the work list at most once, so that
    as many rounds as there are instructions are enough (C56_verifier_code) *)
Fixpoint drain (m : list instr) (fuel : nat) (marks queue : list nat) : list nat :=
  match fuel, queue with
  | S fuel', i :: queue' =>
      match instr_of m i with
      | Some Ins => let (marks', queue'') := fold_left (step_operand m) (operands Ins) (marks, queue') in drain m fuel' marks' queue''
      | None => drain m fuel' marks queue'
      end
  | _, _ => marks
  end.
(** 85-107 runOnModule *)
Definition mark_module (m : list instr) : list nat := drain m (List.length m) (initial m) (initial m).

(** AddTiming.h:19 (unsigned)NO_TIMING_INFO *)
Definition NO_TIMING_INFO : Z := 2 ^ 32 - 1.
(** AddTiming.cpp:53-60 isAutogeneratedSmackFunction *)
Definition isAutogeneratedSmackFunction (n : string) : bool := String.prefix "__SMACK" n || String.prefix "__VERIFIER" n.
(** 119-239 getInstructionCost *)
Definition getInstructionCost (marks : list nat) (tti : instr -> Z) (i : instr) : Z :=
  if isMarked marks (id i) then 0
  else match op i with
       | GetElementPtr => tti i
       | Ret | PHI | Br => tti i
       | Arithmetic => tti i
       | Select => tti i
       | Compare => tti i
       | Store => tti i
       | Load => tti i
       | Cast => tti i
       | ExtractElement => NO_TIMING_INFO
       | InsertElement => NO_TIMING_INFO
       | ShuffleVector => NO_TIMING_INFO
       | CallIntrinsic => tti i
       | CallOther => NO_TIMING_INFO
       | Other => NO_TIMING_INFO
       end.

(** The options and oracles of a translation: --timing-annotations, --source-loc-syms
    (SmackOptions.cpp), the prices, and the printed form of an instruction. *)
Record config := Config { timing : bool; sourcelocs : bool; tti : instr -> Z; text : instr -> string }.

(** The metadata of an instruction after VerifierCodeMetadata.cpp:19-25 and
    AddTiming.cpp:70-104, and what SmackInstGenerator.cpp:119-137 makes of them: a list
    of attributes. *)
Definition metadata (c : config) (marks : list nat) (fname : string) (i : instr) : list attr :=
  Attr "verifier.code" [AExpr (Num (if isMarked marks (id i) then 1 else 0))] ::
  (if timing c && negb (isAutogeneratedSmackFunction fname) then
     Attr "smack.LLVMInstructionName" [AStr (text c i)] ::
     (let k := getInstructionCost marks (tti c) i in
      if k =? NO_TIMING_INFO then [] else [Attr "smack.InstTimingCost.Int64" [AExpr (Num k)]])
   else []).
(** SmackInstGenerator.cpp:98-138 annotate *)
Definition annotate (c : config) (marks : list nat) (fname : string) (i : instr) : list stmt :=
  if isCallInst i && match callee i with Some n => contains "llvm.dbg." n | None => false end then []
  else
    (match loc i with
     | Some (f, l, k) => if sourcelocs c then [Assume [Attr "sourceloc" [AStr f; AExpr (Num l); AExpr (Num k)]] (BoolLit true)] else []
     | None => []
     end) ++ map (fun a => Assume [a] (BoolLit true)) (metadata c marks fname i).
(** llvm::DbgInfoIntrinsic: llvm.dbg.declare, .value, .addr, .label *)
Definition isDbgInfoIntrinsic (i : instr) : bool :=
  match op i, callee i with
  | CallIntrinsic, Some n => existsb (String.eqb n) ["llvm.dbg.declare"; "llvm.dbg.value"; "llvm.dbg.addr"; "llvm.dbg.label"]
  | _, _ => false
  end.
(** 148-164 visitBasicBlock: at the start of a function the annotations of the first
    instruction with a location *)
Definition entry_annotation (c : config) (marks : list nat) (fname : string) (b : list instr) : list stmt :=
  match find (fun i => negb (isDbgInfoIntrinsic i) && match loc i with Some _ => true | None => false end) b with
  | Some i => annotate c marks fname i
  | None => []
  end.
(** The Boogie code of a block: [gen] is what the visitors emit after
    processInstruction (140-146), [record] the record calls of 165-171 *)
Definition gen_block (c : config) (marks : list nat) (gen : instr -> list stmt) (fname : string) (b : list instr) : list stmt :=
  flat_map (fun i => annotate c marks fname i ++ gen i) b.
Definition gen_entry (c : config) (marks : list nat) (gen : instr -> list stmt) (record : list stmt) (fname : string) (b : list instr) : list stmt :=
  entry_annotation c marks fname b ++ record ++ gen_block c marks gen fname b.
