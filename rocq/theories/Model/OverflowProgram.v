(** The program after the pass of lib/smack/IntegerOverflowChecker.cpp with
    -integer-overflow (--check integer-overflow), on whole programs: a program of
    Spec/Program.v, translated as in Model/WholeProgram.v.  The code put in place
    of one instruction is that of Model/OverflowChecker.v.

    Simplifications: the uses of an extracted part, which the pass replaces
    (:182-199), read a copy of it here; assert {:overflow} flag == $0
    (share/smack/lib/smack.c:1407-1410) is a comparison followed by an assertion;
    the pass runs before the loop pass here (llvm2bpl.cpp:199, 222: after; the
    loop pass does not look at the instructions, and this pass not at jumps:
    C70_pass_order). *)
From Coq Require Import ZArith List String Ascii Bool.
From Verif.Spec Require Import LLVMInt IR CFG BitVectorIR ByteMemory Program OverflowProgram.
From Verif.Model Require Import Boogie PreludeInt.
From Verif.Model Require OverflowChecker MemorySafetyChecker.
Import ListNotations.
Open Scope string_scope.
Open Scope list_scope.
Open Scope Z_scope.

(** New registers, see Model/OverflowChecker.v. *)
Definition fresh := OverflowChecker.fresh.
Definition RES := OverflowChecker.RES. Definition FLAG := OverflowChecker.FLAG.
Definition ARG := OverflowChecker.ARG. Definition NOTF := OverflowChecker.NOTF.
Definition ISZ := fresh 10. Definition COND := fresh 11. Definition ARG2 := fresh 12.
(** source registers do not start with a reserved character *)
Definition source_name (x : string) : Prop := forall k d, (1 <= k <= 12)%nat -> x <> fresh k d.

(** Types of the new registers: IntegerOverflowChecker.cpp:53-62 (twice the
    width), 83-85, 91-95, 101-107, 113-120. *)
Definition new_width (P : string -> option Z) (x : string) : option Z :=
  match x with
  | EmptyString => None
  | String c d =>
      match nat_of_ascii c with
      | 1%nat | 2%nat | 3%nat => match P d with Some n => Some (n * 2) | None => None end
      | 4%nat => P d
      | 5%nat | 6%nat | 7%nat | 9%nat | 10%nat => Some 1
      | 8%nat | 11%nat | 12%nat => Some 32
      | _ => None
      end
  end.
Definition widths_after (W P : string -> option Z) : string -> option Z :=
  fun x => match W x with Some n => Some n | None => new_width P x end.

(** ** Types are checked, as by LLVM's verifier. *)
Section Check.
  Context (G : string -> option Z).
  Definition width_okb (n : Z) : bool := existsb (Z.eqb n) INTEGER_SIZES && (n <=? 64).
  Definition has_width (x : string) (n : Z) : bool := match G x with Some m => m =? n | None => false end.
  Definition cast_okb (c : castop) (n1 n2 : Z) : bool :=
    match c with Trunc => n2 <? n1 | ZExt | SExt => n1 <? n2 end.
  Fixpoint wt_valueb (v : value) : bool :=
    match v with
    | VReg n x => has_width x n && width_okb n
    | VConst n c => (0 <=? c) && (c <? 2 ^ n) && width_okb n
    | CBin _ n a b | CIcmp _ n a b => wt_valueb a && wt_valueb b && (vwidth a =? n) && (vwidth b =? n) && width_okb n
    | CCast c n1 n2 a => wt_valueb a && (vwidth a =? n1) && width_okb n1 && width_okb n2 && cast_okb c n1 n2
    | CSelect n c a b =>
        wt_valueb c && wt_valueb a && wt_valueb b && (vwidth c =? 1) && (vwidth a =? n) && (vwidth b =? n) && width_okb n
    end.
  Definition wt_operandb (o : operand) : bool :=
    match o with
    | Op v => wt_valueb v
    | Instr (IBin op _ n a b) => wt_valueb (CBin op n a b)
    | Instr (IIcmp p n a b) => wt_valueb (CIcmp p n a b)
    | Instr (ICast c n1 n2 a) => wt_valueb (CCast c n1 n2 a)
    | Instr (ISelect n c a b) => wt_valueb (CSelect n c a b)
    end.
  Lemma width_okb_ok : forall n, width_okb n = true <-> width_ok n.
  Proof.
    intros n. unfold width_okb, width_ok. rewrite andb_true_iff, existsb_exists, Z.leb_le. split; intros [H1 H2]; (split; [|exact H2]).
    - destruct H1 as (x & Hx & E). apply Z.eqb_eq in E. now subst.
    - exists n. split; [exact H1|apply Z.eqb_refl].
  Qed.
  Lemma wt_valueb_ok : forall v, wt_valueb v = true <-> wt_value G width_ok v.
  Proof.
    induction v; cbn [wt_valueb wt_value]; rewrite ?andb_true_iff, ?width_okb_ok, ?Z.eqb_eq, ?IHv, ?IHv1, ?IHv2, ?IHv3.
    - unfold has_width. destruct (G x) as [m|]; [rewrite Z.eqb_eq|]; split; intros [H1 H2]; split; auto; congruence.
    - unfold is_iN. rewrite Z.leb_le, Z.ltb_lt. tauto.
    - tauto.
    - tauto.
    - destruct c; cbn; rewrite Z.ltb_lt; tauto.
    - tauto.
  Qed.
  Lemma wt_operandb_ok : forall o, wt_operandb o = true <-> wt_operand G width_ok o.
  Proof.
    intros [v|[]]; cbn [wt_operandb wt_operand wt_inst]; apply wt_valueb_ok.
  Qed.
  Lemma default_ok : wt_operand G width_ok (Op (VConst 1 0)).
  Proof. apply wt_operandb_ok. reflexivity. Qed.
  (** Ill-typed operands do not occur in well-formed programs (exp_wt, arith_wt,
      check_wt and block_wt of Proofs/OverflowPass.v). *)
  Definition as_typed (o : operand) : typed G width_ok :=
    match bool_dec (wt_operandb o) true with
    | left H => exist _ o (proj1 (wt_operandb_ok o) H)
    | right _ => exist _ (Op (VConst 1 0)) default_ok
    end.
End Check.

Section Pass.
  Context (W P : string -> option Z).
  Notation G := (widths_after W P).
  Notation exp := (typed G width_ok).
  Definition assign (x : string) (i : inst) : stmt exp op := SAssign x (as_typed G (Instr i)).
  (** 182-199: the parts of a result *)
  Definition visit_exp (e : oexp) : exp :=
    match e with
    | Plain o => as_typed G o
    | Part d n false => as_typed G (Op (VReg n (RES d)))
    | Part d n true => as_typed G (Op (VReg 1 (FLAG d)))
    end.
  (** 101-107 addCheck; smack.c:1407-1410 *)
  Definition add_check (d : string) (flag : value) : list (stmt exp op) :=
    [ assign (ARG d) (ICast ZExt 1 32 flag);
      assign (ISZ d) (IIcmp EQ 32 (VReg 32 (ARG d)) (VConst 32 0));
      assign (COND d) (ICast ZExt 1 32 (VReg 1 (ISZ d)));
      SPrim None Assert [as_typed G (Op (VReg 32 (COND d)))] ].
  (** 113-120 addBlockingAssume *)
  Definition add_blocking_assume (d : string) (flag : value) : list (stmt exp op) :=
    [ assign (NOTF d) (IBin Xor false 1 flag (VConst 1 1));
      assign (ARG2 d) (ICast ZExt 1 32 (VReg 1 (NOTF d)));
      SPrim None Assume [as_typed G (Op (VReg 32 (ARG2 d)))] ].
  (** 122-205; [checked]: shouldCheckFunction of the function's name.  The last
      case is no LLVM code. *)
  Definition visit_stmt (checked : bool) (s : stmt oexp oop) : list (stmt exp op) :=
    match s with
    | SAssign x e => [SAssign x (visit_exp e)]
    | SPrim x (OBase o) es => [SPrim x o (map visit_exp es)]
    | SPrim (Some d) (With sg op n) [Plain (Op a); Plain (Op b)] =>
        map (fun xi => assign (fst xi) (snd xi)) (OverflowChecker.checked_arith d sg op n a b) ++
        (if checked then add_check d (VReg 1 (FLAG d)) else [])
    | SPrim (Some u) Handler [] =>
        (if checked then add_check u (VConst 1 1) else []) ++ add_blocking_assume u (VConst 1 1)
    | _ => []
    end.
  (** calls that may unwind are not modelled (no_oinvoke) *)
  Definition base_of (o : oop) : op := match o with OBase o => o | _ => Assert end.
  Definition visit_term (t : term val oexp oop) : term val exp op :=
    match t with
    | TRet e => TRet (option_map visit_exp e)
    | TBr l => TBr l
    | TCond e l1 l2 => TCond (visit_exp e) l1 l2
    | TSwitch e d c => TSwitch (visit_exp e) d c
    | TInvoke x o es n u => TInvoke x (base_of o) (map visit_exp es) n u
    | TResume e => TResume (visit_exp e)
    | TUnreachable => TUnreachable
    end.
  Definition visit_phi (ph : string * list (label * oexp)) : string * list (label * exp) :=
    (fst ph, map (fun le => (fst le, visit_exp (snd le))) (snd ph)).
  Definition visit_block (checked : bool) (b : block val oexp oop) : block val exp op :=
    Block (map visit_phi (phis b)) (flat_map (visit_stmt checked) (body b)) (visit_term (bterm b)).
  Definition visit_func (checked : bool) (f : func val oexp oop) : func val exp op :=
    Func (params f) (entry f) (map (fun b => (fst b, visit_block checked (snd b))) (blocks f)).
End Pass.

(** runOnModule: 122-209.  Functions of SMACK's library (:129-130) are left
    alone; they use no checked arithmetic and are not part of the program. *)
Definition overflow_fn (checked : bool) (F : ofn) : fn :=
  Fn (widths_after (owidths F) (opairs F)) (visit_func (owidths F) (opairs F) checked (ocode F)) (oloops F).
Definition overflow_pass (should_check : string -> bool) (p : oprogram) : program :=
  map (fun fF => (fst fF, overflow_fn (should_check (fst fF)) (snd fF))) p.
