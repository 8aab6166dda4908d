(** Specification: well-formed vector instructions, and what it means for a Boogie
    value to stand for a lane. *)
From Coq Require Import ZArith List String Bool.
From Verif.Spec Require Import LLVMInt IR Encodings VectorOps.
From Verif.Model Require Import Boogie PreludeInt SmackRepInt Vectors VectorSem.
Import ListNotations.
Open Scope Z_scope.

Definition bits (T : lty) : Z := match T with LI w => w | LV n w => Z.of_nat n * w end.
Definition legal (T : lty) : Prop := match T with LI w => In w INTEGER_SIZES | LV n w => (1 <= n)%nat /\ In w INTEGER_SIZES end.
Definition is_vector (T : lty) : Prop := match T with LV _ _ => True | LI _ => False end.

(** The instruction is legal LLVM at widths SMACK declares.  Casts: those with a
    vector as result. *)
Definition well_formed (i : vinst) : Prop :=
  match i with
  | IVBin _ n w | IVCmp _ n w => legal (LV n w)
  | IVCast (VCast c) src dst =>
      match src, dst with LV n w1, LV n' w2 => n = n' /\ legal src /\ legal dst /\ cast_ok c w1 w2 | _, _ => False end
  | IVCast VBitCast src dst => legal src /\ legal dst /\ is_vector dst /\ bits src = bits dst
  | IVShuffle n w n' mask => legal (LV n w) /\ legal (LV n' w) /\ List.length mask = n' /\
      Forall (fun m => 0 <= m < 2 * Z.of_nat n) mask
  | IVInsert n w iw | IVExtract n w iw => legal (LV n w) /\ legal (LI iw)
  end.

(** [v] stands for the bit pattern [x]; an i1 is exactly 0 or 1. *)
Definition lane (enc : encoding) (w : Z) (v : val) (x : Z) : Prop :=
  is_iN w x /\ represents enc w v x /\ (w = 1 -> v = truth enc (x =? 1)).
(** The scalar operation is exact on these operands (Spec/Encodings.v). *)
Definition exact_on (enc : encoding) (bw : binop -> Z -> Prop) (e : event) : Prop :=
  match enc with BitVector => True | WrappedInteger => wrapped_exact bw e | UnboundedInteger => unbounded_exact bw e end.
Definition known_bitwise (enc : encoding) (bvptr : bool) (I : interp) (bw : binop -> Z -> Prop) : Prop :=
  enc = BitVector \/ bitwise_knowledge enc bvptr I bw.
Definition lanes_exact (enc : encoding) (bw : binop -> Z -> Prop) (ev : Z -> Z -> event) (xs ys : list Z) : Prop :=
  Forall2 (fun x y => exact_on enc bw (ev x y)) xs ys.

(** A vector value with these lanes. *)
Definition vector (O : opts) (w : Z) (ls : list val) : vval := VV (List.length ls) (intType O w) ls.

(** The instructions whose declarations Boogie accepts. *)
Definition supported_inst (enc : encoding) (i : vinst) : Prop :=
  match i with
  | IVCmp _ _ w => w = 1
  | IVInsert _ _ _ | IVExtract _ _ _ => enc <> BitVector
  | _ => True
  end.
(** No conversion between different numbers of lanes, and with bit-vectors none
    between different widths. *)
Definition lane_count (T : lty) : nat := match T with LI _ => 1%nat | LV n _ => n end.
Definition keeps_lanes (enc : encoding) (i : vinst) : Prop :=
  match i with
  | IVCast c src dst => lane_count src = lane_count dst /\ (enc = BitVector -> c = VBitCast)
  | _ => True
  end.

(** The LLVM types of an instruction's operands and of its result. *)
Definition inst_types (i : vinst) : list lty * lty :=
  match i with
  | IVBin _ n w => ([LV n w; LV n w], LV n w)
  | IVCmp _ n w => ([LV n w; LV n w], LV n 1)
  | IVCast _ src dst => ([src], dst)
  | IVShuffle n w n' _ => ([LV n w; LV n w], LV n' w)
  | IVInsert n w iw => ([LV n w; LI w; LI iw], LV n w)
  | IVExtract n w iw => ([LV n w; LI iw], LI w)
  end.
