(** C09, C10: checked integer arithmetic.  Specification: Spec/Overflow.v. *)
From Coq Require Import ZArith List String Ascii Bool Lia.
From Verif.Spec Require Import LLVMInt IR Overflow Encodings.
From Verif.Model Require Import Boogie PreludeInt SmackRepInt OverflowChecker.
From Verif.Proofs Require Import ExprSim OverflowProofs OverflowBoogie.
From Verif.Props Require Import IntProps.
Import ListNotations.
Open Scope string_scope.
Open Scope list_scope.
Open Scope Z_scope.

(** ** C09 *)
(** The code put in place of llvm.{s,u}{add,sub,mul}.with.overflow.iN: its
    registers [RES d] and [FLAG d] replace the two parts of the result [d].
    [plain]: a register of the source program, not one of the new ones. *)
Theorem C09_value_and_flag :
  forall d sg op n x y r a b,
    1 <= n -> is_iN n a -> is_iN n b -> plain x -> plain y ->
    r x = Some a -> r y = Some b ->
    exists r', run_code r (checked_arith d sg op n (VReg n x) (VReg n y)) = Some r' /\
      r' (RES d) = Some (ovf_value sg op n a b) /\
      r' (FLAG d) = Some (ovf_flag sg op n a b) /\
      (forall z, plain z -> r' z = r z).
Proof.
  intros d sg op n x y r a b Hn Ha Hb Px Py Hx Hy.
  destruct (checked_arith_run d sg op n (VReg n x) (VReg n y) r a b Hn Hx Hy) as (r' & H1 & H2 & H3 & H4); auto.
  - cbn [value_den]. rewrite set_other; [exact Hy|]. intro H. symmetry in H. revert H. apply Py. lia.
  - exists r'. repeat split; auto. intros z Hz. apply H4. intros k Hk. apply Hz. lia.
Qed.
Print Assumptions C09_value_and_flag.

(** The same after translation to Boogie, in both exact encodings (the prelude
    must declare both widths). *)
Theorem C09_boogie_exact :
  forall enc bvptr ndebug I bw d sg op n x y rb vx vy a b l,
    exact_encoding enc -> bitwise_knowledge enc bvptr I bw ->
    program_widths ndebug n -> program_widths ndebug (n * 2) ->
    is_iN n a -> is_iN n b -> plain x -> plain y ->
    rb x = Some vx -> rb y = Some vy -> represents enc n vx a -> represents enc n vy b ->
    translate_code enc bvptr ndebug (checked_arith d sg op n (VReg n x) (VReg n y)) = Some l ->
    exists fuel rb' v, run_assigns (prelude_of enc bvptr) I fuel rb l = Some rb' /\
      rb' (RES d) = Some v /\ represents enc n v (ovf_value sg op n a b) /\
      rb' (FLAG d) = Some (truth enc (overflows sg op n a b)).
Proof. exact ovf_exact. Qed.
Print Assumptions C09_boogie_exact.

(** Even with the default unbounded integers the signed flag is exact; the
    value part is then the mathematical result. *)
Theorem C09_boogie_default_signed :
  forall bvptr ndebug I d op n x y rb a b l,
    meets_axioms (flags UnboundedInteger bvptr) I ->
    program_widths ndebug n -> program_widths ndebug (n * 2) ->
    is_iN n a -> is_iN n b -> plain x -> plain y ->
    rb x = Some (VInt (signed n a)) -> rb y = Some (VInt (signed n b)) ->
    translate_code UnboundedInteger bvptr ndebug (checked_arith d true op n (VReg n x) (VReg n y)) = Some l ->
    exists fuel rb', run_assigns (prelude_of UnboundedInteger bvptr) I fuel rb l = Some rb' /\
      rb' (FLAG d) = Some (VInt (ovf_flag true op n a b)) /\
      rb' (RES d) = Some (VInt (math_result true op n a b)).
Proof. exact ovf_unbounded_signed. Qed.
Print Assumptions C09_boogie_default_signed.

(** 33-bit operands: the pass widens to 66 bits, a width the prelude does not
    declare; the translated call has no meaning. *)
Theorem C09_undeclared_width_refuted :
  exists n, width_supported n /\ ~ width_supported (n * 2) /\
    lookup (prelude_of BitVector false) (indexedName "$sext" [NBv n; NBv (n * 2)]) = None.
Proof. exists 33. split; [cbv; tauto|]. split; [cbv; intuition discriminate|vm_compute; reflexivity]. Qed.
Print Assumptions C09_undeclared_width_refuted.

Lemma plain_x : forall c s, (10 <= nat_of_ascii c)%nat -> plain (String c s).
Proof.
  intros c s Hc k d Hk E. unfold fresh in E. injection E as E _. subst c.
  rewrite nat_ascii_embedding in Hc by lia. lia.
Qed.
(** i32: 2^31-1 + 1 overflows, value -2^31; unsigned it does not. *)
Example C09_nonvacuous :
  ovf_flag true OAdd 32 (2^31 - 1) 1 = 1 /\ ovf_value true OAdd 32 (2^31 - 1) 1 = 2^31 /\
  ovf_flag false OAdd 32 (2^31 - 1) 1 = 0 /\ ovf_flag false OSub 32 0 1 = 1 /\
  ovf_flag true OMul 32 (2^31) (2^32 - 1) = 1 /\
  plain "x" /\ plain "y" /\ program_widths true 32 /\ program_widths true (32 * 2) /\
  (exists l, translate_code WrappedInteger false true (checked_arith "d" true OMul 32 (VReg 32 "x") (VReg 32 "y")) = Some l /\
     exists rb', run_assigns (prelude_of WrappedInteger false) (machine_interp WrappedInteger) 5
       (env2 (VInt (2^31)) (VInt (-1))) l = Some rb' /\ rb' (FLAG "d") = Some (VInt 1) /\ rb' (RES "d") = Some (VInt (2^31))).
Proof.
  do 5 (split; [vm_compute; reflexivity|]). do 2 (split; [apply plain_x; cbv; lia|]).
  split; [split; [cbv; tauto|cbv; discriminate]|]. split; [split; [cbv; tauto|cbv; discriminate]|].
  eexists. split; [reflexivity|]. eexists. repeat split; vm_compute; reflexivity.
Qed.

(** ** C10 *)
(** Any instruction sequence in SSA form.  [R]: registers defined on entry.
    [reference report stop]: what should happen ([report]: overflows are to be
    reported, i.e. the option is on and the function is a checked one).
    If the reference run is defined, the rewritten sequence ends the same way,
    and on completion every source register has the same value under the name
    the pass gave it. *)
Theorem C10_pass_behaviour :
  forall integerOverflow checked G R c r,
    ssa G R [] c -> (forall x, In x (R ++ defs c) -> plain x) ->
    (forall x n a, G x = Some n -> r x = Some a -> is_iN n a) ->
    same_ending (uses_map c) (R ++ defs c)
      (reference (integerOverflow && checked) integerOverflow r (fun _ => None) c)
      (run_tinsts r (overflow_pass integerOverflow checked c)).
Proof. exact pass_correct. Qed.
Print Assumptions C10_pass_behaviour.

(** Consequences spelled out: an overflow is reported exactly when ... *)
Theorem C10_reported_iff :
  forall checked G R c r,
    ssa G R [] c -> (forall x, In x (R ++ defs c) -> plain x) ->
    (forall x n a, G x = Some n -> r x = Some a -> is_iN n a) ->
    reference checked true r (fun _ => None) c <> Undefined ->
    (run_tinsts r (overflow_pass true checked c) = OverflowReported <->
     reference checked true r (fun _ => None) c = OverflowReported).
Proof.
  intros ck G R c r Hs Hp Hr Hu. pose proof (pass_correct true ck G R c r Hs Hp Hr) as H. cbn [andb] in H.
  destruct (reference ck true r (fun _ => None) c), (run_tinsts r (overflow_pass true ck c)); cbn in H;
    try tauto; split; congruence.
Qed.
Print Assumptions C10_reported_iff.
Theorem C10_unchecked_never_reported :
  forall integerOverflow c r,
    run_tinsts r (overflow_pass integerOverflow false c) <> OverflowReported.
Proof.
  intros io c. unfold overflow_pass. generalize (uses_map c) as s. intros s.
  assert (forall l r, (forall t, In t l -> match t with TCheck _ => False | _ => True end) ->
            run_tinsts r l <> OverflowReported) as H.
  { induction l as [|t l IH]; intros r Hl; cbn [run_tinsts]; [discriminate|].
    assert (forall t, In t l -> match t with TCheck _ => False | _ => True end) as Hl' by (intros; apply Hl; now right).
    destruct t as [x i|v|v].
    - destruct (inst_den r i); [now apply IH|discriminate].
    - destruct (Hl (TCheck v)). now left.
    - destruct (value_den r v) as [z|]; [|discriminate]. destruct (z =? 0); [discriminate|now apply IH]. }
  intros r. apply H. intros t Ht. apply in_flat_map in Ht. destruct Ht as (i & _ & Hi).
  destruct i; cbn in Hi.
  - destruct Hi as [<-|[]]. exact Logic.I.
  - rewrite andb_false_r in Hi. cbn in Hi.
    repeat (destruct Hi as [<-|Hi]; [exact Logic.I|]). destruct Hi.
  - destruct Hi.
  - destruct io; cbn in Hi; [|destruct Hi]. repeat (destruct Hi as [<-|Hi]; [exact Logic.I|]). destruct Hi.
Qed.
Print Assumptions C10_unchecked_never_reported.

Definition ocode1 : ocode :=
  [ OWith "d" true OAdd 32 (VReg 32 "x") (VConst 32 1);
    OExtract "v" "d" false; OExtract "f" "d" true;
    OPlain "w" (IBin Mul false 32 (VReg 32 "v") (VReg 32 "v"));
    OWith "e" false OSub 32 (VReg 32 "w") (VReg 32 "v");
    OExtract "u" "e" false ].
Definition G10 : string -> option Z := fun z => if String.eqb z "f" then Some 1 else Some 32.
Example C10_nonvacuous :
  ssa G10 ["x"] [] ocode1 /\ (forall x, In x (["x"] ++ defs ocode1) -> plain x) /\
  run_tinsts (set_reg (fun _ => None) "x" (2^31 - 1)) (overflow_pass true true ocode1) = OverflowReported /\
  run_tinsts (set_reg (fun _ => None) "x" (2^32 - 1)) (overflow_pass true true ocode1) <> OverflowReported /\
  (exists r, run_tinsts (set_reg (fun _ => None) "x" (2^31 - 1)) (overflow_pass true false ocode1) = Completed r /\
             r (RES "e") = Some (2^31)).
Proof.
  split; [|split; [|split; [|split]]].
  - cbn. unfold positive, is_iN, incl. cbn.
    repeat split; try lia; try (intuition congruence);
      solve [exists 32; split; [intuition congruence|reflexivity]].
  - intros x Hx. cbn in Hx. repeat (destruct Hx as [<-|Hx]; [apply plain_x; cbv; lia|]). destruct Hx.
  - vm_compute. reflexivity.
  - vm_compute. discriminate.
  - eexists. split; vm_compute; reflexivity.
Qed.
