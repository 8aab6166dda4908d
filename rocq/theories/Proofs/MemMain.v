(** Loads and stores emitted for memory regions: main lemmas (C17). *)
From Coq Require Import ZArith List String Bool Lia ZifyBool FunctionalExtensionality.
From Verif.Base Require Import ZBits.
From Verif.Spec Require Import LLVMInt IR ByteMemory Encodings Pointers.
From Verif.Model Require Import Boogie PreludeInt SmackRepInt PreludeMem.
From Verif.Proofs Require Import Lookup PreludeCalls ExprSim EvalCompose MemCalls ByteMem PtrProofs.
Import ListNotations.
Open Scope string_scope.
Open Scope list_scope.
Open Scope Z_scope.

Section MM.
  Context (enc : encoding) (bvptr : bool) (P : Z) (prog : list fdecl) (I : interp).
  Notation fl := (flags enc bvptr).
  Hypothesis Hext : extends prog (preludeMem fl P).
  Hypothesis HP : ptr_width P.
  Notation ev := (evaluates prog I).

  Lemma pointer_ptr : forall a, pointer bvptr P a = ptr fl P a.
  Proof. intros. unfold pointer, ptr. now rewrite flags_bpp. Qed.
  Lemma map_pdom : forall c m, memory_map bvptr P c m = VMap (pdom fl P) c m.
  Proof. intros. unfold memory_map, pdom. now rewrite flags_bpp. Qed.
  Lemma address_paddr : forall a, address bvptr P a -> paddr fl P a.
  Proof. intros a H. unfold paddr. now rewrite flags_bpp. Qed.

  (** bytewise regions *)
  Lemma store_bytes : forall R r n p v a m x, enc = BitVector -> bytewise R = true -> singleton R = false ->
    In n INTEGER_SIZES -> n < 8 \/ n mod 8 = 0 -> address bvptr P a -> is_iN n x ->
    r (reg R) = Some (memory_map bvptr P (Some 8) m) ->
    ev r p (pointer bvptr P a) -> ev r v (VBv n x) ->
    exists m', ev r (snd (store R (NBv n) p v)) (memory_map bvptr P (Some 8) m') /\
      written (byte_addr bvptr P a) (bytes_needed n) x m m'.
  Proof.
    intros R r n p v a m x He Hb Hs Hn Hw Ha Hx HR Hp Hv.
    unfold store. rewrite Hs, Hb. cbn [snd]. rewrite map_pdom in HR. rewrite pointer_ptr in Hp.
    destruct (calls_store_bytes fl P prog I Hext HP ltac:(rewrite He; reflexivity) ltac:(rewrite He; reflexivity)
                n a m x Hn Hw (address_paddr a Ha) Hx) as (m' & H1 & H2).
    exists m'. rewrite flags_bpp in H2. split; [|exact H2]. rewrite map_pdom.
    eapply ev_fun; [|exact H1]. constructor; [apply ev_var; (exact HR || exact HR' || reflexivity)|]. constructor; [exact Hp|]. constructor; [exact Hv|constructor].
  Qed.
  Lemma load_bytes : forall R r n p a m, enc = BitVector -> bytewise R = true -> singleton R = false ->
    In n INTEGER_SIZES -> n < 8 \/ n mod 8 = 0 -> address bvptr P a -> byte_memory m ->
    r (reg R) = Some (memory_map bvptr P (Some 8) m) -> ev r p (pointer bvptr P a) ->
    exists v, ev r (load R (NBv n) p) (VBv n (pat n v)) /\
      reads_as (byte_addr bvptr P a) (bytes_needed n) m v.
  Proof.
    intros R r n p a m He Hb Hs Hn Hw Ha Hm HR Hp.
    unfold load. rewrite Hs, Hb. rewrite map_pdom in HR. rewrite pointer_ptr in Hp.
    destruct (calls_load_bytes fl P prog I Hext HP ltac:(rewrite He; reflexivity) ltac:(rewrite He; reflexivity)
                n a m Hn Hw (address_paddr a Ha) Hm) as (v & H1 & H2).
    exists v. rewrite flags_bpp in H2. split; [|exact H2].
    eapply ev_fun; [|exact H1]. constructor; [apply ev_var; (exact HR || exact HR' || reflexivity)|]. constructor; [exact Hp|constructor].
  Qed.

  Lemma bytes_bound : forall n, 1 <= n -> n < 8 \/ n mod 8 = 0 -> n <= 8 * bytes_needed n.
  Proof.
    intros n H Hw. unfold bytes_needed. pose proof (Z.div_mod (n + 7) 8 ltac:(lia)). pose proof (Z.mod_pos_bound (n + 7) 8 ltac:(lia)). lia.
  Qed.

  Lemma written_byte_memory : forall a k v m m', 0 <= k -> byte_memory m -> written (byte_addr bvptr P a) k v m m' -> byte_memory m'.
  Proof.
    intros a k v m m' Hk Hm Hw. apply (written_bytes _ _ _ _ _ Hm Hw). intros q. clear Hw.
    assert (exists kn, k = Z.of_nat kn) as [kn ->] by (exists (Z.to_nat k); lia). clear Hk.
    induction kn as [|j IH]; [right; intros; lia|].
    destruct IH as [(i & Hi & E)|IH]; [left; exists i; split; [lia|exact E]|].
    destruct (Z.eq_dec q (byte_addr bvptr P a (Z.of_nat j))) as [E|E]; [left; exists (Z.of_nat j); split; [lia|exact E]|].
    right. intros i Hi. destruct (Z.eq_dec i (Z.of_nat j)) as [->|]; [exact E|apply IH; lia].
  Qed.

  Lemma store_load_bytes : forall R r n p v a m x, enc = BitVector -> bytewise R = true -> singleton R = false ->
    In n INTEGER_SIZES -> n < 8 \/ n mod 8 = 0 -> address bvptr P a -> is_iN n x -> byte_memory m ->
    r (reg R) = Some (memory_map bvptr P (Some 8) m) ->
    ev r p (pointer bvptr P a) -> ev r v (VBv n x) ->
    exists M', ev r (snd (store R (NBv n) p v)) M' /\
      forall p', ev (upd_env r (fst (store R (NBv n) p v)) M') p' (pointer bvptr P a) ->
        ev (upd_env r (fst (store R (NBv n) p v)) M') (load R (NBv n) p') (VBv n x).
  Proof.
    intros R r n p v a m x He Hb Hs Hn Hw Ha Hx Hm HR Hp Hv.
    destruct (store_bytes R r n p v a m x He Hb Hs Hn Hw Ha Hx HR Hp Hv) as (m' & H1 & H2).
    exists (memory_map bvptr P (Some 8) m'). split; [exact H1|]. intros p' Hp'.
    pose proof (size_pos n Hn) as H1n. pose proof (bytes_bound n H1n Hw) as Hbb.
    assert (0 <= bytes_needed n) as Hk by (unfold bytes_needed; apply Z.div_pos; lia).
    set (r' := upd_env r _ _) in *.
    assert (r' (reg R) = Some (memory_map bvptr P (Some 8) m')) as HR'.
    { unfold r', upd_env. cbn [store fst]. now rewrite String.eqb_refl. }
    destruct (load_bytes R r' n p' a m' He Hb Hs Hn Hw Ha (written_byte_memory a _ _ _ _ Hk Hm H2) HR' Hp') as (w & L1 & L2).
    assert (reads_as (byte_addr bvptr P a) (bytes_needed n) m' x) as L3.
    { apply (written_reads _ _ _ m); [assumption| |exact H2]. destruct Hx as [X1 X2]. split; [assumption|].
      pose proof (pow2_le n (8 * bytes_needed n) ltac:(lia)). lia. }
    rewrite (reads_as_unique _ _ _ _ _ Hk L2 L3) in L1. now rewrite pat_id in L1.
  Qed.

  (** A width of at least eight bits that is not a multiple of eight reads as a
      narrower bit-vector, the top bits are neither written nor read. *)
  Lemma load_bytes_short : forall R r n p a m, enc = BitVector -> bytewise R = true -> singleton R = false ->
    In n INTEGER_SIZES -> 8 < n -> n mod 8 <> 0 -> address bvptr P a -> byte_memory m ->
    r (reg R) = Some (memory_map bvptr P (Some 8) m) -> ev r p (pointer bvptr P a) ->
    exists v, ev r (load R (NBv n) p) (VBv (8 * (n / 8)) v) /\ reads_as (byte_addr bvptr P a) (n / 8) m v.
  Proof.
    intros R r n p a m He Hb Hs Hn Hw Hmod Ha Hm HR Hp.
    unfold load. rewrite Hs, Hb. rewrite map_pdom in HR. rewrite pointer_ptr in Hp.
    pose proof (size_le n Hn) as Hle.
    assert (1 <= n / 8) as Hq by (apply Z.div_le_lower_bound; lia).
    assert (Z.of_nat (Z.to_nat (n / 8 - 1)) + 1 = n / 8) as E by lia.
    assert ((Z.to_nat (n / 8 - 1) <= 255)%nat) as H255.
    { pose proof (Z.div_lt n 8 ltac:(lia) ltac:(lia)). lia. }
    set (rr := upd_env (upd_env empty_env "p" (ptr fl P a)) "M" (VMap (pdom fl P) (Some 8) m)).
    destruct (ev_loadBody fl P prog I Hext HP rr a m (Z.to_nat (n / 8 - 1)) (address_paddr a Ha) Hm eq_refl eq_refl H255) as (v & H1 & H2).
    rewrite E in H1, H2. rewrite flags_bpp in H2. exists v. split; [|exact H2].
    assert (bitPrecise fl = true) as Hbp by (rewrite He; reflexivity).
    eapply ev_fun; [constructor; [apply ev_var; (exact HR || exact HR' || reflexivity)|]; constructor; [exact Hp|constructor]|].
    eapply calls_inline; [rewrite (lookup_load_bytes fl P prog Hext n Hbp Hn); unfold intMemFuncs; rewrite Hbp; reflexivity|reflexivity..|].
    destruct (Z.ltb_spec n 8); [lia|]. destruct (Z.eqb_spec n 8); [lia|]. exact H1.
  Qed.

  (** typed regions, any encoding: one cell per address *)
  Lemma calls_safeLoad : forall t c m a, lookup prog (indexedName "$load" [t]) = Some (safeLoad fl P t) -> address bvptr P a ->
    calls prog I (indexedName "$load" [t]) [memory_map bvptr P c m; pointer bvptr P a] (scalar_of c (m a)).
  Proof.
    intros t c m a Hl Ha. rewrite map_pdom, pointer_ptr. eapply calls_inline; [exact Hl|reflexivity..|].
    pose proof (ev_mapSel fl P prog I Hext HP
      (upd_env (upd_env empty_env "p" (ptr fl P a)) "M" (VMap (pdom fl P) c m)) a 0 c m (address_paddr a Ha) eq_refl eq_refl ltac:(lia)) as E.
    rewrite A_0 in E by (now apply address_paddr). exact E.
  Qed.
  Lemma calls_safeStore : forall t c m a v y, lookup prog (indexedName "$store" [t]) = Some (safeStore fl P ("i", t)) -> address bvptr P a ->
    to_scalar c v = Some y ->
    calls prog I (indexedName "$store" [t]) [memory_map bvptr P c m; pointer bvptr P a; v]
      (memory_map bvptr P c (fun q => if q =? a then y else m q)).
  Proof.
    intros t c m a v y Hl Ha Hy. rewrite !map_pdom, pointer_ptr. eapply calls_inline; [exact Hl|reflexivity..|].
    pose proof (ev_mapUpd fl P prog I Hext HP
      (upd_env (upd_env (upd_env empty_env "i" v) "p" (ptr fl P a)) "M" (VMap (pdom fl P) c m))
      a 0 c m (EVar "i") v y None (address_paddr a Ha) eq_refl ltac:(lia)) as E.
    rewrite A_0 in E by (now apply address_paddr). apply E; [apply ev_var; reflexivity|apply ev_var; reflexivity|exact Hy].
  Qed.

  Definition elem_type (t : tyname) : Prop :=
    t = NRef \/ exists n, In n INTEGER_SIZES /\ t = intType fl n.

  Lemma elem_lookup : forall t, elem_type t ->
    lookup prog (indexedName "$load" [t]) = Some (safeLoad fl P t) /\
    lookup prog (indexedName "$store" [t]) = Some (safeStore fl P ("i", t)).
  Proof.
    intros t [->|(n & Hn & ->)].
    - split; [exact (lookup_load_ref fl P prog Hext)|exact (lookup_store_ref fl P prog Hext)].
    - split; [exact (lookup_load_int fl P prog Hext n Hn)|exact (lookup_store_int fl P prog Hext n Hn)].
  Qed.

  Lemma load_typed : forall R r t p a c m, bytewise R = false -> singleton R = false -> elem_type t -> address bvptr P a ->
    r (reg R) = Some (memory_map bvptr P c m) -> ev r p (pointer bvptr P a) ->
    ev r (load R t p) (scalar_of c (m a)).
  Proof.
    intros R r t p a c m Hb Hs Ht Ha HR Hp. unfold load. rewrite Hs, Hb.
    eapply ev_fun; [constructor; [apply ev_var; exact HR|]; constructor; [exact Hp|constructor]|].
    apply calls_safeLoad; [apply elem_lookup, Ht|exact Ha].
  Qed.
  Lemma store_typed : forall R r t p v a c m x y, bytewise R = false -> singleton R = false -> elem_type t -> address bvptr P a ->
    r (reg R) = Some (memory_map bvptr P c m) -> ev r p (pointer bvptr P a) -> ev r v x -> to_scalar c x = Some y ->
    ev r (snd (store R t p v)) (memory_map bvptr P c (fun q => if q =? a then y else m q)).
  Proof.
    intros R r t p v a c m x y Hb Hs Ht Ha HR Hp Hv Hy. unfold store. rewrite Hs, Hb. cbn [snd].
    eapply ev_fun; [constructor; [apply ev_var; exact HR|]; constructor; [exact Hp|]; constructor; [exact Hv|constructor]|].
    apply calls_safeStore; [apply elem_lookup, Ht|exact Ha|exact Hy].
  Qed.

  (** ** ptrtoint *)
  Lemma ev_pointerToInteger : forall r e w v a, exact_encoding enc -> In w INTEGER_SIZES ->
    ev r e v -> is_iN P a -> points_to bvptr P v a ->
    exists v', ev r (pointerToInteger fl P e w) v' /\ represents enc w v' (llvm_ptrtoint P w a).
  Proof.
    intros r e w v a Henc Hw He Ha Hv. unfold pointerToInteger, bitConversion, llvm_ptrtoint. rewrite flags_bpp.
    assert (1 <= P) as HP1 by (destruct HP as [->| ->]; lia). pose proof (ptr_width_size P HP) as HPS.
    pose proof (size_pos w Hw) as Hw1.
    destruct Henc as [Ee|Ee].
    - assert (bitPrecise fl = true) as Hbp by (rewrite Ee; reflexivity).
      assert (wrappedIntegerEncoding fl = false) as Hwf by (rewrite Ee; reflexivity).
      rewrite Hbp.
      assert (ev r (if Bool.eqb bvptr true then e else
         EFun (indexedName (if bvptr then "$bv2int" else "$int2bv") [NNum P]) [e]) (VBv P a)) as Hc.
      { unfold points_to in Hv. destruct bvptr; cbn [Bool.eqb]; [now subst v|].
        destruct Hv as (z & -> & <-). eapply ev_fun; [constructor; [exact He|constructor]|].
        exact (calls_int2bv _ _ P prog I Hext HP z). }
      exists (VBv w (pat w a)). split; [|rewrite Ee; reflexivity].
      unfold intType. rewrite Hbp. destruct (Z.ltb_spec P w); [|destruct (Z.ltb_spec w P)].
      + rewrite (pat_id w a) by (apply is_iN_widen with P; [lia|assumption]).
        eapply ev_fun; [constructor; [exact Hc|constructor]|]. exists 1%nat.
        exact (b_ext fl prog I (ext_int fl P prog Hext) Hbp Hwf false 0%nat P w a HPS Hw ltac:(lia)).
      + eapply ev_fun; [constructor; [exact Hc|constructor]|]. exists 1%nat.
        exact (b_trunc fl prog I (ext_int fl P prog Hext) Hbp Hwf 0%nat P w a HPS Hw ltac:(lia)).
      + replace w with P by lia. now rewrite pat_id.
    - assert (bitPrecise fl = false) as Hbp by (rewrite Ee; reflexivity).
      assert (wrappedIntegerEncoding fl = true) as Hwt by (rewrite Ee; reflexivity).
      rewrite Hbp.
      assert (exists z, ev r (if Bool.eqb bvptr false then e else
         EFun (indexedName (if bvptr then "$bv2int" else "$int2bv") [NNum P]) [e]) (VInt z) /\ pat P z = a) as (z & Hc & Hz).
      { unfold points_to in Hv. destruct bvptr eqn:Eb; cbn [Bool.eqb].
        - subst v. exists a. split; [|now apply pat_id]. eapply ev_fun; [constructor; [exact He|constructor]|].
          apply (calls_bv2int_nat enc true P prog I Hext). rewrite Hbp. reflexivity.
        - destruct Hv as (z & -> & Hz). now exists z. }
      assert (forall v', (exists z', v' = VInt z' /\ pat w z' = pat w a) -> represents enc w v' (pat w a)) as Hrep
        by (intros v' H; rewrite Ee; exact H).
      unfold intType. rewrite Hbp. destruct (Z.ltb_spec P w); [|destruct (Z.ltb_spec w P)].
      + exists (VInt a). split; [|apply Hrep; now exists a].
        eapply ev_fun; [constructor; [exact Hc|constructor]|]. exists 3%nat.
        rewrite (c_zext fl prog I (ext_int fl P prog Hext) Hbp 0%nat P w z HPS Hw ltac:(lia)).
        unfold wrapU. now rewrite Hwt, Hz.
      + exists (VInt (pat w z)). split; [|apply Hrep; exists (pat w z); split; [reflexivity|]].
        * eapply ev_fun; [constructor; [exact Hc|constructor]|]. exists 3%nat.
          rewrite (c_trunc fl prog I (ext_int fl P prog Hext) Hbp 0%nat P w z HPS Hw ltac:(lia)).
          unfold wrapU. now rewrite Hwt.
        * rewrite pat_pat, <- Hz, pat_narrow by lia. reflexivity.
      + exists (VInt z). split; [exact Hc|]. apply Hrep. exists z. split; [reflexivity|].
        replace w with P by lia. rewrite Hz. symmetry. now apply pat_id.
  Qed.

  (** ** inttoptr *)
  Lemma ev_inttoptr : forall r e w v x, exact_encoding enc -> In w INTEGER_SIZES -> is_iN w x ->
    ev r e v -> represents enc w v x ->
    exists v', ev r (integerToPointer fl P e w) v' /\ points_to bvptr P v' (llvm_inttoptr P w x).
  Proof.
    intros r e w v x Henc Hw Hx He Hr.
    assert (1 <= P) as HP1 by (destruct HP as [->| ->]; lia).
    destruct (ev_integerToPointer enc bvptr P prog I Hext HP r e w v x Hw Hx He Hr) as (z & Hz & Hs).
    eexists. split; [exact Hz|]. unfold points_to, llvm_inttoptr.
    assert (pat P z = pat P x) as E.
    { destruct Henc as [-> | ->]; [|exact Hs]. subst z. destruct bvptr; [apply pat_pat|].
      apply signed_pat; [lia|apply pat_range; lia]. }
    destruct bvptr; [now rewrite E|]. now exists z.
  Qed.

  (** ** Pointers stored bytewise *)
  Lemma psize_bytes : P < 8 \/ P mod 8 = 0.
  Proof. right. destruct HP as [->| ->]; reflexivity. Qed.

  (** the bit pattern of a pointer, and the pointer read from a pattern *)
  Lemma calls_p2i : forall z, enc = BitVector -> address bvptr P z ->
    calls prog I (indexedName "$p2i" [NRef; NBv P]) [pointer bvptr P z] (VBv P (pat P z)).
  Proof.
    intros z Ee Ha. assert (bitPrecise fl = true) as Hbp by (rewrite Ee; reflexivity).
    assert (In P [8; 16; 32; 64]) as HPi by (destruct HP as [->| ->]; cbn; tauto).
    pose proof (lookup_p2i fl P prog Hext P HPi) as L. unfold intType in L. rewrite Hbp in L.
    eapply calls_inline; [exact L|reflexivity..|].
    unfold pointerToInteger, bitConversion. rewrite flags_bpp, Hbp, Z.ltb_irrefl.
    unfold pointer, address in *. destruct bvptr; cbn [Bool.eqb].
    - rewrite pat_id by (apply Ha; reflexivity). apply ev_var. reflexivity.
    - apply ev_fun with [VInt z]; [constructor; [apply ev_var; reflexivity|constructor]|].
      exact (calls_int2bv _ _ P prog I Hext HP z).
  Qed.
  Lemma calls_i2p : forall a, enc = BitVector -> is_iN P a ->
    calls prog I (indexedName "$i2p" [NBv P; NRef]) [VBv P a] (pointer bvptr P (if bvptr then a else signed P a)).
  Proof.
    intros a Ee Ha. assert (bitPrecise fl = true) as Hbp by (rewrite Ee; reflexivity).
    assert (In P [8; 16; 32; 64]) as HPi by (destruct HP as [->| ->]; cbn; tauto).
    pose proof (lookup_i2p fl P prog Hext P HPi) as L. unfold intType in L. rewrite Hbp in L.
    eapply calls_inline; [exact L|reflexivity..|].
    unfold integerToPointer, bitConversion. rewrite flags_bpp, Hbp, Z.ltb_irrefl.
    unfold pointer, address in *. destruct bvptr eqn:Eb; cbn [Bool.eqb].
    - apply ev_var. reflexivity.
    - apply ev_fun with [VBv P a]; [constructor; [apply ev_var; reflexivity|constructor]|].
      exact (calls_bv2int_signed enc false P prog I Hext HP a Ee eq_refl Ha).
  Qed.

  Lemma ptr_store_load : forall R r p v a z m, enc = BitVector -> bytewise R = true -> singleton R = false ->
    address bvptr P a -> address bvptr P z -> byte_memory m ->
    r (reg R) = Some (memory_map bvptr P (Some 8) m) ->
    ev r p (pointer bvptr P a) -> ev r v (pointer bvptr P z) ->
    exists m', ev r (snd (store R NRef p v)) (memory_map bvptr P (Some 8) m') /\
      written (byte_addr bvptr P a) (P / 8) (pat P z) m m' /\
      forall p' r', r' (reg R) = Some (memory_map bvptr P (Some 8) m') -> ev r' p' (pointer bvptr P a) ->
        ev r' (load R NRef p') (pointer bvptr P (if bvptr then z else signed P (pat P z))).
  Proof.
    intros R r p v a z m Ee Hb Hs Ha Hz Hm HR Hp Hv.
    assert (1 <= P) as HP1 by (destruct HP as [->| ->]; lia). pose proof (ptr_width_size P HP) as HPS.
    assert (bitPrecise fl = true) as Hbp by (rewrite Ee; reflexivity).
    assert (wrappedIntegerEncoding fl = false) as Hwf by (rewrite Ee; reflexivity).
    assert (bytes_needed P = P / 8) as Eb by (destruct HP as [->| ->]; reflexivity).
    assert (is_iN P (pat P z)) as Hpz by (apply pat_range; lia).
    destruct (calls_store_bytes fl P prog I Hext HP Hbp Hwf P a m (pat P z) HPS psize_bytes (address_paddr a Ha) Hpz) as (m' & H1 & H2).
    rewrite flags_bpp, Eb in H2. exists m'. split; [|split; [exact H2|]].
    - unfold store. rewrite Hs, Hb. cbn [snd]. rewrite map_pdom in *. rewrite pointer_ptr in Hp.
      eapply ev_fun; [constructor; [apply ev_var; (exact HR || exact HR' || reflexivity)|]; constructor; [exact Hp|]; constructor; [exact Hv|constructor]|].
      eapply calls_inline; [rewrite (lookup_store_bytes_ref fl P prog Hext Hbp); unfold ptrMemDecls; rewrite Hbp; reflexivity|reflexivity..|].
      eapply ev_fun; [|exact H1]. constructor; [apply ev_var; (exact HR || exact HR' || reflexivity)|]. constructor; [apply ev_var; reflexivity|].
      constructor; [|constructor].
      apply ev_fun with [pointer bvptr P z]; [constructor; [apply ev_var; reflexivity|constructor]|].
      now apply calls_p2i.
    - intros p' r' HR' Hp'. rewrite map_pdom in HR'. rewrite pointer_ptr in Hp'.
      assert (0 <= P / 8) as Hk by (apply Z.div_pos; lia).
      destruct (calls_load_bytes fl P prog I Hext HP Hbp Hwf P a m' HPS psize_bytes (address_paddr a Ha)
                  (written_byte_memory a _ _ _ _ Hk Hm H2)) as (w & L1 & L2).
      rewrite flags_bpp, Eb in L2.
      assert (reads_as (byte_addr bvptr P a) (P / 8) m' (pat P z)) as L3.
      { apply (written_reads _ _ _ m); [assumption| |exact H2].
        replace (8 * (P / 8)) with P by (destruct HP as [->| ->]; reflexivity). exact Hpz. }
      rewrite (reads_as_unique _ _ _ _ _ Hk L2 L3), pat_pat in L1.
      unfold load. rewrite Hs, Hb.
      eapply ev_fun; [constructor; [apply ev_var; (exact HR || exact HR' || reflexivity)|]; constructor; [exact Hp'|constructor]|].
      eapply calls_inline; [rewrite (lookup_load_bytes_ref fl P prog Hext Hbp); unfold ptrMemDecls; rewrite Hbp; reflexivity|reflexivity..|].
      apply ev_fun with [VBv P (pat P z)].
      + constructor; [|constructor]. eapply ev_fun; [|exact L1].
        constructor; [apply ev_var; (exact HR || exact HR' || reflexivity)|]. constructor; [apply ev_var; reflexivity|constructor].
      + pose proof (calls_i2p (pat P z) Ee Hpz) as C. destruct bvptr; [|exact C].
        rewrite (pat_id P z) in C at 2 by (apply Hz; reflexivity). exact C.
  Qed.

  (** ** getelementptr, for pointers seen as addresses *)
  Lemma as_pointer : forall v a, is_iN P a -> points_to bvptr P v a ->
    exists z, v = ptr fl P z /\ pat P z = a /\ paddr fl P z.
  Proof.
    intros v a Ha Hv. unfold points_to, ptr, paddr in *. rewrite flags_bpp. destruct bvptr.
    - exists a. split; [exact Hv|]. split; [now apply pat_id|]. intros _. exact Ha.
    - destruct Hv as (z & -> & E). exists z. split; [reflexivity|]. split; [exact E|discriminate].
  Qed.
  Lemma pointer_as : forall z a, paddr fl P z -> pat P z = a -> points_to bvptr P (ptr fl P z) a.
  Proof.
    intros z a Hz E. unfold points_to, ptr, paddr in *. rewrite flags_bpp in *. destruct bvptr.
    - f_equal. rewrite <- E. symmetry. apply pat_id. now apply Hz.
    - now exists z.
  Qed.

  Lemma gep_points : forall r e v a l ss, is_iN P a -> ev r e v -> points_to bvptr P v a ->
    Forall2 (index_of enc P prog I r) l ss ->
    exists v', ev r (ptrArith fl P e l) v' /\ points_to bvptr P v' (llvm_gep P a ss).
  Proof.
    intros r e v a l ss Ha He Hv Hl. destruct (as_pointer v a Ha Hv) as (z & -> & Hz & Hr).
    destruct (gep_exact enc bvptr P prog I Hext HP r l ss Hl e z He) as (z' & H1 & H2 & H3 & _).
    exists (ptr fl P z'). split; [exact H1|]. apply pointer_as; [auto|].
    rewrite H2. unfold llvm_gep. rewrite <- Hz, pat_add_l. reflexivity.
  Qed.

  Lemma gep_negative : exact_encoding enc -> forall r e v a w i vi x size, is_iN P a -> ev r e v -> points_to bvptr P v a ->
    In w INTEGER_SIZES -> w < P -> is_iN w x -> signed w x < 0 -> 0 <= size < 2 ^ P ->
    ev r i vi -> represents enc w vi x ->
    exists v', ev r (ptrArith fl P e [GVar w i size]) v' /\
      points_to bvptr P v' (pat P (llvm_gep P a [Index w x size] + 2 ^ w * size)).
  Proof.
    intros Henc r e v a w i vi x size Ha He Hv Hw Hlt Hx Hneg Hs Hi Hr.
    destruct (as_pointer v a Ha Hv) as (z & -> & Hz & _).
    destruct (gep_narrow_negative enc bvptr P prog I Hext HP r e z w i vi x size Henc Hw Hlt Hx Hneg Hs He Hi Hr) as (z' & H1 & H2 & H3).
    exists (ptr fl P z'). split; [exact H1|]. apply pointer_as; [exact H2|]. rewrite H3.
    unfold llvm_gep. rewrite <- Hz, (pat_add_l P z). reflexivity.
  Qed.
End MM.

Lemma gep_integer : forall enc P prog I, extends prog (preludeMem (flags enc false) P) -> ptr_width P -> enc <> WrappedInteger ->
  forall r e z l ss, evaluates prog I r e (VInt z) -> Forall2 (index_of enc P prog I r) l ss ->
    (forall w x s, In (Index w x s) ss -> w <= P) ->
    evaluates prog I r (ptrArith (flags enc false) P e l) (VInt (z + gep_offset ss)).
Proof.
  intros enc P prog I Hext HP Hne r e z l ss He Hl Hw.
  assert (forall y, ptr (flags enc false) P y = VInt y) as Hp by (intros y; unfold ptr; now rewrite flags_bpp).
  destruct (gep_exact enc false P prog I Hext HP r l ss Hl e z) as (z' & H1 & _ & _ & H2); [now rewrite Hp|].
  rewrite Hp in H1. rewrite <- H2; [exact H1|reflexivity|exact Hne|].
  apply Forall_forall. intros [off|w x s] Hin; cbn; [trivial|]. now apply (Hw w x s).
Qed.
