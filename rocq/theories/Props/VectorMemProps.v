(** C79: loads and stores of vectors. *)
From Coq Require Import ZArith List Bool.
From Verif.Spec Require Import VectorMem.
From Verif.Model Require Import VectorMem.
Import ListNotations.
Open Scope list_scope.

(** A region without a map. *)
Definition lone (bytes : bool) (r : region) : bool := singleton r && negb bytes.
Lemma memType_lone bytes r : memType bytes r = if lone bytes r then One (cell_type r) else MapOf (cell_type r).
Proof. unfold memType, lone. now destruct (singleton r), bytes. Qed.
Lemma dname_decl bytes rs a : dname (decl_of bytes rs a) =
  match a with Load r et _ => LOAD et (cell_type (rs r)) | Store r et _ _ => STORE et (cell_type (rs r)) end.
Proof. now destruct a. Qed.
Lemma dmem_decl bytes rs a : dmem (decl_of bytes rs a) = memType bytes (rs (part a)).
Proof. now destruct a. Qed.
Lemma dbody_decl bytes rs a : dbody (decl_of bytes rs a) = if ty_dec (cell_type (rs (part a))) (atype a) then true else false.
Proof. now destruct a. Qed.
Lemma same_name bytes rs a b : dname (decl_of bytes rs a) = dname (decl_of bytes rs b) <->
  same_kind a b /\ atype a = atype b /\ cell_type (rs (part a)) = cell_type (rs (part b)).
Proof. rewrite !dname_decl. destruct a, b; cbn; split; try discriminate; try tauto; [intros H; injection H; auto|intros (_ & -> & ->); auto|intros H; injection H; auto|intros (_ & -> & ->); auto]. Qed.

Lemma add_in tbl d x : In x (add tbl d) -> In x tbl \/ x = d.
Proof. unfold add. destruct (existsb _ tbl); auto. rewrite in_app_iff. cbn. intuition. Qed.
Lemma add_keeps tbl d x : In x tbl -> In x (add tbl d).
Proof. unfold add. destruct (existsb _ tbl); auto. rewrite in_app_iff. auto. Qed.
Lemma add_has tbl d : exists x, In x (add tbl d) /\ dname x = dname d.
Proof.
  unfold add. destruct (existsb _ tbl) eqn:E.
  - apply existsb_exists in E. destruct E as (x & Hx & H). destruct (name_dec _ _); [eauto|discriminate].
  - exists d. rewrite in_app_iff. cbn. auto.
Qed.
Lemma decls_spec bytes rs l : forall tbl,
  (forall x, In x (fold_left (fun t a => add t (decl_of bytes rs a)) l tbl) -> In x tbl \/ exists a, In a l /\ x = decl_of bytes rs a) /\
  (forall x, In x tbl -> In x (fold_left (fun t a => add t (decl_of bytes rs a)) l tbl)) /\
  (forall a, In a l -> exists x, In x (fold_left (fun t a => add t (decl_of bytes rs a)) l tbl) /\ dname x = dname (decl_of bytes rs a)).
Proof.
  induction l as [|a l IH]; cbn; intros tbl.
  - split; [auto|split; [auto|intros a []]].
  - destruct (IH (add tbl (decl_of bytes rs a))) as (H1 & H2 & H3). split; [|split].
    + intros x Hx. destruct (H1 x Hx) as [H|(b & Hb & ->)]; [|eauto]. destruct (add_in _ _ _ H) as [H'|H']; subst; eauto.
    + intros x Hx. apply H2, add_keeps, Hx.
    + intros b [<-|Hb]; [|auto]. destruct (add_has tbl (decl_of bytes rs a)) as (x & Hx & E). eauto.
Qed.
Lemma found bytes rs l a : In a l -> exists b, In b l /\ dname (decl_of bytes rs b) = dname (decl_of bytes rs a) /\
  In (decl_of bytes rs b) (declarations bytes rs l) /\
  find (fun x => if name_dec (dname x) (dname (decl_of bytes rs a)) then true else false) (declarations bytes rs l) = Some (decl_of bytes rs b).
Proof.
  intros Ha. destruct (decls_spec bytes rs l []) as (H1 & _ & H3). fold (declarations bytes rs l) in *.
  destruct (find _ (declarations bytes rs l)) as [d|] eqn:E.
  - apply find_some in E. destruct E as [Hd En]. destruct (H1 d Hd) as [[]|(b & Hb & ->)].
    exists b. destruct (name_dec _ _); [auto|discriminate].
  - destruct (H3 a Ha) as (x & Hx & Hn). pose proof (find_none _ _ E x Hx) as H. cbn in H. destruct (name_dec _ _); [discriminate|congruence].
Qed.

(** Boogie accepts the translation just if no singleton region is accessed with the type of its contents, and no two accesses of the
    same kind and types are to a singleton region and to another one. *)
Theorem C79_accepted bytes regions l :
  accepted bytes regions l = true <->
  (forall a, In a l -> lone bytes (regions (part a)) = true -> cell_type (regions (part a)) <> atype a) /\
  (forall a b, In a l -> In b l -> same_kind a b -> atype a = atype b -> cell_type (regions (part a)) = cell_type (regions (part b)) ->
     lone bytes (regions (part a)) = lone bytes (regions (part b))).
Proof.
  unfold accepted. rewrite andb_true_iff, !forallb_forall. split.
  - intros [Hw Hc].
    assert (Hm : forall a, In a l -> exists b, In b l /\ dname (decl_of bytes regions b) = dname (decl_of bytes regions a) /\
        In (decl_of bytes regions b) (declarations bytes regions l) /\
        find (fun x => if name_dec (dname x) (dname (decl_of bytes regions a)) then true else false) (declarations bytes regions l) = Some (decl_of bytes regions b) /\
        memType bytes (regions (part b)) = memType bytes (regions (part a))).
    { intros a Ha. destruct (found bytes regions l a Ha) as (b & Hb & Hn & Hi & Hf). exists b. repeat split; auto.
      specialize (Hc a Ha). unfold call_typed in Hc. rewrite Hf, dmem_decl in Hc. destruct (mtype_dec _ _); [auto|discriminate]. }
    split.
    + intros a Ha Hl Ht. destruct (Hm a Ha) as (b & Hb & Hn & Hi & _ & Hmt). specialize (Hw _ Hi). unfold well_typed in Hw.
      rewrite dmem_decl, Hmt, memType_lone, Hl, dbody_decl in Hw.
      apply same_name in Hn. destruct Hn as (_ & Ht' & Hct). rewrite Hct, Ht', Ht in Hw. destruct (ty_dec _ _); [discriminate|congruence].
    + intros a b Ha Hb Hk Ht Hct.
      assert (Hn : dname (decl_of bytes regions a) = dname (decl_of bytes regions b)) by (apply same_name; auto).
      destruct (Hm a Ha) as (a' & _ & _ & _ & Hfa & Hma). destruct (Hm b Hb) as (b' & _ & _ & _ & Hfb & Hmb).
      rewrite Hn, Hfb in Hfa. injection Hfa as E.
      assert (Hmm : memType bytes (regions (part a)) = memType bytes (regions (part b))).
      { rewrite <- Hma, <- Hmb, <- !dmem_decl. now rewrite E. }
      rewrite !memType_lone in Hmm. destruct (lone bytes (regions (part a))), (lone bytes (regions (part b))); auto; discriminate.
  - intros [H1 H2]. split.
    + intros d Hd. destruct (decls_spec bytes regions l []) as (Hs & _ & _). destruct (Hs d Hd) as [[]|(a & Ha & ->)].
      unfold well_typed. rewrite dmem_decl, memType_lone, dbody_decl.
      destruct (lone bytes (regions (part a))) eqn:El; [|auto]. destruct (ty_dec _ _) as [E|]; [|auto]. now destruct (H1 a Ha El).
    + intros a Ha. destruct (found bytes regions l a Ha) as (b & Hb & Hn & _ & Hf). unfold call_typed. rewrite Hf, dmem_decl.
      apply same_name in Hn. destruct Hn as (Hk & Ht & Hct). rewrite !memType_lone, Hct, (H2 b a Hb Ha Hk Ht Hct).
      destruct (mtype_dec _ _); [auto|congruence].
Qed.
Print Assumptions C79_accepted.

(** Whatever the machine does when a vector is accessed in cells of another type: the functions may be such that the translation does just
    what the program does, for all programs and memories at once.  So no behaviour is lost. *)
Theorem C79_sound m : cellwise m ->
  exists I, forall bytes regions l, satisfies I (declarations bytes regions l) /\
    forall ms, exec I regions l ms = runs m (fun r => cell_type (regions r)) l ms.
Proof.
  intros Hc.
  exists (Interp (fun n mm p => match n with LOAD et mt => ld m et mt mm p | _ => [] end) (fun n mm p v => match n with STORE et mt => st m et mt mm p v | _ => mm end)).
  intros bytes regions l. split.
  - intros d Hd Hb. destruct (decls_spec bytes regions l []) as (Hs & _ & _). destruct (Hs d Hd) as [[]|(a & Ha & ->)].
    rewrite dbody_decl in Hb. destruct (ty_dec _ _) as [E|]; [|discriminate]. rewrite dname_decl.
    destruct a as [r et p|r et p v]; cbn in *; rewrite E; intros; [apply (Hc et f p0)|apply (proj2 (Hc et f p0))].
  - induction l as [|[r et p|r et p v] l IH]; cbn; intros ms; auto. rewrite IH. reflexivity.
Qed.
Print Assumptions C79_sound.

(** If the accessed regions hold vectors of the type they are accessed with, the translation does just what the program does. *)
Theorem C79_exact m bytes regions l I ms : cellwise m ->
  (forall a, In a l -> cell_type (regions (part a)) = atype a) -> satisfies I (declarations bytes regions l) ->
  (forall r, exists f, ms r = Cells f) ->
  exec I regions l ms = runs m (fun r => cell_type (regions r)) l ms.
Proof.
  intros Hc Ht Hs Hm.
  assert (Hb : forall a, In a l -> match dname (decl_of bytes regions a) with
     | LOAD _ _ => forall f p, ild I (dname (decl_of bytes regions a)) (Cells f) p = f p
     | STORE _ _ => forall f p v, ist I (dname (decl_of bytes regions a)) (Cells f) p v = Cells (fun q => if Z.eqb q p then v else f q)
     end).
  { intros a Ha. destruct (found bytes regions l a Ha) as (b & Hb & Hn & Hi & _).
    rewrite <- Hn. apply (Hs _ Hi). rewrite dbody_decl, (Ht b Hb). destruct (ty_dec _ _); [auto|congruence]. }
  clear Hs. revert ms Hm. induction l as [|a l IH]; cbn; intros ms Hm; auto.
  assert (IH' : forall ms, (forall r, exists f, ms r = Cells f) -> exec I regions l ms = runs m (fun r => cell_type (regions r)) l ms).
  { apply IH; intros; [apply Ht|apply Hb]; now right. }
  pose proof (Hb a (or_introl eq_refl)) as Ha. pose proof (Ht a (or_introl eq_refl)) as Hta. destruct a as [r et p|r et p v]; cbn in *.
  - rewrite (IH' ms Hm). destruct (Hm r) as [f Ef]. rewrite Ef. fold (cell_type (regions r)) in *. rewrite Ha, Hta, (proj1 (Hc et f p)). reflexivity.
  - destruct (Hm r) as [f Ef]. rewrite Ef. fold (cell_type (regions r)) in *. rewrite Ha, Hta, (proj2 (Hc et f p) v).
    apply IH'. intros r'. unfold set_mem. destruct (Nat.eqb r' r); eauto.
Qed.
Print Assumptions C79_exact.

(** It is not so that every program is accepted: none is that accesses a singleton region of vectors, such as a global vector variable. *)
Theorem C79_singleton_refuted :
  (forall n w p, accepted false (fun _ => Region true (Some (Vector n w))) [Load 0 (Vector n w) p] = false) /\
  (forall regions l a t, In a l -> regions (part a) = Region true (Some t) -> atype a = t -> accepted false regions l = false).
Proof.
  assert (H : forall regions l a t, In a l -> regions (part a) = Region true (Some t) -> atype a = t -> accepted false regions l = false).
  { intros regions l a t Ha Hr Ht. apply not_true_is_false. intros H. apply C79_accepted in H. destruct H as [H _].
    specialize (H a Ha). rewrite Hr in H. cbn in H. rewrite Ht in H. now apply H. }
  split; [|exact H]. intros n w p. eapply H; cbn; eauto.
Qed.
Print Assumptions C79_singleton_refuted.

(** Nor is one that loads a vector from a singleton region and from another one whose contents have the same type. *)
Theorem C79_mixed_refuted :
  forall et t p q, t <> et ->
    accepted false (fun r => Region (Nat.eqb r 0) (Some t)) [Load 0 et p] = true /\
    accepted false (fun r => Region (Nat.eqb r 0) (Some t)) [Load 1 et q] = true /\
    accepted false (fun r => Region (Nat.eqb r 0) (Some t)) [Load 0 et p; Load 1 et q] = false.
Proof.
  intros et t p q Ht. split; [|split].
  - apply C79_accepted. split.
    + intros a [<-|[]] _. exact Ht.
    + intros a b [<-|[]] [<-|[]]. auto.
  - apply C79_accepted. split.
    + intros a [<-|[]] H. discriminate H.
    + intros a b [<-|[]] [<-|[]]. auto.
  - apply not_true_is_false. intros H. apply C79_accepted in H. destruct H as [_ H].
    specialize (H (Load 0 et p) (Load 1 et q)). cbn in H. discriminate H; auto.
Qed.
Print Assumptions C79_mixed_refuted.

(** It is not so that what a vector store puts in cells of another type is known afterwards: the translation lets the next load give
    anything. *)
Theorem C79_forgets_refuted :
  forall regions et p v x ms, cell_type (regions 0) <> et ->
    exists I, satisfies I (declarations false regions [Store 0 et p v; Load 0 et p]) /\
      fst (exec I regions [Store 0 et p v; Load 0 et p] ms) = [x].
Proof.
  intros regions et p v x ms Ht. exists (Interp (fun _ _ _ => x) (fun _ mm _ _ => mm)). split; [|reflexivity].
  intros d Hd Hb. destruct (decls_spec false regions [Store 0 et p v; Load 0 et p] []) as (Hs & _ & _).
  destruct (Hs d Hd) as [[]|(a & Ha & ->)]. rewrite dbody_decl in Hb. destruct (ty_dec _ _) as [E|]; [|discriminate].
  destruct Ha as [<-|[<-|[]]]; cbn in E; congruence.
Qed.
Print Assumptions C79_forgets_refuted.

(** A machine that puts the lanes of a vector of bytes one after the other. *)
Definition byte_machine : machine :=
  Machine
    (fun et mt mm p => match mm with
       | Cells f => if ty_dec et mt then f p else match et with Vector n _ => flat_map (fun i => f (p + Z.of_nat i)%Z) (seq 0 n) | _ => [] end
       | Cell v => v end)
    (fun et mt mm p v => match mm with
       | Cells f => if ty_dec et mt then Cells (upd f p v)
                    else Cells (fun q => if (p <=? q)%Z && (q <? p + Z.of_nat (List.length v))%Z then [nth (Z.to_nat (q - p)) v 0%Z] else f q)
       | Cell _ => Cell v end).
Example C79_nonvacuous :
  let regions := fun r => match r with 0 => Region false (Some (Vector 2 32)) | 1 => Region false None | _ => Region true (Some (Int 64)) end in
  let l := [Store 0 (Vector 2 32) 8 [5; 6]%Z; Store 1 (Vector 4 8) 8 [1; 2; 3; 4]%Z; Load 1 (Vector 2 8) 9; Load 0 (Vector 2 32) 8; Load 0 (Vector 2 32) 16; Load 2 (Vector 2 32) 0] in
  let ms := fun r => match r with 2 => Cell [7%Z] | _ => Cells (fun _ => [0%Z]) end in
  cellwise byte_machine /\ accepted false regions l = true /\ of_vectors l /\
  fst (runs byte_machine (fun r => cell_type (regions r)) l ms) = [[2; 3]; [5; 6]; [0]; [7]]%Z /\
  map dbody (declarations false regions l) = [true; false; false; true; false].
Proof.
  split; [|split; [vm_compute; reflexivity|split; [|split; vm_compute; reflexivity]]].
  - intros t f p. cbn. destruct (ty_dec t t); [auto|congruence].
  - intros a H. repeat (destruct H as [<-|H]; [exact I|]). destruct H.
Qed.
