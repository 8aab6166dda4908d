(** Scanning the printed text of a syntax tree gives its tokens. *)
From Coq Require Import ZArith List String Ascii Bool Lia NArith.
From Verif.Spec Require Import Identifiers BoogieSyntax.
From Verif.Model Require Import BoogieAst.
Import ListNotations.
Open Scope string_scope.
Open Scope list_scope.
Open Scope Z_scope.

(** ** Tokens of a tree *)
Fixpoint commas (l : list (list token)) : list token :=
  match l with [] => [] | [x] => x | x :: l' => x ++ TSym "," :: commas l' end.
Fixpoint toks_ty (t : ty) : list token :=
  match t with
  | TName x => [if reserved x then TKw x else TId x]
  | TMap args r => TSym "[" :: commas (map toks_ty args) ++ TSym "]" :: toks_ty r
  end.
Definition toks_binding (b : binding) : list token := TId (fst b) :: TSym ":" :: toks_ty (snd b).
Fixpoint toks (e : expr) : list token :=
  match e with
  | Num n => if n <? 0 then [TSym "-"; TNum (- n)] else [TNum n]
  | BvNum n w => [TBv n w]
  | FpNum x => [TFloat x]
  | BoolLit b => [TKw (if b then "true" else "false")]
  | RMode m => [TKw m]
  | Var x => [TId x]
  | Fun f args => TId f :: TSym "(" :: commas (map toks args) ++ [TSym ")"]
  | Bin o l r => TSym "(" :: toks l ++ TSym (op_text o) :: toks r ++ [TSym ")"]
  | BvConcat l r => TSym "(" :: toks l ++ TSym "++" :: toks r ++ [TSym ")"]
  | Neg e => TSym "-" :: TSym "(" :: toks e ++ [TSym ")"]
  | Not e => TSym "!" :: TSym "(" :: toks e ++ [TSym ")"]
  | Quant q vars e =>
      TSym "(" :: TKw (match q with QForall => "forall" | QExists => "exists" end) ::
      commas (map toks_binding vars) ++ TSym "::" :: toks e ++ [TSym ")"]
  | Sel m idx => toks m ++ TSym "[" :: commas (map toks idx) ++ [TSym "]"]
  | Upd m idx v => toks m ++ TSym "[" :: commas (map toks idx) ++ TSym ":=" :: toks v ++ [TSym "]"]
  | Extract e hi lo => toks e ++ [TSym "["; TNum hi; TSym ":"; TNum lo; TSym "]"]
  | Bounds hi lo => []
  | Ite c t e => TSym "(" :: TKw "if" :: toks c ++ TKw "then" :: toks t ++ TKw "else" :: toks e ++ [TSym ")"]
  end.
Definition toks_aval (v : aval) : list token := match v with AStr s => [TStr s] | AExpr e => toks e end.
Definition toks_attr (a : attr) : list token := TSym "{" :: TSym ":" :: TId (at_name a) :: commas (map toks_aval (at_vals a)) ++ [TSym "}"].
Definition toks_attrs (l : list attr) : list token := flat_map toks_attr l.
Definition toks_stmt (s : stmt) : list token :=
  match s with
  | Assert a e => TKw "assert" :: toks_attrs a ++ toks e ++ [TSym ";"]
  | Assume a e => TKw "assume" :: toks_attrs a ++ toks e ++ [TSym ";"]
  | Assign l r => commas (map toks l) ++ TSym ":=" :: commas (map toks r) ++ [TSym ";"]
  | Call a rets p args =>
      TKw "call" :: toks_attrs a ++ (match rets with [] => [] | _ => commas (map (fun x => [TId x]) rets) ++ [TSym ":="] end) ++
      TId p :: TSym "(" :: commas (map toks args) ++ [TSym ")"; TSym ";"]
  | Goto l => TKw "goto" :: commas (map (fun x => [TId x]) l) ++ [TSym ";"]
  | Havoc l => TKw "havoc" :: commas (map (fun x => [TId x]) l) ++ [TSym ";"]
  | Return => [TKw "return"; TSym ";"]
  | Comment _ => []
  end.
Definition toks_block (b : block) : list token :=
  (if String.eqb (b_name b) "" then [] else [TId (b_name b); TSym ":"]) ++ flat_map toks_stmt (b_stmts b).
Definition toks_var (b : binding) : list token := TKw "var" :: toks_binding b ++ [TSym ";"].
Definition toks_proc (p : proc) : list token :=
  TKw "procedure" :: toks_attrs (pr_attrs p) ++ TId (pr_name p) :: TSym "(" :: commas (map toks_binding (pr_params p)) ++ TSym ")" ::
  (match pr_rets p with [] => [] | rs => TKw "returns" :: TSym "(" :: commas (map toks_binding rs) ++ [TSym ")"] end) ++
  (match pr_blocks p with [] => [TSym ";"] | _ => [] end) ++
  (match pr_mods p with [] => [] | l => TKw "modifies" :: commas (map (fun x => [TId x]) l) ++ [TSym ";"] end) ++
  flat_map (fun e => TKw "requires" :: toks e ++ [TSym ";"]) (pr_requires p) ++
  flat_map (fun e => TKw "ensures" :: toks e ++ [TSym ";"]) (pr_ensures p) ++
  (match pr_blocks p with [] => [] | bs => TSym "{" :: flat_map toks_var (pr_locals p) ++ flat_map toks_block bs ++ [TSym "}"] end).
Definition toks_decl (d : decl) : list token :=
  match d with
  | DType a x alias => TKw "type" :: toks_attrs a ++ TId x :: (match alias with Some t => TSym "=" :: toks_ty t | None => [] end) ++ [TSym ";"]
  | DAxiom a e => TKw "axiom" :: toks_attrs a ++ toks e ++ [TSym ";"]
  | DConst a u x t => TKw "const" :: toks_attrs a ++ (if u then [TKw "unique"] else []) ++ TId x :: TSym ":" :: toks_ty t ++ [TSym ";"]
  | DFun a f ps t body =>
      TKw "function" :: toks_attrs a ++ TId f :: TSym "(" :: commas (map toks_binding ps) ++ TSym ")" :: TKw "returns" :: TSym "(" :: toks_ty t ++ TSym ")" ::
      (match body with Some e => TSym "{" :: toks e ++ [TSym "}"] | None => [TSym ";"] end)
  | DVar _ x t => toks_var (x, t)
  | DProc p => toks_proc p
  end.

(** ** Scanning *)
Definition lx (s : string) (ts : list token) : Prop := eventually (fun k => tokens k s = Some ts).
Lemma lx_nil : lx "" [].
Proof. exists O. intros [|k] _; reflexivity. Qed.
Lemma lx_tok s t r ts : scan s = Some (Some t, r) -> lx r ts -> lx s (t :: ts).
Proof.
  intros E [k0 H]. exists (S k0). intros [|k] Hk; [lia|].
  destruct s; [discriminate|]. cbn [tokens]. rewrite E, H by lia. reflexivity.
Qed.
Lemma lx_skip s r ts : scan s = Some (None, r) -> lx r ts -> lx s ts.
Proof.
  intros E [k0 H]. exists (S k0). intros [|k] Hk; [lia|].
  destruct s; [discriminate|]. cbn [tokens]. rewrite E, H by lia. reflexivity.
Qed.

(** What may follow a word or a number. *)
Definition delim (r : string) : Prop :=
  match r with
  | EmptyString => True
  | String c s => ident_char c = false /\ c <> "-"%char /\ (c = "+"%char -> exists s', s = String "+" s')
  end.
Definition lexes (s : string) (ts : list token) : Prop :=
  forall rest tr, delim rest -> lx rest tr -> lx (s ++ rest)%string (ts ++ tr).

Lemma sapp_assoc a b c : ((a ++ b) ++ c)%string = (a ++ b ++ c)%string.
Proof. induction a; cbn; [reflexivity | rewrite IHa; reflexivity]. Qed.
Lemma sapp_nil a : (a ++ "")%string = a.
Proof. induction a; cbn; [reflexivity | rewrite IHa; reflexivity]. Qed.

Lemma span_app p a r : all p a = true -> match r with String c _ => p c = false | "" => True end -> span p (a ++ r)%string = (a, r).
Proof.
  intros Ha Hr. induction a as [|c a IH]; cbn in *.
  - destruct r; [reflexivity|]. cbn. rewrite Hr. reflexivity.
  - apply andb_prop in Ha as [-> Ha]. rewrite (IH Ha). reflexivity.
Qed.

(** Facts about single characters, by cases. *)
Ltac chars c := destruct c as [[] [] [] [] [] [] [] []].
Lemma nondigit_facts c : nondigit c = true ->
  white c = false /\ Ascii.eqb "/" c = false /\ Ascii.eqb c """" = false /\ Ascii.eqb "-" c = false /\ Ascii.eqb "0" c = false.
Proof. chars c; vm_compute; intros H; try discriminate H; repeat split; reflexivity. Qed.
Lemma digit_facts c : digit c = true ->
  white c = false /\ Ascii.eqb "/" c = false /\ Ascii.eqb c """" = false /\ Ascii.eqb "-" c = false /\ nondigit c = false /\
  Ascii.eqb "x" c = false /\ Ascii.eqb "N" c = false /\ Ascii.eqb "+" c = false /\ Ascii.eqb "b" c = false.
Proof. chars c; vm_compute; intros H; try discriminate H; repeat split; reflexivity. Qed.
Lemma delim_facts c : ident_char c = false ->
  Ascii.eqb "x" c = false /\ Ascii.eqb "N" c = false /\ Ascii.eqb "b" c = false /\ digit c = false.
Proof. chars c; vm_compute; intros H; try discriminate H; repeat split; reflexivity. Qed.
Lemma fp_char_ident c : fp_char c = true -> ident_char c = true \/ c = "-"%char.
Proof. chars c; vm_compute; intros H; try discriminate H; auto. Qed.

Definition shaped (x : string) : Prop := match x with EmptyString => False | String c s => nondigit c = true /\ all ident_char s = true end.
Lemma scan_word x r : shaped x -> delim r -> scan (x ++ r)%string = Some (Some (if reserved x then TKw x else TId x), r).
Proof.
  destruct x as [|c x]; [intros []|]. intros [Hc Hx] Hr.
  assert (E : span ident_char (String c x ++ r)%string = (String c x, r)).
  { apply span_app; [cbn; unfold ident_char at 1; rewrite Hc; exact Hx|]. destruct r; [exact I | exact (proj1 Hr)]. }
  change (String c x ++ r)%string with (String c (x ++ r)) in *.
  destruct (nondigit_facts c Hc) as (W & F1 & F2 & F3 & F4).
  unfold scan. cbn [strip]. rewrite W, F1, F2. unfold scan_float, scan_float_from. cbn [map strip]. rewrite F3, F4. cbn [first_some].
  rewrite Hc, E. reflexivity.
Qed.
Lemma scan_name x r : name x -> delim r -> scan (x ++ r)%string = Some (Some (TId x), r).
Proof. intros [H1 H2] Hr. rewrite (scan_word x r H1 Hr), H2. reflexivity. Qed.
Lemma lexes_word x : shaped x -> lexes x [if reserved x then TKw x else TId x].
Proof. intros H r tr Hd Hr. eapply lx_tok; [exact (scan_word x r H Hd) | exact Hr]. Qed.
Lemma lexes_name x : name x -> lexes x [TId x].
Proof. intros H r tr Hd Hr. eapply lx_tok; [exact (scan_name x r H Hd) | exact Hr]. Qed.

(** Numbers *)
Lemma no_float d r : d <> "" -> all digit d = true ->
  match r with
  | EmptyString => True
  | String c s => Ascii.eqb "x" c = false /\ Ascii.eqb "N" c = false /\ c <> "-"%char /\ (c = "+"%char -> exists s', s = String "+" s')
  end ->
  scan_float (d ++ r)%string = None.
Proof.
  intros Hd Ha Hr. destruct d as [|c d]; [contradiction|]. cbn in Ha. apply andb_prop in Ha as [Hc Ha].
  destruct (digit_facts c Hc) as (_ & _ & _ & F1 & _ & _).
  unfold scan_float, scan_float_from. cbn [append map strip]. rewrite F1. destruct (Ascii.eqb "0" c); [|reflexivity].
  destruct d as [|c' d].
  - cbn [append]. destruct r as [|c' r]; [reflexivity|]. destruct Hr as (R1 & R2 & R3 & R4). rewrite R1, R2.
    destruct (Ascii.eqb_spec "-" c') as [<-|_]; [congruence|]. destruct (Ascii.eqb_spec "+" c') as [<-|_]; [|reflexivity].
    destruct (R4 eq_refl) as [s' ->]. reflexivity.
  - cbn in Ha. apply andb_prop in Ha as [Hc' Ha]. destruct (digit_facts c' Hc') as (_ & _ & _ & G1 & _ & G2 & G3 & G4 & _).
    cbn [append strip]. rewrite G1, G2, G3, G4. reflexivity.
Qed.
Lemma scan_digits d r : d <> "" -> all digit d = true -> delim r -> scan (d ++ r)%string = Some (Some (TNum (number d)), r).
Proof.
  intros Hd Ha Hr.
  assert (NF : scan_float (d ++ r)%string = None).
  { apply no_float; auto. destruct r; [exact I|]. destruct Hr as (R1 & R2 & R3). destruct (delim_facts _ R1) as (? & ? & _). auto. }
  assert (SP : span digit (d ++ r)%string = (d, r)).
  { apply span_app; auto. destruct r; [exact I|]. exact (proj2 (proj2 (proj2 (delim_facts _ (proj1 Hr))))). }
  destruct d as [|c d]; [contradiction|]. cbn in Ha. apply andb_prop in Ha as [Hc Ha].
  destruct (digit_facts c Hc) as (W & F1 & F2 & F3 & F4 & _).
  change (String c d ++ r)%string with (String c (d ++ r)) in *.
  unfold scan. cbn [strip]. rewrite W, F1, F2, NF, F4, Hc, SP.
  destruct r as [|c' r]; [reflexivity|]. destruct (delim_facts _ (proj1 Hr)) as (_ & _ & B & _). cbn [strip]. rewrite B, (proj1 Hr). reflexivity.
Qed.
Lemma scan_bv d w r : d <> "" -> all digit d = true -> w <> "" -> all digit w = true -> delim r ->
  scan (d ++ "bv" ++ w ++ r)%string = Some (Some (TBv (number d) (number w)), r).
Proof.
  intros Hd Ha Hw Hb Hr.
  assert (NF : scan_float (d ++ "bv" ++ w ++ r)%string = None).
  { apply no_float; auto. repeat split; discriminate. }
  assert (SP : span digit (d ++ "bv" ++ w ++ r)%string = (d, "bv" ++ w ++ r)%string) by (apply span_app; auto; reflexivity).
  assert (SW : span digit (w ++ r)%string = (w, r)).
  { apply span_app; auto. destruct r; [exact I|]. exact (proj2 (proj2 (proj2 (delim_facts _ (proj1 Hr))))). }
  destruct d as [|c d]; [contradiction|]. cbn in Ha. apply andb_prop in Ha as [Hc Ha].
  destruct (digit_facts c Hc) as (W & F1 & F2 & F3 & F4 & _).
  change (String c d ++ "bv" ++ w ++ r)%string with (String c (d ++ "bv" ++ w ++ r)) in *.
  unfold scan. cbn [strip]. rewrite W, F1, F2, NF, F4, Hc, SP.
  cbn [append strip Ascii.eqb Bool.eqb]. unfold span1. rewrite SW.
  destruct w; [contradiction|]. destruct r as [|c' r]; [reflexivity|]. rewrite (proj1 Hr). reflexivity.
Qed.

Lemma digit_of_digit d : 0 <= d < 10 -> digit (digit_of d) = true /\ Z.of_N (code (digit_of d) - 48) = d.
Proof.
  intros H. assert (d = 0 \/ d = 1 \/ d = 2 \/ d = 3 \/ d = 4 \/ d = 5 \/ d = 6 \/ d = 7 \/ d = 8 \/ d = 9) as K by lia.
  repeat (destruct K as [->|K]; [split; reflexivity|]). subst. split; reflexivity.
Qed.
Lemma all_app p a b : all p (a ++ b)%string = all p a && all p b.
Proof. induction a; cbn; [reflexivity|]. rewrite IHa, andb_assoc. reflexivity. Qed.
Lemma list_app a b : list_ascii_of_string (a ++ b)%string = list_ascii_of_string a ++ list_ascii_of_string b.
Proof. induction a; cbn; [reflexivity|]. rewrite IHa. reflexivity. Qed.
Lemma dec_from_spec k : forall n, 0 <= n -> (Z.to_nat n < k)%nat -> dec_from k n <> "" /\ all digit (dec_from k n) = true /\ number (dec_from k n) = n.
Proof.
  induction k as [|k IH]; intros n Hn Hk; [lia|]. cbn [dec_from]. destruct (Z.ltb_spec n 10).
  - destruct (digit_of_digit n ltac:(lia)) as [D1 D2]. repeat split; [discriminate | cbn; rewrite D1; reflexivity | unfold number; cbn; exact D2].
  - pose proof (Z.div_mod n 10 ltac:(lia)). pose proof (Z.mod_pos_bound n 10 ltac:(lia)).
    assert (0 <= n / 10 < n) by (split; [apply Z.div_pos; lia | apply Z.div_lt; lia]).
    destruct (IH (n / 10) ltac:(lia) ltac:(lia)) as (I1 & I2 & I3).
    destruct (digit_of_digit (n mod 10) ltac:(lia)) as [D1 D2]. repeat split.
    + destruct (dec_from k (n / 10)); [contradiction | discriminate].
    + rewrite all_app, I2. cbn. rewrite D1. reflexivity.
    + unfold number in *. rewrite list_app, fold_left_app, I3. cbn [list_ascii_of_string fold_left]. rewrite D2. lia.
Qed.
Lemma dec_spec n : 0 <= n -> dec n <> "" /\ all digit (dec n) = true /\ number (dec n) = n.
Proof. intros H. apply dec_from_spec; [exact H | lia]. Qed.
Lemma lexes_dec n : 0 <= n -> lexes (dec n) [TNum n].
Proof.
  intros H r tr Hd Hr. destruct (dec_spec n H) as (A & B & C). eapply lx_tok; [|exact Hr].
  rewrite (scan_digits _ r A B Hd), C. reflexivity.
Qed.
Lemma lexes_bv n w : 0 <= n -> 0 <= w -> lexes (dec n ++ "bv" ++ dec w)%string [TBv n w].
Proof.
  intros Hn Hw r tr Hd Hr. destruct (dec_spec n Hn) as (A & B & C), (dec_spec w Hw) as (A' & B' & C'). eapply lx_tok; [|exact Hr].
  rewrite !sapp_assoc, (scan_bv _ _ r A B A' B' Hd), C, C'. reflexivity.
Qed.
Lemma scan_minus d r : d <> "" -> all digit d = true -> delim r -> scan (String "-" (d ++ r)) = Some (Some (TSym "-"), d ++ r)%string.
Proof.
  intros Hd Ha Hr.
  assert (NF : scan_float (String "-" (d ++ r)) = None).
  { destruct d as [|c d]; [contradiction|]. cbn in Ha. apply andb_prop in Ha as [Hc Ha].
    unfold scan_float, scan_float_from. cbn [append map strip]. change (Ascii.eqb "-" "-") with true. change (Ascii.eqb "0" "-") with false.
    cbv iota. destruct (Ascii.eqb "0" c); [|reflexivity].
    destruct d as [|c' d].
    - cbn [append]. destruct r as [|c' r]; [reflexivity|]. destruct (delim_facts _ (proj1 Hr)) as (F & _). rewrite F. reflexivity.
    - cbn in Ha. apply andb_prop in Ha as [Hc' Ha]. destruct (digit_facts c' Hc') as (_ & _ & _ & _ & _ & G & _). cbn [append strip]. rewrite G. reflexivity. }
  unfold scan. rewrite NF. reflexivity.
Qed.
Lemma lexes_int n : lexes (int_text n) (toks (Num n)).
Proof.
  unfold int_text, toks. destruct (Z.ltb_spec n 0); [|apply lexes_dec; assumption].
  intros r tr Hd Hr. destruct (dec_spec (- n) ltac:(lia)) as (A & B & C). cbn [append]. eapply lx_tok; [apply scan_minus; assumption|].
  exact (lexes_dec (- n) ltac:(lia) r tr Hd Hr).
Qed.

Lemma scan_float_text x r : float_text x -> delim r -> scan (x ++ r)%string = Some (Some (TFloat x), r).
Proof.
  intros (p & a & Hp & -> & Ha & Hf) Hr. rewrite sapp_assoc.
  assert (SP : span1 fp_char (a ++ r) = Some (a, r)).
  { unfold span1. rewrite (span_app fp_char a r Hf); [destruct a; [contradiction | reflexivity]|].
    destruct r as [|c r]; [exact I|]. destruct (fp_char c) eqn:E; [|reflexivity].
    destruct (fp_char_ident c E) as [E'|E']; destruct Hr as (R1 & R2 & _); congruence. }
  cbn in Hp. destruct Hp as [<-|[<-|[<-|[<-|[<-|[]]]]]]; unfold scan, scan_float, scan_float_from;
    cbn [append map strip Ascii.eqb Bool.eqb]; rewrite SP; reflexivity.
Qed.
Lemma lexes_float x : float_text x -> lexes x [TFloat x].
Proof. intros H r tr Hd Hr. eapply lx_tok; [exact (scan_float_text x r H Hd) | exact Hr]. Qed.

(** String literals and comments *)
Lemma scan_string_spec s r : string_ok s -> scan_string (s ++ String """" r)%string = Some (s, r).
Proof.
  intros [H1 H2]. induction s as [|c s IH]; [reflexivity|]. cbn [all] in H1. apply andb_prop in H1 as [Hc H1].
  assert (IH' : scan_string (s ++ String """" r)%string = Some (s, r)).
  { apply IH; [exact H1|]. intros t E. apply (H2 (String c t)). rewrite E. reflexivity. }
  cbn [existsb] in Hc. rewrite negb_true_iff in Hc.
  apply orb_false_elim in Hc as [Q Hc]. apply orb_false_elim in Hc as [N Hc]. apply orb_false_elim in Hc as [R _].
  cbn [append scan_string]. rewrite Q, N, R. cbn [orb].
  destruct s as [|c' s]; cbn [append] in *.
  - destruct (Ascii.eqb_spec c "\") as [->|_]; [exfalso; exact (H2 "" eq_refl) | reflexivity].
  - cbn [all existsb] in H1. apply andb_prop in H1 as [Hc' _]. rewrite negb_true_iff in Hc'. apply orb_false_elim in Hc' as [Q' _].
    rewrite IH'. clear - Q'. chars c'; try reflexivity. discriminate Q'.
Qed.
Lemma lexes_string s : string_ok s -> lexes ("""" ++ s ++ """")%string [TStr s].
Proof.
  intros H r tr Hd Hr. eapply lx_tok; [|exact Hr]. rewrite !sapp_assoc. cbn [append]. unfold scan.
  change (white """") with false. cbn [strip Ascii.eqb Bool.eqb]. rewrite (scan_string_spec s r H). reflexivity.
Qed.
Lemma skip_comment_spec s r : comment_ok s -> skip_comment 0 (s ++ String " " (String "*" (String "/" r)))%string = Some r.
Proof.
  induction s as [|c s IH]; intros H; [reflexivity|].
  assert (IH' : comment_ok s).
  { intros a b. destruct (H (String c a) b) as [A B]. split; intros ->; [apply A | apply B]; reflexivity. }
  specialize (IH IH'). cbn [append skip_comment]. destruct s as [|c' s].
  - cbn [append] in *. rewrite !andb_false_r. exact IH.
  - cbn [append] in *. destruct (Ascii.eqb_spec c "*") as [->|_], (Ascii.eqb_spec c' "/") as [->|_]; cbn [andb].
    + exfalso. exact (proj1 (H "" s) eq_refl).
    + exact IH.
    + destruct (Ascii.eqb_spec c "/"); exact IH.
    + destruct (Ascii.eqb_spec c "/") as [->|_], (Ascii.eqb_spec c' "*") as [->|_]; cbn [andb]; try exact IH.
      exfalso. exact (proj2 (H "" s) eq_refl).
Qed.

(** A colon before a word or a number *)
Definition starts (s : string) : Prop := match s with String c _ => ident_char c = true | EmptyString => False end.
Lemma ident_char_colon c : ident_char c = true -> Ascii.eqb "=" c = false /\ Ascii.eqb ":" c = false.
Proof. chars c; vm_compute; intros H; try discriminate H; split; reflexivity. Qed.
Lemma scan_colon s r : starts s -> scan (String ":" (s ++ r)) = Some (Some (TSym ":"), (s ++ r)%string).
Proof.
  destruct s as [|c s]; [intros []|]. cbn [starts]. intros H. destruct (ident_char_colon c H) as [E1 E2].
  unfold scan. change (white ":") with false. cbv iota. cbn [append strip].
  change (Ascii.eqb "/" ":") with false. change (Ascii.eqb ":" """") with false. cbv iota.
  change (scan_float (String ":" (String c (s ++ r)))) with (@None (string * string)). change (nondigit ":") with false. change (digit ":") with false. cbv iota.
  unfold scan_symbol. cbn [map symbols strip]. 
  repeat match goal with |- context [Ascii.eqb (Ascii ?a ?b ?c1 ?d ?e ?f ?g ?h) ":"] =>
    let v := eval vm_compute in (Ascii.eqb (Ascii a b c1 d e f g h) ":") in change (Ascii.eqb (Ascii a b c1 d e f g h) ":") with v end.
  rewrite E1, E2. reflexivity.
Qed.
Lemma name_starts x : name x -> starts x.
Proof. destruct x as [|c x]; intros [H _]; [exact H|]. unfold starts, ident_char. rewrite (proj1 H). reflexivity. Qed.
Lemma dec_starts n : 0 <= n -> starts (dec n).
Proof.
  intros H. destruct (dec_spec n H) as (A & B & _). destruct (dec n) as [|c d]; [contradiction|]. cbn in B. apply andb_prop in B as [B _].
  unfold starts, ident_char. rewrite B. apply orb_true_r.
Qed.

(** ** Trees *)
Ltac tail s := match s with String _ ?s' => tail s' | _ => constr:(s) end.
Ltac step :=
  match goal with
  | |- lx (String ?c ?s0) _ =>
      let s := constr:(String c s0) in
      let X := tail s in
      match eval pattern X in s with
      | ?F _ =>
          let R := eval vm_compute in (fun y => scan (F y)) in
          let R' := eval cbv beta in (R X) in
          match R' with
          | Some (Some ?t, ?r) => apply (lx_tok s t r); [generalize X; intro; vm_compute; reflexivity|]
          | Some (None, ?r) => apply (lx_skip s r); [generalize X; intro; vm_compute; reflexivity|]
          end
      end
  end.
Ltac delim_tac :=
  first [ assumption | exact I | cbn [append]; split; [reflexivity | split; [discriminate | intros E; first [discriminate E | eexists; reflexivity]]] ].
Ltac use_lexes :=
  match goal with
  | H : lexes ?a _ |- lx (?a ++ _)%string _ => apply H; [delim_tac|]
  | H : lexes ?a _ |- lx ?a _ => rewrite <- (sapp_nil a)
  end.
Ltac flatten := repeat first [rewrite sapp_assoc | rewrite <- app_assoc | progress cbn [append app]].
Ltac go := flatten; repeat (first [assumption | step | use_lexes]).
Ltac start := let rest := fresh "rest" in let tr := fresh "tr" in let Hd := fresh "Hd" in let Hr := fresh "Hr" in intros rest tr Hd Hr.

Lemma lexes_empty : lexes "" [].
Proof. start. exact Hr. Qed.
Lemma lexes_join {A} (pr : A -> string) (tk : A -> list token) l :
  Forall (fun a => lexes (pr a) (tk a)) l -> lexes (join ", " (map pr l)) (commas (map tk l)).
Proof.
  induction 1 as [|a l Ha _ IH]; [exact lexes_empty|]. cbn [map join commas]. destruct l as [|b l]; [exact Ha|].
  cbn [map] in *. start. go.
Qed.

Lemma ty_ind' (P : ty -> Prop) : (forall x, P (TName x)) -> (forall l r, Forall P l -> P r -> P (TMap l r)) -> forall t, P t.
Proof.
  intros H1 H2. fix IH 1. intros [x|l r]; [apply H1|]. apply H2; [|apply IH]. induction l as [|a l IHl]; constructor; [apply IH | exact IHl].
Qed.
Lemma fold_and {A} (P : A -> Prop) l : fold_right and True (map P l) <-> Forall P l.
Proof. induction l; cbn; split; intros H; [constructor | exact I | constructor; tauto | inversion H; tauto]. Qed.
Lemma Forall_mp {A} (P Q : A -> Prop) l : Forall (fun a => P a -> Q a) l -> Forall P l -> Forall Q l.
Proof. induction 1; intros H'; inversion H'; constructor; auto. Qed.
Lemma lexes_type_name x : name x \/ In x ["int"; "real"; "bool"] -> lexes x [if reserved x then TKw x else TId x].
Proof.
  intros [H|H]; apply lexes_word; [exact (proj1 H)|]. cbn in H. destruct H as [<-|[<-|[<-|[]]]]; split; reflexivity.
Qed.
Lemma lexes_ty t : ty_ok t -> lexes (print_ty t) (toks_ty t).
Proof.
  induction t as [x|l r IHl IHr] using ty_ind'; cbn [ty_ok print_ty toks_ty].
  - apply lexes_type_name.
  - rewrite fold_and. intros [H1 H2]. specialize (IHr H2). pose proof (lexes_join print_ty toks_ty l (Forall_mp _ _ _ IHl H1)) as HL.
    unfold print_seq. start. go.
Qed.
Lemma lexes_binding b : binding_ok b -> lexes (print_binding b) (toks_binding b).
Proof.
  destruct b as [x t]. intros [H1 H2]. cbn [fst snd] in *. unfold print_binding, toks_binding. cbn [fst snd].
  pose proof (lexes_name x H1). pose proof (lexes_ty t H2). start. go.
Qed.
Lemma lexes_bindings l : Forall binding_ok l -> lexes (join ", " (map print_binding l)) (commas (map toks_binding l)).
Proof. intros H. apply lexes_join. eapply Forall_impl; [|exact H]. exact lexes_binding. Qed.

Lemma expr_ind' (P : expr -> Prop) :
  (forall n, P (Num n)) -> (forall n w, P (BvNum n w)) -> (forall x, P (FpNum x)) -> (forall b, P (BoolLit b)) -> (forall m, P (RMode m)) ->
  (forall x, P (Var x)) -> (forall f l, Forall P l -> P (Fun f l)) -> (forall o l r, P l -> P r -> P (Bin o l r)) -> (forall l r, P l -> P r -> P (BvConcat l r)) ->
  (forall e, P e -> P (Neg e)) -> (forall e, P e -> P (Not e)) -> (forall q v e, P e -> P (Quant q v e)) ->
  (forall m l, P m -> Forall P l -> P (Sel m l)) -> (forall m l v, P m -> Forall P l -> P v -> P (Upd m l v)) ->
  (forall e h l, P e -> P (Extract e h l)) -> (forall h l, P (Bounds h l)) -> (forall c t e, P c -> P t -> P e -> P (Ite c t e)) ->
  forall e, P e.
Proof.
  intros c1 c2 c3 c4 c5 c6 c7 c8 c9 c10 c11 c12 c13 c14 c15 c16 c17. fix IH 1. intros e; destruct e as [| | | | | |f l| | | | | |m l|m l v| | |].
  - apply c1. - apply c2. - apply c3. - apply c4. - apply c5. - apply c6.
  - apply c7. induction l as [|a l IHl]; constructor; [apply IH | exact IHl].
  - apply c8; apply IH. - apply c9; apply IH. - apply c10; apply IH. - apply c11; apply IH. - apply c12; apply IH.
  - apply c13; [apply IH|]. induction l as [|a l IHl]; constructor; [apply IH | exact IHl].
  - apply c14; [apply IH| |apply IH]. induction l as [|a l IHl]; constructor; [apply IH | exact IHl].
  - apply c15; apply IH. - apply c16. - apply c17; apply IH.
Qed.

Lemma lexes_expr e : expr_ok e -> lexes (print e) (toks e).
Proof.
  induction e using expr_ind'; cbn [expr_ok].
  - intros _. apply lexes_int.
  - intros [H1 H2]. apply lexes_bv; assumption.
  - intros H. apply lexes_float; assumption.
  - intros _. destruct b; [apply (lexes_word "true") | apply (lexes_word "false")]; split; reflexivity.
  - intros H. cbn in H. destruct H as [<-|[<-|[<-|[<-|[<-|[]]]]]];
      [apply (lexes_word "RNE") | apply (lexes_word "RNA") | apply (lexes_word "RTP") | apply (lexes_word "RTN") | apply (lexes_word "RTZ")]; split; reflexivity.
  - intros H. apply lexes_name; assumption.
  - rewrite fold_and. intros [H1 H2]. pose proof (lexes_name f H1). pose proof (lexes_join print toks l (Forall_mp _ _ _ H H2)).
    cbn [print toks]. unfold print_seq. start. go.
  - intros [H1 H2]. specialize (IHe1 H1). specialize (IHe2 H2). cbn [print toks]. start. destruct o; cbn [op_text]; go.
  - intros [H1 H2]. specialize (IHe1 H1). specialize (IHe2 H2). cbn [print toks]. start. go.
  - intros H. specialize (IHe H). cbn [print toks]. start. go.
  - intros H. specialize (IHe H). cbn [print toks]. start. go.
  - intros (H1 & H2 & H3). specialize (IHe H3). pose proof (lexes_bindings v H2). cbn [print toks]. start. destruct q; go.
  - rewrite fold_and. intros (_ & H1 & _ & H2). specialize (IHe H1). pose proof (lexes_join print toks l (Forall_mp _ _ _ H H2)).
    cbn [print toks]. unfold print_seq. start. go.
  - rewrite fold_and. intros (_ & H1 & _ & H2 & H3). specialize (IHe1 H1). specialize (IHe2 H3). pose proof (lexes_join print toks l (Forall_mp _ _ _ H H2)).
    cbn [print toks]. start. go.
  - intros (_ & H1 & H2 & H3). specialize (IHe H1). cbn [print toks]. unfold int_text.
    replace (h <? 0) with false by (symmetry; apply Z.ltb_ge; assumption). replace (l <? 0) with false by (symmetry; apply Z.ltb_ge; assumption).
    pose proof (lexes_dec h H2). pose proof (lexes_dec l H3). start. go.
    eapply lx_tok; [apply scan_colon, dec_starts; assumption|]. go.
  - intros [].
  - intros (H1 & H2 & H3). specialize (IHe1 H1). specialize (IHe2 H2). specialize (IHe3 H3). cbn [print toks]. start. go.
Qed.
Lemma lexes_exprs l : Forall expr_ok l -> lexes (join ", " (map print l)) (commas (map toks l)).
Proof. intros H. apply lexes_join. eapply Forall_impl; [|exact H]. exact lexes_expr. Qed.

(** Pieces after which anything may come *)
Definition emits (s : string) (ts : list token) : Prop := forall rest tr, lx rest tr -> lx (s ++ rest)%string (ts ++ tr).
Ltac use_emits := match goal with H : emits ?a _ |- lx (?a ++ _)%string _ => apply H end.
Ltac go ::= flatten; repeat (first [assumption | step | use_lexes | use_emits]).

Lemma lexes_aval v : aval_ok v -> lexes (print_aval v) (toks_aval v).
Proof. destruct v; [apply lexes_string | apply lexes_expr]. Qed.
Lemma lex_attr a : attr_ok a -> forall rest tr, lx rest tr -> lx (print_attr a ++ String " " rest)%string (toks_attr a ++ tr).
Proof.
  destruct a as [x vs]. intros [H1 H2] rest tr Hr. cbn [at_name at_vals] in *. unfold print_attr, toks_attr. cbn [at_name at_vals].
  pose proof (lexes_name x H1) as Hx.
  assert (HV : Forall (fun v => lexes (print_aval v) (toks_aval v)) vs) by (eapply Forall_impl; [|exact H2]; exact lexes_aval).
  apply lexes_join in HV. flatten.
  step. eapply lx_tok; [exact (scan_colon x _ (name_starts x H1))|].
  destruct vs as [|v vs].
  - cbn [map print_seq_nonempty commas app append]. go.
  - cbn [print_seq_nonempty map] in *. unfold print_seq. cbn [append]. rewrite sapp_nil. go.
Qed.
Lemma emits_attrs l : Forall attr_ok l -> emits (print_attrs l) (toks_attrs l).
Proof.
  intros H rest tr Hr. unfold print_attrs. induction H as [|a l Ha H IH]; [exact Hr|].
  unfold toks_attrs in *. cbn [flat_map map print_seq_nonempty]. unfold print_seq. cbn [append].
  destruct l as [|b l].
  - cbn [map join flat_map]. rewrite app_nil_r, sapp_assoc. apply (lex_attr a Ha rest tr Hr).
  - cbn [map print_seq_nonempty] in IH. unfold print_seq in IH. cbn [append] in IH.
    change (join " " (print_attr a :: map print_attr (b :: l))) with (print_attr a ++ " " ++ join " " (map print_attr (b :: l)))%string.
    rewrite !sapp_assoc. rewrite <- app_assoc. cbn [append]. apply (lex_attr a Ha). rewrite sapp_assoc in IH. exact IH.
Qed.

Lemma lexes_names l : Forall name l -> lexes (join ", " l) (commas (map (fun x => [TId x]) l)).
Proof. intros H. rewrite <- (map_id l) at 1. apply lexes_join. eapply Forall_impl; [|exact H]. exact lexes_name. Qed.
Lemma lhs_expr_ok e : lhs_ok e -> expr_ok e /\ base_ok e.
Proof.
  induction e using expr_ind'; cbn; try contradiction; [auto|].
  intros (H1 & H2 & H3). rewrite fold_and. destruct (IHe H1). auto.
Qed.
Lemma emits_stmt s : stmt_ok s -> emits (print_stmt s) (toks_stmt s).
Proof.
  destruct s as [a e|a e|l r|a rets p args|l|l| |s]; cbn [stmt_ok print_stmt toks_stmt].
  - intros [H1 H2] rest tr Hr. pose proof (emits_attrs a H1). pose proof (lexes_expr e H2). go.
  - intros [H1 H2] rest tr Hr. pose proof (emits_attrs a H1). pose proof (lexes_expr e H2). go.
  - intros (_ & H1 & _ & H2) rest tr Hr. pose proof (lexes_exprs r H2).
    assert (H3 : Forall expr_ok l) by (eapply Forall_impl; [|exact H1]; intros e He; exact (proj1 (lhs_expr_ok e He))).
    pose proof (lexes_exprs l H3). go.
  - intros (H1 & H2 & H3 & H4) rest tr Hr. pose proof (emits_attrs a H1). pose proof (lexes_names rets H2). pose proof (lexes_name p H3). pose proof (lexes_exprs args H4).
    unfold print_seq. destruct rets as [|x rets]; [cbn [print_seq_nonempty]; go|].
    cbn [print_seq_nonempty]. unfold print_seq. go.
  - intros [_ H] rest tr Hr. pose proof (lexes_names l H). go.
  - intros [_ H] rest tr Hr. pose proof (lexes_names l H). go.
  - intros _ rest tr Hr. go.
  - intros H rest tr Hr. flatten. eapply lx_skip; [|exact Hr]. unfold scan. change (white "/") with false. cbv iota.
    change (strip "/*" (String "/" (String "*" (String " " (s ++ String " " (String "*" (String "/" rest)))))))
      with (Some (String " " (s ++ String " " (String "*" (String "/" rest)))%string)). cbv iota.
    replace (skip_comment 0 (String " " (s ++ String " " (String "*" (String "/" rest)))%string)) with (Some rest); [reflexivity|].
    symmetry. apply (skip_comment_spec (String " " s) rest). intros x y. destruct x as [|c x]; [split; discriminate|].
    cbn [append]. destruct (H x y) as [A B]. split; intros E; injection E as _ E; [exact (A E) | exact (B E)].
Qed.
(** Pieces before a line end *)
Definition line (s : string) (ts : list token) : Prop := forall rest tr, lx rest tr -> lx (s ++ nl ++ rest)%string (ts ++ tr).
Lemma emits_line s ts : emits s ts -> line s ts.
Proof. intros H rest tr Hr. apply H. unfold nl. cbn [append]. step. exact Hr. Qed.
Lemma line_join {A} (pr : A -> string) (tk : A -> list token) l : Forall (fun a => line (pr a) (tk a)) l -> line (join nl (map pr l)) (flat_map tk l).
Proof.
  intros H rest tr Hr. induction H as [|a l Ha H IH]; [cbn [map join append flat_map app]; unfold nl; cbn [append]; step; exact Hr|].
  cbn [map join flat_map]. destruct l as [|b l]; [cbn [map flat_map]; rewrite app_nil_r; apply Ha; exact Hr|].
  cbn [map] in *. rewrite !sapp_assoc, <- app_assoc. apply Ha. exact IH.
Qed.
Lemma line_stmts l : Forall stmt_ok l -> line (join (nl ++ "  ")%string (map print_stmt l)) (flat_map toks_stmt l).
Proof.
  intros H rest tr Hr. induction H as [|s l Hs H IH]; [cbn; step; exact Hr|].
  pose proof (emits_stmt s Hs) as E. cbn [map join flat_map]. destruct l as [|b l].
  - cbn [map flat_map]. rewrite app_nil_r. apply E. unfold nl. cbn [append]. step. exact Hr.
  - cbn [map] in *. unfold nl in *. cbn [append] in *. rewrite !sapp_assoc, <- app_assoc. apply E. cbn [append]. do 3 step. exact IH.
Qed.
Lemma line_block b : b_name b = "" /\ Forall stmt_ok (b_stmts b) \/ block_ok b -> line (print_block b) (toks_block b).
Proof.
  destruct b as [x l]. unfold block_ok, print_block, toks_block. cbn [b_name b_stmts]. intros H rest tr Hr. unfold print_seq.
  assert (L : lx (("  " ++ join (nl ++ "  ") (map print_stmt l) ++ "") ++ nl ++ rest)%string (flat_map toks_stmt l ++ tr)).
  { rewrite sapp_nil. cbn [append]. do 2 step. apply line_stmts; [tauto | exact Hr]. }
  destruct H as [[-> _]|[H _]]; [exact L|].
  replace (String.eqb x "") with false by (destruct x; [destruct H as [[] _] | reflexivity]).
  pose proof (lexes_name x H). rewrite !sapp_assoc. unfold nl in *. cbn [append app] in *. rewrite sapp_nil in L. use_lexes. step. step. exact L.
Qed.
Lemma line_blocks l : blocks_ok l -> line (join nl (map print_block l)) (flat_map toks_block l).
Proof.
  intros H. apply line_join. destruct l as [|b l]; [constructor|]. destruct H as [H1 H2]. constructor; [apply line_block; exact H1|].
  eapply Forall_impl; [|exact H2]. intros b' H. apply line_block. right. exact H.
Qed.
Lemma emits_var b : binding_ok b -> emits (print_var [] b) (toks_var b).
Proof. intros H rest tr Hr. unfold print_var, toks_var. cbn [print_attrs print_seq_nonempty map]. pose proof (lexes_binding b H). go. Qed.
Lemma emits_locals l : Forall binding_ok l -> emits (print_seq_nonempty "  " (nl ++ "  ") nl (map (print_var []) l)) (flat_map toks_var l).
Proof.
  intros H rest tr Hr. destruct H as [|b l Hb H]; [exact Hr|]. cbn [map print_seq_nonempty]. unfold print_seq. flatten. do 2 step.
  revert b Hb. induction H as [|b' l Hb' H IH]; intros b Hb; pose proof (emits_var b Hb); cbn [map join flat_map].
  - rewrite app_nil_r. unfold nl. go.
  - specialize (IH b' Hb'). cbn [map flat_map] in IH. unfold nl in *. flatten. use_emits. do 3 step. flatten. rewrite <- !app_assoc in IH. exact IH.
Qed.
Lemma lex_clauses w : lexes w [TKw w] -> forall l e rest tr, Forall expr_ok (e :: l) -> lx rest tr ->
  lx (join (";" ++ nl ++ "  " ++ w ++ " ") (map print (e :: l)) ++ ";" ++ rest)%string
     (toks e ++ TSym ";" :: flat_map (fun e => TKw w :: toks e ++ [TSym ";"]) l ++ tr).
Proof.
  intros Hw l. induction l as [|e' l IH]; intros e rest tr H Hr; inversion H as [|? ? He Hl]; subst; pose proof (lexes_expr e He).
  - cbn [map join flat_map]. go.
  - specialize (IH e' rest tr Hl Hr).
    change (join (";" ++ nl ++ "  " ++ w ++ " ") (map print (e :: e' :: l)))
      with (print e ++ (";" ++ nl ++ "  " ++ w ++ " ") ++ join (";" ++ nl ++ "  " ++ w ++ " ") (map print (e' :: l)))%string.
    change (flat_map (fun e => TKw w :: toks e ++ [TSym ";"]) (e' :: l)) with ((TKw w :: toks e' ++ [TSym ";"]) ++ flat_map (fun e => TKw w :: toks e ++ [TSym ";"]) l).
    set (J := join (";" ++ nl ++ "  " ++ w ++ " ")%string (map print (e' :: l))) in *. unfold nl. flatten. use_lexes. do 4 step. use_lexes. step. exact IH.
Qed.
Lemma emits_clauses w l : lexes w [TKw w] -> Forall expr_ok l ->
  emits (match l with [] => "" | x :: l => (nl ++ print_seq ("  " ++ w ++ " ") (";" ++ nl ++ "  " ++ w ++ " ") ";" (map print (x :: l)))%string end)
        (flat_map (fun e => TKw w :: toks e ++ [TSym ";"]) l).
Proof.
  intros Hw H rest tr Hr. destruct l as [|e l]; [exact Hr|]. pose proof (lex_clauses w Hw l e rest tr H Hr) as L.
  change (flat_map (fun e => TKw w :: toks e ++ [TSym ";"]) (e :: l)) with ((TKw w :: toks e ++ [TSym ";"]) ++ flat_map (fun e => TKw w :: toks e ++ [TSym ";"]) l).
  unfold print_seq. set (J := join (";" ++ nl ++ "  " ++ w ++ " ")%string (map print (e :: l))) in *. unfold nl. flatten. do 3 step. use_lexes. step. exact L.
Qed.
Lemma emits_mods l : Forall name l -> emits (match l with [] => "" | x :: l => (nl ++ print_seq "  modifies " ", " ";" (x :: l))%string end)
  (match l with [] => [] | x :: l => TKw "modifies" :: commas (map (fun x => [TId x]) (x :: l)) ++ [TSym ";"] end).
Proof.
  intros H rest tr Hr. pose proof (lexes_names l H). destruct l as [|x l]; [exact Hr|]. unfold nl, print_seq. go.
Qed.
Lemma emits_rets l : Forall binding_ok l -> emits (match l with [] => "" | r :: rs => (nl ++ "  returns (" ++ join ", " (map print_binding (r :: rs)) ++ ")")%string end)
  (match l with [] => [] | r :: rs => TKw "returns" :: TSym "(" :: commas (map toks_binding (r :: rs)) ++ [TSym ")"] end).
Proof. intros H rest tr Hr. pose proof (lexes_bindings l H). destruct l as [|x l]; [exact Hr|]. unfold nl. go. Qed.
Lemma line_proc p : proc_ok p -> line (print_proc p) (toks_proc p).
Proof.
  destruct p as [a x ps rs m rq en ls bs]. unfold proc_ok, print_proc, toks_proc. cbn [pr_attrs pr_name pr_params pr_rets pr_mods pr_requires pr_ensures pr_locals pr_blocks].
  intros (H1 & H2 & H3 & H4 & H5 & H6 & H7 & H8 & H9 & _) rest tr Hr.
  pose proof (emits_attrs a H1) as E1. pose proof (lexes_name x H2) as E2. pose proof (lexes_bindings ps H3) as E3. pose proof (emits_rets rs H4) as E4. pose proof (emits_mods m H5) as E5.
  pose proof (emits_clauses "requires" rq ltac:(apply (lexes_word "requires"); split; reflexivity) H6) as E6.
  pose proof (emits_clauses "ensures" en ltac:(apply (lexes_word "ensures"); split; reflexivity) H7) as E7.
  pose proof (emits_locals ls H8) as E8. pose proof (line_blocks bs H9) as E9.
  cbn [append] in *.
  assert (END : emits (match bs with [] => ";" | _ => "" end) (match bs with [] => [TSym ";"] | _ => [] end))
    by (intros r t Ht; destruct bs; [cbn [append app]; step|]; exact Ht).
  assert (BODY : line (match bs with [] => "" | b :: bs => (nl ++ "{" ++ nl ++ print_seq_nonempty "  " (nl ++ "  ") nl (map (print_var []) ls) ++ join nl (map print_block (b :: bs)) ++ nl ++ "}")%string end)
                   (match bs with [] => [] | b :: bs => TSym "{" :: flat_map toks_var ls ++ flat_map toks_block (b :: bs) ++ [TSym "}"] end)).
  { intros r t Ht. destruct bs as [|b bs]; [unfold nl; cbn [append app]; step; exact Ht|].
    repeat first [rewrite sapp_assoc | rewrite <- app_assoc]. cbn [app]. unfold nl at 1 2. cbn [append]. do 3 step. rewrite <- !app_assoc. apply E8. repeat first [rewrite sapp_assoc | rewrite <- app_assoc].
    apply E9. unfold nl. cbn [append app]. do 2 step. exact Ht. }
  clear E8 E9. cbn [append] in *.
  assert (G : forall s4 t4 s5 t5 s6 t6 s7 t7 s8 t8 s9 t9, emits s4 t4 -> emits s5 t5 -> emits s6 t6 -> emits s7 t7 -> emits s8 t8 -> line s9 t9 ->
    lx (("procedure " ++ print_attrs a ++ x ++ "(" ++ join ", " (map print_binding ps) ++ ")" ++ s4 ++ s8 ++ s5 ++ s6 ++ s7 ++ s9) ++ nl ++ rest)%string
       ((TKw "procedure" :: toks_attrs a ++ TId x :: TSym "(" :: commas (map toks_binding ps) ++ TSym ")" :: t4 ++ t8 ++ t5 ++ t6 ++ t7 ++ t9) ++ tr)).
  { clear - E1 E2 E3 Hr. intros. flatten. repeat first [step | use_lexes | use_emits]. match goal with H : line _ _ |- _ => apply H end. exact Hr. }
  eapply G; [exact E4 | exact E5 | exact E6 | exact E7 | exact END | exact BODY].
Qed.
Lemma line_decl d : decl_ok d -> line (print_decl d) (toks_decl d).
Proof.
  destruct d as [a x alias|a e|a u x t|a f ps t body|a x t|p]; cbn [decl_ok print_decl toks_decl].
  - intros (H1 & H2 & H3). apply emits_line. intros rest tr Hr. pose proof (emits_attrs a H1). pose proof (lexes_name x H2).
    destruct alias as [t|]; [pose proof (lexes_ty t H3)|]; go.
  - intros (H1 & H2). apply emits_line. intros rest tr Hr. pose proof (emits_attrs a H1). pose proof (lexes_expr e H2). go.
  - intros (H1 & H2 & H3). apply emits_line. intros rest tr Hr. pose proof (emits_attrs a H1). pose proof (lexes_name x H2). pose proof (lexes_ty t H3).
    destruct u; go.
  - intros (H1 & H2 & H3 & H4 & H5) rest tr Hr. pose proof (emits_attrs a H1). pose proof (lexes_name f H2). pose proof (lexes_bindings ps H3). pose proof (lexes_ty t H4).
    unfold nl. destruct body as [e|]; [pose proof (lexes_expr e H5)|]; go.
  - intros (-> & H2 & H3). apply emits_line, emits_var. split; assumption.
  - apply line_proc.
Qed.
Lemma lx_program l : Forall decl_ok l -> lx (print_program l) (flat_map toks_decl l).
Proof.
  intros H. unfold print_program. rewrite <- (sapp_nil nl), <- (app_nil_r (flat_map toks_decl l)). apply line_join; [|exact lx_nil].
  eapply Forall_impl; [|exact H]. exact line_decl.
Qed.
