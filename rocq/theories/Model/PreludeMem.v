(** The memory and pointer part of the generated prelude
    (lib/smack/Prelude.cpp:185-247, 930-1045, 1183-1321) and of SmackRep
    (lib/smack/SmackRep.cpp:502-625, 742-794).

    Declarations are Boogie ASTs as in Model/Boogie.v.  Map types "[ref] T" of
    parameters are not part of the model (a parameter carries the element type):
    the map itself says what its addresses and cells are. *)
From Coq Require Import ZArith List String Bool.
From Verif.Model Require Import Boogie PreludeInt SmackRepInt.
Import ListNotations.
Open Scope string_scope.
Open Scope list_scope.
Open Scope Z_scope.

(** Prelude.cpp:62-66 makePtrVarName, makeMapVarName *)
Definition makePtrVarName (i : nat) : string :=
  match i with O => "p" | S O => "p1" | _ => "p2" end.
Definition makePtrVarExpr (i : nat) : expr := EVar (makePtrVarName i).
Definition makeMapVarExpr : expr := EVar "M".

Section Mem.
  (** [P] is ptrSizeInBits – SmackRep.h, the pointer width of the data layout. *)
  Context (O : opts) (P : Z).

  (** SmackRep.cpp:145-150 pointerType() *)
  Definition pointerType : tyname := if bitPrecisePointers O then NBv P else NInt P.

  (** SmackRep.cpp:599-602 pointerLit(unsigned long long) *)
  Definition pointerLitU (v : Z) : expr := if bitPrecisePointers O then EBv v P else EInt v.
  (** SmackRep.cpp:604-610 pointerLit(long long) *)
  Definition pointerLit (v : Z) : expr :=
    if 0 <=? v then pointerLitU v
    else EFun (indexedName "$sub" [NRef]) [pointerLitU 0; pointerLitU (Z.abs v)].

  (** Prelude.cpp:187-193 mapSelExpr *)
  Definition mapSelExpr (idx : Z) : expr :=
    let ptrVar := makePtrVarExpr 0 in
    ESel makeMapVarExpr
      (if idx =? 0 then ptrVar
       else EFun (indexedName "$add" [NRef]) [ptrVar; pointerLitU idx]).

  (** Prelude.cpp:197-205 mapUpdExpr; [None] is the default map argument *)
  Definition mapUpdExpr (idx : Z) (v : expr) (m : option expr) : expr :=
    let ptrVar := makePtrVarExpr 0 in
    EUpd (match m with Some e => e | None => makeMapVarExpr end)
      (if idx =? 0 then ptrVar
       else EFun (indexedName "$add" [NRef]) [ptrVar; pointerLitU idx]) v.

  (** Prelude.cpp:208-212 *)
  Definition safeLoad (t : tyname) : fdecl :=
    inlinedOp "$load" [t] [("M", t); (makePtrVarName 0, NRef)] t (mapSelExpr 0).
  (** Prelude.cpp:217-224, with the default bytes = true *)
  Definition unsafeLoad (t : tyname) (body : expr) : fdecl :=
    inlinedOp "$load" [NBytes; t] [("M", NBv 8); (makePtrVarName 0, NRef)] t body.
  (** Prelude.cpp:227-234 *)
  Definition safeStore (b : string * tyname) : fdecl :=
    inlinedOp "$store" [snd b] [("M", snd b); (makePtrVarName 0, NRef); b] (snd b)
      (mapUpdExpr 0 (EVar (fst b)) None).
  (** Prelude.cpp:239-247, with the default bytes = true *)
  Definition unsafeStore (b : string * tyname) (body : expr) : fdecl :=
    inlinedOp "$store" [NBytes; snd b] [("M", NBv 8); (makePtrVarName 0, NRef); b] (NBv 8) body.

  (** Prelude.cpp:981-989: the loop [for i = 1; i < (size >> 3); ++i], [k] rounds. *)
  Fixpoint loadBody (k : nat) : expr :=
    match k with
    | 0%nat => mapSelExpr 0
    | S k' => EConcat (mapSelExpr (Z.of_nat k)) (loadBody k')
    end.
  Fixpoint storeBody (k : nat) : expr :=
    let valExpr := makeIntVarExpr 0 in
    match k with
    | 0%nat => mapUpdExpr 0 (EExtract valExpr 8 0) None
    | S k' => mapUpdExpr (Z.of_nat k)
                (EExtract valExpr (8 * Z.of_nat k + 8) (8 * Z.of_nat k)) (Some (storeBody k'))
    end.

  (** Prelude.cpp:933-999, one width *)
  Definition intMemFuncs (size : Z) : list fdecl :=
    if negb (bitPrecise O) then
      [safeLoad (NInt size); safeStore ("i", NInt size)]
    else
      let t := NBv size in
      let rounds := Z.to_nat (size / 8 - 1) in
      [safeLoad t; safeStore ("i", t);
       unsafeLoad t
         (if size <? 8 then EFun (indexedName "$trunc" [NBv 8; t]) [mapSelExpr 0]
          else if size =? 8 then mapSelExpr 0 else loadBody rounds);
       unsafeStore ("i", t)
         (if size <? 8 then mapUpdExpr 0 (EFun (indexedName "$zext" [t; NBv 8]) [makeIntVarExpr 0]) None
          else if size =? 8 then mapUpdExpr 0 (makeIntVarExpr 0) None else storeBody rounds)].

  (** IntOpGen::generateMemOps – Prelude.cpp:930-1000 *)
  Definition intMemDecls : list fdecl := flat_map intMemFuncs INTEGER_SIZES.

  Definition int2bvAttr : string := if P =? 32 then "(_ int2bv 32)" else "(_ int2bv 64)".
  (** Prelude.cpp:1007-1045 generateBvIntConvs (P is 32 or 64).  The emitted
      parameter name is "i" also where the body reads "i". *)
  Definition bvIntConvs : list fdecl :=
    [ FuncDecl (indexedName "$int2bv" [NNum P]) [("i", NInt P)] (NBv P) None (ABuiltin int2bvAttr) ] ++
    (if bitPrecise O && negb (bitPrecisePointers O) then
       let uint := EFun (indexedName "$bv2uint" [NNum P]) [EVar "i"] in
       [ FuncDecl (indexedName "$bv2uint" [NNum P]) [("i", NBv P)] (NInt P) None (ABuiltin "bv2nat");
         FuncDecl (indexedName "$bv2int" [NNum P]) [("i", NBv P)] (NInt P)
           (Some (EIte (EFun (indexedName "$slt" [NBv P; NBool]) [EVar "i"; EBv 0 P])
                       (EFun (indexedName "$sub" [NInt P]) [uint; EInt (2 ^ P)]) uint)) AInline ]
     else [ FuncDecl (indexedName "$bv2int" [NNum P]) [("i", NBv P)] (NInt P) None (ABuiltin "bv2nat") ]).

  (** SmackRep.cpp:591-597 bitConversion *)
  Definition bitConversion (e : expr) (src dst : bool) : expr :=
    if Bool.eqb src dst then e
    else EFun (indexedName (if src then "$bv2int" else "$int2bv") [NNum P]) [e].
  (** SmackRep.cpp:571-579 *)
  Definition pointerToInteger (e : expr) (width : Z) : expr :=
    let e := bitConversion e (bitPrecisePointers O) (bitPrecise O) in
    if P <? width then EFun (indexedName "$zext" [intType O P; intType O width]) [e]
    else if width <? P then EFun (indexedName "$trunc" [intType O P; intType O width]) [e]
    else e.
  (** SmackRep.cpp:581-589 *)
  Definition integerToPointer (e : expr) (width : Z) : expr :=
    let e := if width <? P then EFun (indexedName "$zext" [intType O width; intType O P]) [e]
             else if P <? width then EFun (indexedName "$trunc" [intType O width; intType O P]) [e]
             else e in
    bitConversion e (bitPrecise O) (bitPrecisePointers O).

  (** Prelude.cpp:1183-1201 (widths 8, 16, 32, 64) *)
  Definition ptrNumConvs : list fdecl :=
    flat_map (fun i =>
      [ FuncDecl (indexedName "$p2i" [NRef; intType O i]) [("p", NRef)] (intType O i)
          (Some (pointerToInteger (EVar "p") i)) AInline;
        FuncDecl (indexedName "$i2p" [intType O i; NRef]) [("i", intType O i)] NRef
          (Some (integerToPointer (EVar "i") i)) AInline ]) [8; 16; 32; 64].

  (** Prelude.cpp:1206-1211 *)
  Definition ptrPredTable : list (string * bbin) :=
    [("$eq", BEq); ("$ne", BNeq); ("$ugt", Gt); ("$uge", Gte); ("$ult", Lt); ("$ule", Lte);
     ("$sgt", Gt); ("$sge", Gte); ("$slt", Lt); ("$sle", Lte)].
  (** Prelude.cpp:1203-1245 *)
  Definition ptrPreds : list fdecl :=
    flat_map (fun info : string * bbin =>
      let name := fst info in
      [ FuncDecl (indexedName name [NRef; NBool]) [("p1", NRef); ("p2", NRef)] NBool
          (Some (if bitPrecisePointers O
                 then EFun (indexedName name [pointerType; NBool]) [makePtrVarExpr 1; makePtrVarExpr 2]
                 else EBin (snd info) (makePtrVarExpr 1) (makePtrVarExpr 2))) AInline;
        FuncDecl (indexedName name [NRef]) [("p1", NRef); ("p2", NRef)] (intType O 1)
          (Some (EIte (EFun (indexedName name [NRef; NBool]) [makePtrVarExpr 1; makePtrVarExpr 2])
                   (integerLit O 1 1) (integerLit O 0 1))) AInline ]) ptrPredTable.

  (** Prelude.cpp:1247-1264 *)
  Definition ptrArithDecls : list fdecl :=
    map (fun op => FuncDecl (indexedName op [NRef]) [("p1", NRef); ("p2", NRef)] NRef
                     (Some (EFun (indexedName op [pointerType]) [EVar "p1"; EVar "p2"])) AInline)
        ["$add"; "$sub"; "$mul"].

  (** Prelude.cpp:1266-1297.  The stored pointer of the bytewise store is the
      parameter makePtrVars(2).front() = "p1". *)
  Definition ptrMemDecls : list fdecl :=
    (if bitPrecise O then
       [ unsafeLoad NRef (EFun (indexedName "$i2p" [NBv P; NRef])
                            [EFun (indexedName "$load" [NBytes; NBv P]) [makeMapVarExpr; makePtrVarExpr 0]]);
         unsafeStore (makePtrVarName 1, NRef)
           (EFun (indexedName "$store" [NBytes; NBv P])
              [makeMapVarExpr; makePtrVarExpr 0;
               EFun (indexedName "$p2i" [NRef; NBv P]) [makePtrVarExpr 1]]) ]
     else []) ++
    [safeLoad NRef; safeStore ("i", NRef)].

  (** The integer and pointer part of Prelude::getPrelude – Prelude.cpp:1849-1862. *)
  Definition preludeMem : list fdecl :=
    preludeInt O ++ (bvIntConvs ++ intMemDecls ++ ptrArithDecls ++ ptrPreds ++ ptrMemDecls ++ ptrNumConvs).

  (** Region facts used by load and store – Regions.h (bytewiseAccess,
      isSingleton); [reg] is the name of the region's Boogie variable. *)
  Record region := Region { bytewise : bool; singleton : bool; reg : string }.

  (** SmackRep.cpp:502-518 load, integer and pointer element types; floating-point
      accesses ("unsafe." names) are not modelled. *)
  Definition load (R : region) (t : tyname) (p : expr) : expr :=
    if singleton R then EVar (reg R)
    else EFun (indexedName "$load" (if bytewise R then [NBytes; t] else [t])) [EVar (reg R); p].

  (** SmackRep.cpp:520-542 store: the assignment [reg := expression]. *)
  Definition store (R : region) (t : tyname) (p v : expr) : string * expr :=
    (reg R,
     if singleton R then v
     else EFun (indexedName "$store" (if bytewise R then [NBytes; t] else [t])) [EVar (reg R); p; v]).

  (** SmackRep.cpp:544-569 pa *)
  Definition pa_off (base off : expr) : expr := EFun (indexedName "$add" [NRef]) [base; off].
  Definition pa_expr (base idx size : expr) : expr :=
    pa_off base (EFun (indexedName "$mul" [NRef]) [idx; size]).
  (** pa(base, long long idx, unsigned size) *)
  Definition pa_const (base : expr) (idx size : Z) : expr :=
    if 0 <=? idx then pa_expr base (pointerLitU idx) (pointerLitU size)
    else pa_expr base (EFun (indexedName "$sub" [NRef]) [pointerLitU 0; pointerLitU (Z.abs idx)])
           (pointerLitU size).

  (** One index of a getelementptr, with what the data layout says about it:
      - a struct field: its byte offset (SmackRep.cpp:252-258);
      - a constant index (as signed value) into elements of storage size [size]
        (getTypeStoreSize, SmackRep.cpp:248-250);
      - any other index: an expression of integer width [w]. *)
  Inductive gep_index :=
  | GField (off : Z)
  | GConst (idx size : Z)
  | GVar (w : Z) (e : expr) (size : Z).

  (** SmackRep.cpp:760-794 ptrArith *)
  Fixpoint ptrArith (e : expr) (l : list gep_index) : expr :=
    match l with
    | [] => e
    | GField off :: l' => ptrArith (pa_const e off 1) l'
    | GConst idx size :: l' => ptrArith (pa_const e idx size) l'
    | GVar w i size :: l' => ptrArith (pa_expr e (integerToPointer i w) (pointerLitU size)) l'
    end.
End Mem.
