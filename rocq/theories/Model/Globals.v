(** Placement of global values (lib/smack/SmackRep.cpp:102-109, 1262-1324;
    lib/smack/Prelude.cpp:1126-1159). *)
From Coq Require Import ZArith List String Bool.
From Verif.Model Require Import Boogie PreludeInt SmackRepInt PreludeMem.
Import ListNotations.
Open Scope string_scope.
Open Scope list_scope.
Open Scope Z_scope.

(** What globalDecl looks at in a global value.
    - [VarInit (Some s)]: a variable with an initializer whose element type is
      sized, with getTypeStoreSize = s; [VarInit None]: unsized element type;
    - [VarExtern]: a variable without initializer;
    - [Func]: a function.
    [gv_align] is getPrefTypeAlignment of the value's (pointer) type;
    [gv_code]: isCodeString, a string holding inline Boogie code. *)
Inductive gkind := VarInit (store_size : option Z) | VarExtern | Func.
Record gvalue := GValue { gv_name : string; gv_kind : gkind; gv_align : Z; gv_code : bool }.

(** unsigned (32 bit) arithmetic *)
Definition u32 (z : Z) : Z := z mod 2 ^ 32.

(** SmackRep.cpp:1271-1307: [unsigned size] and [external]. *)
Definition gsize (g : gvalue) : Z :=
  let size := match gv_kind g with
              | VarInit (Some s) => u32 s
              | VarInit None => 1024
              | VarExtern | Func => 0
              end in
  if size =? 0 then gv_align g else size.
Definition gexternal (g : gvalue) : bool :=
  match gv_kind g with VarExtern => true | _ => false end.

(** SmackRep.cpp:103-104, long long members; overflow of 64 bits is not modelled. *)
Record offsets := Offsets { globalsOffset : Z; externsOffset : Z }.
Definition initial_offsets : offsets := Offsets 0 (-32768).

Definition globalsPadding : Z := 1024.

Section Globals.
  Context (O : opts) (P : Z).

  (** SmackRep.cpp:1262-1324 globalDecl: the axioms "name == e" it emits. *)
  Definition globalDecl (st : offsets) (g : gvalue) : list (string * expr) * offsets :=
    if gv_code g then ([], st)
    else if gexternal g then
      let eo := externsOffset st - gsize g in
      ([(gv_name g, EFun (indexedName "$add" [NRef]) [EVar "$GLOBALS_BOTTOM"; pointerLit O P eo])],
       Offsets (globalsOffset st) eo)
    else
      let go := globalsOffset st - u32 (gsize g + globalsPadding) in
      ([(gv_name g, pointerLit O P go)], Offsets go (externsOffset st)).

  (** SmackModuleGenerator.cpp:43-58: all globals, in order. *)
  Fixpoint globalDecls (st : offsets) (gs : list gvalue) : list (string * expr) * offsets :=
    match gs with
    | [] => ([], st)
    | g :: gs' =>
        let (ax, st1) := globalDecl st g in
        let (axs, st2) := globalDecls st1 gs' in (ax ++ axs, st2)
    end.

  (** Prelude.cpp:1126-1147: the bounds, emitted after all globals. *)
  Definition addrBounds (st : offsets) : list (string * expr) :=
    [ ("$GLOBALS_BOTTOM", pointerLit O P (globalsOffset st));
      ("$EXTERNS_BOTTOM", EFun (indexedName "$add" [NRef])
                            [EVar "$GLOBALS_BOTTOM"; pointerLit O P (externsOffset st)]);
      ("$MALLOC_TOP", pointerLit O P (if P =? 32 then 2147483647 else 9223372036854775807)) ].

  Definition addressAxioms (gs : list gvalue) : list (string * expr) :=
    let (ax, st) := globalDecls initial_offsets gs in ax ++ addrBounds st.

  (** Prelude.cpp:1149-1158 *)
  Definition isExternal (p : expr) : expr :=
    EFun (indexedName "$slt" [NRef; NBool]) [p; EVar "$EXTERNS_BOTTOM"].
End Globals.
