(** share/smack/frontend.py and frontend and llvm_to_bpl of share/smack/top.py: from the input
    files to the Boogie program. *)
From Coq Require Import List String Ascii Bool NArith.
From Verif.Spec Require Import Frontend.
From Verif.Model Require Import ErrTrace Driver Svcomp.
Import ListNotations.
Open Scope string_scope.
Open Scope list_scope.

(** The arguments, top.py:262-600, as they are after the parsing.  clang_options is split. *)
Record settings := Settings {
  input_files : list string; language : option string; entry_points : list string; checked_functions : list string;
  check : N; float : bool; pthread : bool; strings : bool; max_threads : string; integer_encoding : string;
  pointer_encoding : string; mem_mod : string; clang_options : list string; bc_file : string; linked_bc_file : string;
  bpl_file : string; warn : string; debug : bool; debug_only : option string; ll_file : option string; static_unroll : bool;
  timing_annotations : bool; no_byte_access_inference : bool; rewrite_bitwise_ops : bool; no_memory_splitting : bool;
  fail_on_loop_exit : bool; llvm_assumes : option string; modular : bool }.
(** What is around: the directories of SMACK, whether the output is a terminal, the flags of
    gnustep-config, the names mkstemp chooses, the order of Python's sets. *)
Record env := Env {
  headers : string; lib : string; tty : bool; objc_flags : list string;
  fresh : list string -> string -> string -> string; order : list string -> list string }.

(** languages – frontend.py:16-37 *)
Definition languages : list (string * string) :=
  [("c", "c"); ("i", "c"); ("cc", "cxx"); ("cpp", "cxx"); ("m", "objc"); ("d", "d"); ("json", "json"); ("svcomp", "svcomp");
   ("bc", "llvm"); ("ll", "llvm"); ("bpl", "boogie"); ("f", "fortran"); ("for", "fortran"); ("f90", "fortran");
   ("f95", "fortran"); ("f03", "fortran"); ("rs", "rust"); ("toml", "cargo")].
(** frontends – :40-58, the keys; --language accepts them – top.py:338-340 *)
Definition frontends : list string := ["c"; "cxx"; "objc"; "d"; "json"; "svcomp"; "llvm"; "boogie"; "fortran"; "rust"; "cargo"].
(** extra_libs – :61-68, the keys *)
Definition extra_libs : list string := ["fortran"; "cxx"; "rust"].
Fixpoint lookup_s {A} (k : string) (l : list (string * A)) : option A :=
  match l with [] => None | (x, v) :: l' => if String.eqb k x then Some v else lookup_s k l' end.

(** os.path.splitext(…)[1][1:], of the base name; leading dots do not count *)
Fixpoint after (c : ascii) (s : string) : option string :=
  match s with
  | "" => None
  | String x r => match after c r with Some t => Some t | None => if Ascii.eqb x c then Some r else None end
  end.
Definition basename (f : string) : string := match after "/" f with Some t => t | None => f end.
Fixpoint undot (s : string) : string := match s with String "." r => undot r | _ => s end.
Definition splitext (f : string) : string := match after "." (undot (basename f)) with Some t => t | None => "" end.

(** .upper().replace('-', '_') *)
Definition upper (c : ascii) : ascii :=
  if Nat.leb 97 (nat_of_ascii c) && Nat.leb (nat_of_ascii c) 122 then ascii_of_nat (nat_of_ascii c - 32) else if Ascii.eqb c "-" then "_"%char else c.
Fixpoint upper_s (s : string) : string := match s with "" => "" | String c r => String (upper c) (upper_s r) end.
(** default_clang_compile_command without the compiler – :106-140 *)
Definition default_clang_options (e : env) (a : settings) (is_lib : bool) : list string :=
  ["-c"; "-emit-llvm"; "-O0"; "-g"; "-gcolumn-info"; "-Xclang"; "-disable-O0-optnone"] ++ [("-I" ++ headers e)%string] ++ clang_options a ++
  [("-DMEMORY_MODEL_" ++ upper_s (mem_mod a))%string] ++
  (if contains_mem_safe_props (check a) then ["-DMEMORY_SAFETY"] else []) ++
  (if flag_in INTEGER_OVERFLOW (check a) then (if negb is_lib then ["-fsanitize=signed-integer-overflow,shift"] else ["-DSIGNED_INTEGER_OVERFLOW_CHECK"]) else []) ++
  (if negb (flag_in ASSERTIONS (check a)) then ["-DDISABLE_SMACK_ASSERTIONS"] else []) ++
  (if float a then ["-DFLOAT_ENABLED"] else []) ++
  (if pthread a then [("-DSMACK_MAX_THREADS=" ++ max_threads a)%string] else []) ++
  (if String.eqb (integer_encoding a) "bit-vector" then ["-DBIT_PRECISE"] else []) ++
  (if tty e then ["-fcolor-diagnostics"] else []).
(** default_rust_compile_args, default_rust_compile_command – :366-383 *)
Definition rust_options (rest : list string) : list string :=
  ["+nightly-2021-03-01"; "-A"; "unused-imports"; "-C"; "opt-level=0"; "-C"; "no-prepopulate-passes"; "-g"; "--cfg"; "verifier=""smack"""; "-C"; "passes=name-anon-globals"] ++ rest.

(** Files, and the entry points, which front ends add to *)
Record st := St { files : list (string * content); eps : list string }.
Definition put (n : string) (c : content) (s : st) : st := St ((n, c) :: files s) (eps s).
Definition read (n : string) (s : st) : option content := lookup_s n (files s).
(** temporary_file – utils.py:14-19: a new file *)
Definition temporary_file (e : env) (prefix ext : string) (s : st) : string * st :=
  let n := fresh e (map fst (files s)) prefix ext in (n, put n Empty s).
Definition stem (f : string) : string := let b := basename f in substring 0 (String.length b - (1 + String.length (splitext b))) b.
(** compile_to_bc, d_compile_to_bc – :143-162.  The file stays as it was if a compiler does not
    find its input; smack then stops: None. *)
Definition compile_to_bc (e : env) (file compiler : string) (options : list string) (s : st) : option (string * st) :=
  let (bc, s1) := temporary_file e (stem file) ".bc" s in
  match read file s1 with Some c => Some (bc, put bc (Compiled compiler options c) s1) | None => None end.
(** rust_build_rlib – :386-396 *)
Definition rust_build_rlib (e : env) (file : string) (s : st) : option (string * st) :=
  let (rlib, s1) := temporary_file e ("lib" ++ stem file) ".rlib" s in
  match read file s1 with Some c => Some (rlib, put rlib (Compiled "rustc" (rust_options ["--crate-type"; "rlib,lib"]) c) s1) | None => None end.
Definition smack_lib (e : env) (f : string) : string := (lib e ++ "/" ++ f)%string.
(** The front ends – :201-243, 399-407.  Those for Fortran, Cargo, Boogie, SV-COMP and compilation
    databases are not modelled: None. *)
Definition run_frontend (e : env) (a : settings) (lang file : string) (s : st) : option (string * st) :=
  if String.eqb lang "llvm" then Some (file, s)
  else if String.eqb lang "c" then compile_to_bc e file "clang" (default_clang_options e a false) s
  else if String.eqb lang "cxx" then compile_to_bc e file "clang++" (default_clang_options e a false) s
  else if String.eqb lang "objc" then compile_to_bc e file "clang" (default_clang_options e a false ++ objc_flags e) s
  else if String.eqb lang "d" then compile_to_bc e file "ldc2" ["-output-ll"; ("-I=" ++ headers e)%string] (St (files s) (eps s ++ ["_Dmain"]))
  else if String.eqb lang "rust" then
    match rust_build_rlib e (smack_lib e "smack.rs") s with
    | Some (rlib, s1) => compile_to_bc e file "rustc" (rust_options ["--emit=llvm-bc"; "--extern"; ("smack=" ++ rlib)%string]) s1
    | None => None
    end
  else None.

(** for c in libs: compile_to_bc(c, …) *)
Fixpoint build (e : env) (compiler : string) (options : list string) (l : list string) (s : st) : option (list string * st) :=
  match l with
  | [] => Some ([], s)
  | f :: l' =>
      match compile_to_bc e (smack_lib e f) compiler options s with
      | Some (bc, s1) => match build e compiler options l' s1 with Some (bcs, s2) => Some (bc :: bcs, s2) | None => None end
      | None => None
      end
  end.
(** default_build_libs – :410-430 *)
Definition default_libs (a : settings) : list string :=
  ["smack.c"; "stdlib.c"; "errno.c"; "smack-rust.c"] ++ (if pthread a then ["pthread.c"] else []) ++
  (if strings a then ["string.c"] else []) ++ (if float a then ["math.c"] ++ ["fenv.c"] else []).
Definition default_build_libs (e : env) (a : settings) (s : st) : option (list string * st) :=
  build e "clang" (default_clang_options e a true) (default_libs a) s.
(** cplusplus_build_libs, rust_build_libs – :449-479 *)
Definition build_lib (e : env) (a : settings) (lang : string) (s : st) : option (list string * st) :=
  if String.eqb lang "cxx" then build e "clang++" (default_clang_options e a true) ["smack.cpp"] s
  else if String.eqb lang "rust" then build e "rustc" (rust_options ["--emit=llvm-bc"; "--crate-type"; "lib"]) ["smack.rs"] s
  else None.
Fixpoint build_libs (e : env) (a : settings) (l : list string) (s : st) : option (list string * st) :=
  match l with
  | [] => Some ([], s)
  | x :: l' =>
      match build_lib e a x s with
      | Some (b1, s1) => match build_libs e a l' s1 with Some (b2, s2) => Some (b1 ++ b2, s2) | None => None end
      | None => None
      end
  end.
(** extern_entry_points – :89-103 *)
Fixpoint extern_entry_points (e : env) (bcs : list string) (s : st) : option (list string * st) :=
  match bcs with
  | [] => Some ([], s)
  | bc :: l =>
      let (n, s1) := temporary_file e (stem bc) ".bc" s in
      match read bc s1 with
      | Some c => match extern_entry_points e l (put n (Visible (eps s1) c) s1) with Some (ns, s2) => Some (n :: ns, s2) | None => None end
      | None => None
      end
  end.
(** llvm-link -o out ins *)
Fixpoint read_all (l : list string) (s : st) : option (list content) :=
  match l with
  | [] => Some []
  | n :: l' => match read n s, read_all l' s with Some c, Some cs => Some (c :: cs) | _, _ => None end
  end.
Definition llvm_link (out : string) (ins : list string) (s : st) : option st :=
  match read_all ins s with Some cs => Some (put out (Linked cs) s) | None => None end.

(** llvm_to_bpl – top.py:712-767, the options of llvm2bpl, without the passes over the text *)
Definition llvm2bpl_options (e : env) (a : settings) (eps : list string) : list string :=
  [linked_bc_file a; "-bpl"; bpl_file a] ++ ["-warn-type"; warn a] ++ ["-sea-dsa=ci"] ++
  (if tty e then ["-colored-warnings"] else []) ++ ["-source-loc-syms"] ++
  flat_map (fun ep => ["-entry-points"; ep]) eps ++
  flat_map (fun cf => ["-checked-functions"; cf]) (checked_functions a) ++
  (if debug a then ["-debug"] else []) ++
  (match debug_only a with Some d => ["-debug-only"; d] | None => [] end) ++
  (match ll_file a with Some f => ["-ll"; f] | None => [] end) ++
  (if contains "impls" (mem_mod a) then ["-mem-mod-impls"] else []) ++
  (if static_unroll a then ["-static-unroll"] else []) ++
  (if String.eqb (integer_encoding a) "bit-vector" then ["-bit-precise"] else []) ++
  (if String.eqb (integer_encoding a) "wrapped-integer" then ["-wrapped-integer-encoding"] else []) ++
  (if timing_annotations a then ["-timing-annotations"] else []) ++
  (if String.eqb (pointer_encoding a) "bit-vector" then ["-bit-precise-pointers"] else []) ++
  (if no_byte_access_inference a then ["-no-byte-access-inference"] else []) ++
  (if rewrite_bitwise_ops a then ["-rewrite-bitwise-ops"] else []) ++
  (if no_memory_splitting a then ["-no-memory-splitting"] else []) ++
  (if contains_mem_safe_props (check a) then ["-memory-safety"] else []) ++
  (if flag_in INTEGER_OVERFLOW (check a) then ["-integer-overflow"] else []) ++
  (if flag_in RUST_PANICS (check a) then ["-rust-panics"] else []) ++
  (if fail_on_loop_exit a then ["-fail-on-loop-exit"] else []) ++
  (match llvm_assumes a with Some m => [("-llvm-assumes=" ++ m)%string] | None => [] end) ++
  (if float a then ["-float"] else []) ++
  (if modular a then ["-modular"] else []).
Definition llvm_to_bpl (e : env) (a : settings) (s : st) : option st :=
  match read (linked_bc_file a) s with Some c => Some (put (bpl_file a) (Boogie (llvm2bpl_options e a (eps s)) c) s) | None => None end.

(** link_bc_files – frontend.py:482-497 *)
Definition link_bc_files (e : env) (a : settings) (bitcodes libs : list string) (s : st) : option st :=
  match default_build_libs e a s with
  | Some (b1, s1) =>
      match build_libs e a (order e libs) s1 with
      | Some (b2, s2) =>
          match extern_entry_points e bitcodes s2 with
          | Some (bcs, s3) =>
              match llvm_link (bc_file a) bcs s3 with
              | Some s4 => match llvm_link (linked_bc_file a) (bc_file a :: b1 ++ b2) s4 with Some s5 => llvm_to_bpl e a s5 | None => None end
              | None => None
              end
          | None => None
          end
      | None => None
      end
  | None => None
  end.
(** libs.add *)
Definition add_libs (lang : string) (libs : list string) : list string :=
  if existsb (String.eqb lang) extra_libs && negb (existsb (String.eqb lang) libs) then libs ++ [lang] else libs.
(** The loops over the input files – top.py:685-706; a language that is not in the dictionary is
    a KeyError: None. *)
Definition lang_of (a : settings) (file : string) : option string :=
  match language a with Some l => lookup_s l languages | None => lookup_s (splitext file) languages end.
Fixpoint compile_all (e : env) (a : settings) (l : list string) (libs : list string) (s : st) : option (list string * list string * st) :=
  match l with
  | [] => Some ([], libs, s)
  | f :: l' =>
      match lang_of a f with
      | Some lang =>
          match run_frontend e a lang f s with
          | Some (bc, s1) => match compile_all e a l' (add_libs lang libs) s1 with Some (bcs, libs', s2) => Some (bc :: bcs, libs', s2) | None => None end
          | None => None
          end
      | None => None
      end
  end.
(** frontend – top.py:674-709 *)
Definition frontend (e : env) (a : settings) (fs : list (string * content)) : option st :=
  match compile_all e a (input_files a) [] (St fs (entry_points a)) with
  | Some (bcs, libs, s) => link_bc_files e a bcs libs s
  | None => None
  end.
