(** Settings of a run in SV-COMP mode. *)
From Coq Require Import NArith ZArith List String.
Import ListNotations.

Record settings := Settings {
  inputs : list string; property : option string; check : N; integer_encoding : string; static_unroll : bool; rewrite_bitwise_ops : bool; strings : bool;
  clang_options : string; bpl_file : string; unroll : Z; time_limit : Z; max_violations : Z; context_bound : Z; loop_limit : Z; solver : string; modular : bool;
  verifier_options : list string }.
