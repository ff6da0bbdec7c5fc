(** What tidying up a file in the browser cache should do.
    This file is part of the statements. *)
From Verif Require Import Base BaseLemmas Header Node Store U64 File Chunk WebFile WebSpec WebOpen.
Local Open Scope N_scope.

(** Running the plan [open] with [execute_plan].  The faults say which of the cache operations fail;
    closing the page in the middle is a fault followed by opening the file again. *)
Definition tidy (t : list bool) (f : wfile) : res unit * wfile :=
  execute_plan (open_plan (w_chunks f)) (with_faults t f).

(** The states after histories of calls, faults, reopenings and tidying. *)
Inductive tidied : wfile -> Prop :=
| T_new : tidied new_web_file
| T_step f c r f' : tidied f -> step c f = (r, f') -> tidied f'
| T_tidy f t r f' : tidied f -> tidy t f = (r, f') -> tidied f'.

(** The position [x] is stored in the cache. *)
Definition stored (f : wfile) (x : N) : Prop :=
  exists c d, cache_match c (w_cache f) = Some d /\ offset c <= x < offset c + N.of_nat (length d).
(** The file is stored up to [n], and not beyond without a gap. *)
Definition gapless (f : wfile) (n : N) : Prop := (forall x, x < n -> stored f x) /\ ~ stored f n.

(** Reading without the check of the length: the function [read], web_cache_fs.rs:472-487. *)
Definition raw_now (f : wfile) (t : list bool) (s e : N) : res bytes := fst (read_raw (s, e) (with_faults t f)).
