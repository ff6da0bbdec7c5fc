(** The wish that examples/filesystem.rs:3-7 shows directories (C98). *)
From Verif Require Import Base Header Node Combine Iter Api Spec Client Dirs.

(** The part of a key before its first slash. *)
Fixpoint first_dir (k : bytes) : bytes :=
  match k with
  | [] => []
  | c :: k => if Byte.eqb c "/"%byte then [] else c :: first_dir k
  end.

(** Entries of different directories are printed on different lines. *)
Definition dirs_apart : Prop :=
  forall dbg t m ts u l k1 v1 k2 v2, reachable dbg t -> holds mem t m -> print_dirs 0 t ⇓ Ok ts -> In u ts ->
  iter_bytes mem u ⇓ Ok l -> In (k1, v1) l -> In (k2, v2) l -> first_dir k1 = first_dir k2.
