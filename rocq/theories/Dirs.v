(** The grouping of examples/filesystem.rs. *)
From Verif Require Import Base Header Node Combine Iter Api Spec Client.

(** [x.iter().any(|x| *x == b'/')], examples/filesystem.rs:4. *)
Definition has_slash (x : bytes) : bool := existsb (fun c => Byte.eqb c "/"%byte) x.
(** The closure of examples/filesystem.rs:4.  [key[depth..]] panics if the key is shorter than [depth]. *)
Definition below_dir (depth : nat) (key : bytes) (_ : noderef) : res bool :=
  if length key <? depth then Panic else Ok (has_slash (skipn depth key)).
(** [print_dirs], examples/filesystem.rs:3-7.  The result: the trees printed, one per line; how a tree is shown is
    not modelled, nor the indent. *)
Definition print_dirs (depth : nat) (t : node) (fuel : nat) : res (list node) :=
  t_group_by detached_read t (below_dir depth) fuel.
