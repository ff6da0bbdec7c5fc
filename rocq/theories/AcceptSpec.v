(** When a store accepts the writes of a tree.  This file is part of the
    statements; it models no code. *)
From Verif Require Import Base BaseLemmas Header Node Store Spec U64 File PagedFile PagedSpec.

(** The store accepts each of the next [k] writes, as long as no write has more
    than [b] bytes. *)
Fixpoint takes (S : store) (b : N) (k : nat) (s : st S) : Prop :=
  match k with
  | O => True
  | Datatypes.S k => forall d, (N.of_nat (length d) <= b)%N ->
      exists id s', st_write S s d = (Ok id, s') /\ takes S b k s'
  end.

(** No key and no value has more than [b] bytes. *)
Definition entries_within (b : N) (l : list (bytes * bytes)) : Prop :=
  Forall (fun e => (N.of_nat (length (fst e)) <= b)%N /\ (N.of_nat (length (snd e)) <= b)%N) l.

(** Bytes that the children of one node take at most: 256 records of three fields
    of 128 bytes. *)
Definition kids_max : N := 98304.

(** Writes that storing a tree with [n] entries takes at most: a tree has at most
    [2 * n + 1] nodes, each with a prefix, a value and children, and then there is the
    root. *)
Definition writes_max (n : nat) : nat := 3 * (2 * n + 1) + 1.

(** After the calls [cs] the file of a paged store has room for [k] more writes. *)
Definition room_for (ps : N) (k : nat) (cs : list (op * fault)) : Prop :=
  (4096 + 2 * ps * (N.of_nat (length (filter is_write cs)) + N.of_nat k + 1) < max_file)%N.
