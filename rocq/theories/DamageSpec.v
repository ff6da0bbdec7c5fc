(** Stores whose contents are damaged: arbitrary bytes, ids that point anywhere, cycles.
    This is part of the statement of the theorems, not a model of code in /repo. *)
From Verif Require Import Base Header Node Combine Iter Api Spec Client.

(** A record of a blob of children: one of those that are read when the blob is read from its start. *)
Inductive record_in : bytes -> bnode -> Prop :=
| ri_first data b rest : read_one data = Some (b, rest) -> record_in data b
| ri_later data a rest b : read_one data = Some (a, rest) -> record_in rest b -> record_in data b.

Section Store.
(** What the store answers, whatever it contains; [C] are the ids of blobs that are used as children. *)
Context (rd : reader) (C : bytes -> Prop).

(** The edge is not the id without bytes, and the store does not panic for the id of a long edge. *)
Definition prefix_ok (p : blob) : Prop :=
  match p with Data _ => True | Id [] => False | Id (_ :: id) => rd id <> Panic end.
(** The store does not panic for the id of a long value. *)
Definition value_ok (v : blob) : Prop :=
  match v with Data _ => True | Id [] => True | Id id => rd id <> Panic end.
(** The store does not panic for the id of the children (the first byte is the record size). *)
Definition children_ok (c : bytes) : Prop :=
  match c with [] => True | _ :: id => rd id <> Panic /\ C id end.
(** Besides, the children are given by an id. *)
Definition record_ok (b : bnode) : Prop :=
  prefix_ok (b_prefix b) /\ value_ok (b_value b) /\ exists c, b_children b = Id c /\ children_ok c.
(** All records that can be reached are so.  Nothing is said about what they contain otherwise: keys may be wrong, out of
    order or there twice, blobs may be cut off in the middle of a record, refer to each other in cycles or be missing. *)
Definition tolerable : Prop := forall id data b, C id -> rd id = Ok data -> record_in data b -> record_ok b.
(** No blob of children is without any record. *)
Definition legible : Prop := forall id data, C id -> rd id = Ok data -> read_one data <> None.
(** The same for a tree, of which some nodes may have been loaded or changed. *)
Inductive node_ok : node -> Prop :=
| ok_stored p v c : prefix_ok p -> value_ok v -> children_ok c -> node_ok (Node p v (KId c))
| ok_loaded p v ns : prefix_ok p -> value_ok v -> (forall n, In n ns -> node_ok n) -> node_ok (Node p v (KArc ns)).

(** Questions to a tree: a value or an error, if they end. *)
Inductive reading (t : node) : forall A, (nat -> res A) -> Prop :=
| q_get k : reading t (option bytes) (get_bytes rd t k)
| q_contains k : reading t bool (t_contains_key rd t k)
| q_prefix p : reading t bool (t_has_prefix rd t p)
| q_iter : reading t (list (bytes * bytes)) (iter_bytes rd t)
| q_values : reading t (list bytes) (values_bytes rd t)
| q_scan p : reading t (list (bytes * bytes)) (scan_bytes rd t p)
| q_group d : (forall p r, d p r <> Panic) -> reading t (list node) (t_group_by rd t d)
| q_detached : reading t node (t_detached rd t).
Inductive reading_ends (t : node) : forall A, (nat -> res A) -> Prop :=
| q_first_value : reading_ends t (option bytes) (first_value_bytes rd t)
| q_last_value : reading_ends t (option bytes) (last_value_bytes rd t)
| q_first_entry p : reading_ends t (option (bytes * bytes)) (first_entry_bytes rd t p)
| q_last_entry p : reading_ends t (option (bytes * bytes)) (last_entry_bytes rd t p).
(** A closure that neither panics nor makes up ids; the values of the other tree are in memory. *)
Definition calm (f : blob -> blob -> res blob) : Prop :=
  forall x y, value_ok x -> match f x (Data y) with Ok z => value_ok z | Panic => False | _ => True end.
End Store.

(** A tree in memory. *)
Definition in_memory (u : node) : Prop := node_ok detached_read (fun _ => False) u.
(** Changes of a tree, with other trees in memory, in a release build. *)
Inductive changing (rd : reader) (t : node) : (nat -> res node) -> Prop :=
| d_insert k v : changing rd t (t_insert false rd t k v)
| d_remove k : changing rd t (t_remove false rd t k)
| d_remove_prefix p : changing rd t (t_remove_prefix false rd t p)
| d_filter p s : changing rd t (t_filter_prefix rd t p s)
| d_outer u f : in_memory u -> calm rd f -> changing rd t (t_outer_combine_with false rd detached_read downcast_converter t u f)
| d_inner u f : in_memory u -> calm rd f -> changing rd t (t_inner_combine_with false rd detached_read t u f)
| d_left u f : in_memory u -> calm rd f -> changing rd t (t_left_combine_with false rd detached_read t u f)
| d_remove_with u f : in_memory u -> (forall x, f x <> Panic) -> changing rd t (t_remove_prefix_with false rd detached_read t u f)
| d_retain_with u f : in_memory u -> (forall x, f x <> Panic) -> changing rd t (t_retain_prefix_with false rd detached_read t u f).
(** After any number of such changes. *)
Inductive changed (rd : reader) (t : node) : node -> Prop :=
| ch_none : changed rd t t
| ch_next t1 f fuel t2 : changed rd t t1 -> changing rd t1 f -> f fuel = Ok t2 -> changed rd t t2.
(** The function does not return, whatever the bound on its steps. *)
Definition endless {A} (f : nat -> res A) : Prop := forall fuel, f fuel = Fuel.
(** No long edge of such a record is stored as a blob without bytes. *)
Definition edges_there (rd : reader) (C : bytes -> Prop) : Prop := forall id data b c e,
  C id -> rd id = Ok data -> record_in data b -> b_prefix b = Id (c :: e) -> rd e <> Ok [].
(** A tree of which only the root has been loaded. *)
Definition just_loaded (t : node) : Prop := exists c, n_kids t = KId c.
(** The store itself always answers. *)
Definition answering (rd : reader) : Prop := forall id, rd id <> Fuel.
