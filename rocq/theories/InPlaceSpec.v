(** What a failed in-place operation leaves behind.  This file is part of the
    statements. *)
From Verif Require Import Base Header Node Combine Iter Api Client Spec Store StoreSpec World InPlace FailSpec.

(** The operation ends with outcome [r] (success, an error or a panic) and the
    tree is then [t]. *)
Definition leaves (f : nat -> left_in node) (t : node) (r : res unit) : Prop :=
  r <> Fuel /\ exists n0, forall n, n0 <= n -> f n = (t, r).

(** The operation with its states succeeds, fails and panics exactly when the one
    without does, with the same result. *)
Definition agrees (f : nat -> left_in node) (g : nat -> res node) : Prop :=
  (forall t, g ⇓ Ok t <-> leaves f t (Ok tt)) /\
  (g ⇓ Err <-> exists t, leaves f t Err) /\
  (g ⇓ Panic <-> exists t, leaves f t Panic).

(** The tree can be read and contains exactly the entries of [m]. *)
Definition readable (rd : reader) (t : node) (m : kmap) : Prop :=
  holds rd t m /\ exists l, iter_bytes rd t ⇓ Ok l /\ lists l m.

(** Every key has its old or its new value, or it is [lost]. *)
Definition partway (lost : bytes -> Prop) (m m' now : kmap) : Prop :=
  forall k, now k = m k \/ now k = m' k \/ (lost k /\ now k = None).

(** A tree in memory, or one attached to a lawful store, built with keys that are
    stored inline, and its contents. *)
Inductive tree_of (dbg : bool) : reader -> node -> kmap -> Prop :=
| in_memory t m : reachable dbg t -> holds detached_read t m -> tree_of dbg detached_read t m
| in_store S inv s t m : lawful S inv -> attached_by (short_history dbg) dbg S inv s t m ->
    tree_of dbg (st_read S s) t m.

(** The closure [f'] does what [f] does, or fails. *)
Definition flaky1 {A B} (f' f : A -> res B) : Prop := forall a, f' a = Err \/ f' a = f a.
Definition flaky2 {A B C} (f' f : A -> B -> res C) : Prop := forall a b, f' a b = Err \/ f' a b = f a b.
(** The closure can fail for values [x] and [y]. *)
Definition fails_on {C} (rdA rdB : reader) (f' : blob -> blob -> res C) (x y : bytes) : Prop :=
  exists a b, value_load rdA a = Ok x /\ value_load rdB b = Ok y /\ f' a b = Err.
(** [k] has values in both trees for which the closure can fail. *)
Definition hit {C} (rdA rdB : reader) (f' : blob -> blob -> res C) (m mu : kmap) (k : bytes) : Prop :=
  exists x y, m k = Some x /\ mu k = Some y /\ fails_on rdA rdB f' x y.
