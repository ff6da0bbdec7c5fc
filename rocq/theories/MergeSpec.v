(** Merging several trees into one, in any order (C82). *)
From Verif Require Import Base Header Node Combine Iter Api Spec Client Store.

(** A way to merge some of the trees [ts] (by their positions) into one.  Each step merges two results, with the function
    that returns a new tree or ([true]) with the one that works in place. *)
Inductive plan : Type :=
| Take (i : nat)
| Merge (in_place : bool) (a b : plan).
(** The trees a plan takes, in its order. *)
Fixpoint takes (p : plan) : list nat :=
  match p with
  | Take i => [i]
  | Merge _ a b => takes a ++ takes b
  end.

(** What to keep: the keys of either tree, or only the common keys. *)
Inductive keys_of := Either | Common.

(** Executing a plan on the code, with [f] for the values of common keys.  Models a client that calls outer_combine,
    outer_combine_with, inner_combine and inner_combine_with of src/node/mod.rs 3282-3299 and 3353-3370 (as modelled in Combine.v, Api.v)
    on clones of trees in memory. *)
Definition step (dbg : bool) (w : keys_of) (in_place : bool) (f : bytes -> bytes -> bytes) (t u : node) : nat -> res node :=
  let h := fun x y => Some (f x y) in
  match w, in_place with
  | Either, false => t_outer_combine dbg detached_read detached_read t u (combiner detached_read detached_read h)
  | Either, true => t_outer_combine_with dbg detached_read detached_read (detach_converter detached_read) t u
                      (combiner_with detached_read detached_read h)
  | Common, false => t_inner_combine dbg detached_read detached_read t u (combiner detached_read detached_read h)
  | Common, true => t_inner_combine_with dbg detached_read detached_read t u (combiner_with detached_read detached_read h)
  end.
Fixpoint execute (dbg : bool) (w : keys_of) (f : bytes -> bytes -> bytes) (ts : list node) (p : plan) (fuel : nat) : res node :=
  match p with
  | Take i => match nth_error ts i with Some t => Ok t | None => Err end
  | Merge in_place a b =>
      t <- execute dbg w f ts a fuel ;; u <- execute dbg w f ts b fuel ;; step dbg w in_place f t u fuel
  end.

Definition commutes (f : bytes -> bytes -> bytes) : Prop :=
  (forall x y, f x y = f y x) /\ (forall x y z, f x (f y z) = f (f x y) z).

(** Two trees that a user, or a store they are saved to, cannot tell apart. *)
Definition alike (t u : node) : Prop :=
  (forall k, exists v, get_bytes detached_read t k ⇓ Ok v /\ get_bytes detached_read u k ⇓ Ok v) /\
  (exists l, iter_bytes detached_read t ⇓ Ok l /\ iter_bytes detached_read u ⇓ Ok l) /\
  (forall (S : store) s, t_attached S t s = t_attached S u s /\ t_reattach S t s = t_reattach S u s).
(** Which keys there are. *)
Definition keyed (w : keys_of) (ms : list kmap) (is : list nat) (k : bytes) : Prop :=
  match w with
  | Either => exists i m, In i is /\ nth_error ms i = Some m /\ m k <> None
  | Common => forall i m, In i is -> nth_error ms i = Some m -> m k <> None
  end.
