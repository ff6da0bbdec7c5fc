(** Failing reads.  This file is part of the statements. *)
From Verif Require Import Base Header Node Combine Iter Api Client.

(** [rd'] answers like [rd], except that some reads fail. *)
Definition flaky (rd' rd : reader) : Prop := forall id, rd' id = Err \/ rd' id = rd id.

(** Whatever [f] returns, [f'] returns the same or an error. *)
Definition same_or_error {A} (f' f : nat -> res A) : Prop := forall r, f ⇓ r -> f' ⇓ r \/ f' ⇓ Err.

(** The results of [n] calls of [next] on an iterator. *)
Fixpoint pulls {S A : Type} (next : nat -> S -> res (yielded A * S)) (n : nat) (s : S) (fuel : nat)
  : res (list (yielded A)) :=
  match n with
  | 0 => Ok []
  | Datatypes.S n =>
      x <- next fuel s ;;
      l <- pulls next n (snd x) fuel ;;
      Ok (fst x :: l)
  end.

(** [ys'] is [ys], or [ys] up to some item, then one error, then nothing. *)
Definition cut_by_error {A} (ys' ys : list (yielded A)) : Prop :=
  ys' = ys \/ exists k, k < length ys /\ ys' = firstn k ys ++ YError :: repeat YDone (length ys - k - 1).
