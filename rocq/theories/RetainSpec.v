(** Which keys [retain_prefix_with] keeps.  This file is part of the statements. *)
From Verif Require Import Base.

(** The keys of [a] that extend [q] do not all go on with the same byte. *)
Definition fork (a : bytes -> option bytes) (q : bytes) : Prop :=
  a q <> None \/
  exists x y k l, x <> y /\ a (q ++ x :: k) <> None /\ a (q ++ y :: l) <> None.

(** The key [k] of [a] extends a selected key [p] of [b], and wherever a key of [b] on
    the way to [p] is rejected, the keys of [a] fork. *)
Definition kept (s : bytes -> bool) (a b : bytes -> option bytes) (k : bytes) : Prop :=
  exists p r x, k = p ++ r /\ b p = Some x /\ s x = true /\
  forall q u y, p = q ++ u -> u <> [] -> b q = Some y -> s y = false -> fork a q.

(** [r] has exactly those entries of [a]. *)
Definition retained (s : bytes -> bool) (a b r : bytes -> option bytes) : Prop :=
  forall k x, r k = Some x <-> a k = Some x /\ kept s a b k.
