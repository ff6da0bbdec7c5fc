(** The keys that [scan_prefix] yields.  This file is part of the statements. *)
From Verif Require Import Base RetainSpec.

(** [e] is what the key [k] goes on with after the last place before its end where
    the keys of [m] fork, or after the start if there is none. *)
Definition last_edge (m : bytes -> option bytes) (k e : bytes) : Prop :=
  exists p, k = p ++ e /\ (p = [] \/ fork m p) /\ (k <> [] -> e <> []) /\
  forall q z, e = q ++ z -> q <> [] -> z <> [] -> ~ fork m (p ++ q).
