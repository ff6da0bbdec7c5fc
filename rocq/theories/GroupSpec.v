(** What [group_by] is supposed to do, in terms of the keys.  Part of the statements
    of C11 and C27. *)
From Verif Require Import Base Header Node Combine Iter Api Spec Client.

(** The places at which a set of keys forks: [p] is a key itself, or keys that start
    with [p] go on with different bytes. *)
Definition forks (m : kmap) (p : bytes) : Prop :=
  m p <> None \/
  exists c1 c2 z1 z2, c1 <> c2 /\ m (p ++ c1 :: z1) <> None /\ m (p ++ c2 :: z2) <> None.

(** A user's predicate that looks at the path and at the value that is there, if any. *)
Definition by_path (rd : reader) (d : bytes -> option bytes -> bool) (path : bytes) (r : noderef) : res bool :=
  v <- load_opt rd (r_value_opt r) ;; Ok (d path v).

(** [l] is a group of [m]: there is a path [p] that is a fork (or [m] is empty), and
    the predicate said to descend at all forks above it.  Either the predicate says to
    stop at [p], and the group is everything that starts with [p].  Or it says to
    descend, and the group is the key [p] alone. *)
Definition group_of (d : bytes -> option bytes -> bool) (m : kmap) (l : list (bytes * bytes)) : Prop :=
  exists p, (forks m p \/ forall k, m k = None) /\
    (forall q z, z <> [] -> p = q ++ z -> forks m q -> d q (m q) = true) /\
    ((d p (m p) = false /\ lists_where (fun k => starts_with p k = true) l m) \/
     (d p (m p) = true /\ exists v, m p = Some v /\ l = [(p, v)])).
