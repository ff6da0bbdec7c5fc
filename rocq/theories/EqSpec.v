(** When two trees made by insertions compare as equal.  This file is part of the
    statements. *)
From Verif Require Import Base Header Node Combine Iter Api Client Spec.

(** [k] is a key and no longer key begins with it. *)
Definition outermost (m : kmap) (k : bytes) : Prop :=
  m k <> None /\ forall s, s <> [] -> m (k ++ s) = None.

(** [k] is the key of at least two of the insertions, or it is the empty key and
    that of the first one. *)
Definition again (l : list (bytes * bytes)) (k : bytes) : Prop :=
  2 <= length (filter (fun e => beq (fst e) k) l) \/ (k = [] /\ exists v l', l = ([], v) :: l').
