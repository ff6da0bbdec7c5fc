(** What a walk through the groups of a tree shows.  Part of the statement of C95. *)
From Verif Require Import Base Header Node Combine Iter Api Spec Client GroupSpec.
From Coq Require Import Sorting.Sorted.

(** A line printed by [dump], examples/dump.rs:4-9: how far it is indented, the prefix and
    the value of the tree.  The texts that [Debug] makes of the two are not modelled here. *)
Record line := Line { l_depth : nat; l_path : blob; l_value : option blob }.

(** The places that are shown: those at which the keys fork, or, without keys, the empty path. *)
Definition place (m : kmap) (q : bytes) : Prop := forks m q \/ (forall k, m k = None) /\ q = [].

(** A line shows the path [q] and what [m] has there. *)
Definition tells (m : kmap) (q : bytes) (l : line) : Prop :=
  l_path l = Data q /\ l_value l = option_map Data (m q).

(** The paths of the lines do not decrease. *)
Definition in_order (ls : list line) : Prop :=
  StronglySorted (fun a b => ~ lex_lt (blob_slice (l_path b)) (blob_slice (l_path a))) ls.

(** A line with the path [q] is indented by the number of forks above [q]; a value may also be
    shown one step further to the right, among the groups of its tree. *)
Definition indented (m : kmap) (q : bytes) (l : line) : Prop :=
  exists over, NoDup over /\ (forall y, In y over <-> forks m y /\ exists z, z <> [] /\ q = y ++ z) /\
    (l_depth l = length over \/ m q <> None /\ l_depth l = S (length over)).
