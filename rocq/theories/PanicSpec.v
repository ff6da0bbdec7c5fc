(** Which keys make [remove] fail a [debug_assert!] on attached trees, in terms of the
    keys.  Part of the statements of C29 and C30. *)
From Verif Require Import Base Header Node Spec GroupSpec.

(** [k] leaves the keys of [m] between two forks: after some path [q] no key goes on
    like [k], although more than one key starts with [q], and [q] is not a fork. *)
Definition strays (m : kmap) (k : bytes) : Prop :=
  exists q c w x y, k = q ++ c :: w /\ (forall z, m (q ++ c :: z) = None) /\ ~ forks m q /\
    x <> y /\ m (q ++ x) <> None /\ m (q ++ y) <> None.

(** The tree was decoded from bytes and not modified since, like the trees that
    attach, reattach and load return. *)
Definition just_read (t : node) : Prop := exists data, deserialize data = Ok t.

(** Which attached trees can be combined without a panic, in terms of the keys.  Part
    of the statements of C31. *)
Definition below (m : kmap) (p : bytes) : Prop := exists z, m (p ++ z) <> None.
Definition longer (m : kmap) (p : bytes) : Prop := exists c z, m (p ++ c :: z) <> None.

(** Where both have keys, they fork at the same places. *)
Definition lined_up (m mu : kmap) : Prop :=
  forall p, below m p -> below mu p -> (forks m p <-> forks mu p).
(** At common forks, [mu] has a key where [m] has one, and longer keys where [m] has some. *)
Definition covered (m mu : kmap) : Prop :=
  forall p, forks m p -> forks mu p -> (m p <> None -> mu p <> None) /\ (longer m p -> longer mu p).
(** Keys of [m] and [mu] diverge only at forks of [m]. *)
Definition no_split (m mu : kmap) : Prop :=
  forall p c1 c2 z1 z2, c1 <> c2 -> m (p ++ c1 :: z1) <> None -> mu (p ++ c2 :: z2) <> None -> forks m p.
Definition inhabited (m : kmap) : Prop := exists k, m k <> None.

(** Conditions for the three combines; each of them holds for maps with the same keys. *)
Definition inner_fits (m mu : kmap) : Prop := lined_up m mu.
Definition left_fits (m mu : kmap) : Prop := lined_up m mu /\ covered m mu /\ (inhabited m -> inhabited mu).
Definition outer_fits (m mu : kmap) : Prop :=
  lined_up m mu /\ covered m mu /\ covered mu m /\ no_split m mu /\ (inhabited m <-> inhabited mu).
