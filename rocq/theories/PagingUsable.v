(** What it means that the file below a paging file works.
    This file is part of the statements. *)
From Verif Require Import Base BaseLemmas Header Node Store U64 File Chunk WebFile Paging PagingSpec.
Local Open Scope N_scope.

(** In the states [good] no call fails that stays within bounds: the length is known,
    reads up to it succeed, so do writes that end before [L] and opening the file again,
    after which the state is still good. *)
Record usable (D : dev) (inv : dv D -> file -> Prop) (good : dv D -> Prop) (L : N) : Prop := {
  us_length : forall s F, inv s F -> good s -> exists n s', dv_length D s = (Ok n, s') /\
    forall a b, a <= b -> b <= n -> exists d s'', dv_read D a b s' = (Ok d, s'');
  us_write : forall s F o d, inv s F -> good s -> o + N.of_nat (length d) < L -> exists s', dv_write D o d s = (Ok tt, s');
  us_open : forall s F, inv s F -> good s -> exists s', dv_open D s = (Ok tt, s') /\ good s'
}.
(** For a file in the browser cache: nothing fails from now on, the browser stores less
    than [2^61] bytes of the file, and all of them below [2^31]. *)
Definition browser_works (f : wfile) : Prop :=
  w_faults f = [] /\ cache_size (w_cache f) < 2305843009213693952 /\
  forall c, In c (w_chunks f) -> offset c + len c < 2147483648.
