(** What a blob store must do for the theorems about stored trees: the contract of
    [BlobStore] (src/store/blob_store.rs:11-30).  This file is part of the
    statements. *)
From Verif Require Import Base Header Node Store.

(** The state after some writes, failed or not. *)
Fixpoint after (S : store) (s : st S) (ds : list bytes) : st S :=
  match ds with
  | [] => s
  | d :: ds => after S (snd (st_write S s d)) ds
  end.

(** [inv] describes the states the store can be in.
    - A write either fails with an error or returns an id of 1 to 126 bytes.
    - Then and after any further writes the data can be read under this id.
    What a read of other ids gives does not matter. *)
Record lawful (S : store) (inv : st S -> Prop) : Prop := {
  law_write : forall s d r s', inv s -> st_write S s d = (r, s') ->
    inv s' /\ (r = Err \/ exists id, r = Ok id /\ 1 <= length id <= 126);
  law_read : forall s d id s' ds, inv s -> st_write S s d = (Ok id, s') ->
    st_read S (after S s' ds) id = Ok d
}.

(** The store does refuse some write. *)
Definition may_refuse (S : store) (inv : st S -> Prop) : Prop :=
  exists s d s', inv s /\ st_write S s d = (Err, s').
