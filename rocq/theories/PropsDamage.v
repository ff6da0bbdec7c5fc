(** Stores whose contents are damaged (C89).

    [rd] is what the store answers for each id: any bytes at all, or an error.  [C] are the ids of the blobs that are used as
    children of something, [tolerable rd C]: none of their records has one of three kinds of damage (DamageSpec.v).  Everything
    else may be wrong with them.  [node_ok rd C t]: the same for the part of the tree that is in memory. *)
From Verif Require Import DamageExamples Base Header Node Combine Iter Api Spec Client U64 Store StoreSpec MemStore DamageSpec DamageProofs.
From Coq Require Import List NArith.
Import ListNotations.

(** C89: after any changes, no question and no change panics; questions about the first and last entry only if besides no blob of children is without a record. *)
Theorem C89_no_panic :
  forall rd C t t', tolerable rd C -> node_ok rd C t -> changed rd t t' ->
  (forall A (f : nat -> res A) fuel, reading rd t' A f -> f fuel <> Panic) /\
  (legible rd C -> forall A (f : nat -> res A) fuel, reading_ends rd t' A f -> f fuel <> Panic) /\
  (forall f fuel, changing rd t' f -> f fuel <> Panic).
Proof. exact damaged_history. Qed.
Print Assumptions C89_no_panic.
Example C89_no_panic_example :
  tolerable (mem_read damaged) d_children /\ legible (mem_read damaged) d_children /\ node_ok (mem_read damaged) d_children d_root /\
  get_bytes (mem_read damaged) d_root (B"aaaa") 20 = Ok (Some (B"v")) /\
  get_bytes (mem_read damaged) d_root (B"bx") 20 = Err /\ get_bytes (mem_read damaged) d_root (B"c") 20 = Err /\ get_bytes (mem_read damaged) d_root (B"d") 20 = Ok None /\
  exists t', changed (mem_read damaged) d_root t' /\ t' <> d_root /\
    get_bytes (mem_read damaged) t' (B"ax") 20 = Ok (Some (B"new")) /\ get_bytes (mem_read damaged) t' (B"aaa") 20 = Ok (Some (B"v")) /\
    t_insert false (mem_read damaged) t' (B"ca") (B"w") 20 = Err.
Proof.
  split; [exact d_tolerable|]. split; [exact d_legible|]. split; [exact d_root_ok|]. do 4 (split; [vm_compute; reflexivity|]).
  eexists. split; [eapply (ch_next _ _ _ _ 20); [apply ch_none|apply (d_insert _ _ (B"ax") (B"new"))|vm_compute; reflexivity]|].
  split; [discriminate|]. split; [vm_compute; reflexivity|]. split; vm_compute; reflexivity.
Qed.

(** C89: loading does not panic, and gives such a tree, whatever the blob contains besides. *)
Theorem C89_loaded :
  forall C (S : store) (s : st S) id, tolerable (st_read S s) C -> st_read S s id <> Panic ->
  (forall data b, st_read S s id = Ok data -> record_in data b -> record_ok (st_read S s) C b) ->
  t_load S s (Some id) <> Panic /\ (forall t, t_load S s (Some id) = Ok t -> node_ok (st_read S s) C t).
Proof. exact damaged_load. Qed.
Print Assumptions C89_loaded.
Example C89_loaded_example : t_load mem_store damaged (Some (id8 1)) = Ok d_root.
Proof. exact d_loads. Qed.

(** C89: a lookup looks at no more nodes than the key has bytes, and two more, even if blobs refer to each other in cycles, unless a long edge is stored as a blob without bytes. *)
Theorem C89_lookups_end :
  forall rd C, tolerable rd C -> edges_there rd C -> answering rd ->
  forall t k fuel, node_ok rd C t -> just_loaded t -> length k + 1 < fuel ->
  (exists o, get_bytes rd t k fuel = Ok o) \/ get_bytes rd t k fuel = Err.
Proof. exact lookups_end. Qed.
Print Assumptions C89_lookups_end.
Example C89_lookups_end_example :
  tolerable (mem_read damaged) d_children /\ edges_there (mem_read damaged) d_children /\ answering (mem_read damaged) /\
  node_ok (mem_read damaged) d_children d_root /\ just_loaded d_root /\ get_bytes (mem_read damaged) d_root (B"aaaaaaab") 10 = Ok None.
Proof. split; [exact d_tolerable|]. split; [exact d_edges|]. split; [apply mem_answers|]. split; [exact d_root_ok|]. split; [eexists; reflexivity|vm_compute; reflexivity]. Qed.

(** C89: each kind of damage does lead to a panic: an edge without bytes that is marked as an id, *)
Theorem C89_edge_panics :
  exists s id t, t_load mem_store s (Some id) = Ok t /\ iter_bytes (mem_read s) t ⇓ Panic.
Proof. exact edge_panics. Qed.
Print Assumptions C89_edge_panics.
(** C89: children that are not marked as an id, *)
Theorem C89_children_panic :
  exists s id t, t_load mem_store s (Some id) = Ok t /\ t_contains_key (mem_read s) t (B"a") ⇓ Ok true /\ iter_bytes (mem_read s) t ⇓ Panic.
Proof. exact children_panic. Qed.
Print Assumptions C89_children_panic.
(** C89: a blob of children without a record. *)
Theorem C89_blob_panics :
  exists s id t, t_load mem_store s (Some id) = Ok t /\ iter_bytes (mem_read s) t ⇓ Ok [] /\ first_value_bytes (mem_read s) t ⇓ Panic.
Proof. exact blob_panics. Qed.
Print Assumptions C89_blob_panics.
(** C89: a lookup that never ends. *)
Theorem C89_endless :
  exists s id t, t_load mem_store s (Some id) = Ok t /\ endless (get_bytes (mem_read s) t (B"c")).
Proof. exact endless_lookup. Qed.
Print Assumptions C89_endless.
