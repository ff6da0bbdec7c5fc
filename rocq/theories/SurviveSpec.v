(** Trees that have been through operations that failed.  This file is part of the
    statements. *)
From Verif Require Import Base Header Node Combine Iter Api Client Spec Store StoreSpec World InPlace FailSpec InPlaceSpec.

(** Nothing can be read from the store: the reader of trees in memory. *)
Definition unstored (rd : reader) : Prop := forall id x, rd id <> Ok x.

(** [F] builds a new tree from [t] and [u] by one of the three combines; it should
    give the contents [m']. *)
Inductive joins (dbg : bool) (rd rdB : reader) (t u : node) (m mu : kmap)
    (f : blob -> blob -> res (option blob)) (h : bytes -> bytes -> option bytes) : (nat -> res node) -> kmap -> Prop :=
| join_outer : joins dbg rd rdB t u m mu f h (t_outer_combine dbg rd rdB t u f) (m_outer h m mu)
| join_inner : joins dbg rd rdB t u m mu f h (t_inner_combine dbg rd rdB t u f) (m_inner h m mu)
| join_left : joins dbg rd rdB t u m mu f h (t_left_combine dbg rd rdB t u f) (m_left h m mu).

(** [used keep dbg rd t m]: the tree [t], with contents [m], that results from any
    tree by any sequence of operations in place, each of which succeeded or failed
    with an error, of filtering by prefixes, of grouping, of combining two such
    trees into a new one and of detaching.

    [attempt keep dbg rd t m f m' lost safe calm]: [f] is an operation in place on
    [t], run with a reader and closures that may fail; it should give the contents
    [m'], may lose the keys [lost] when it fails, cannot panic if [safe] and cannot
    fail if [calm].  The other tree of a combining operation may itself be such a
    used tree. *)
Inductive used (keep dbg : bool) : reader -> node -> kmap -> Prop :=
| used_fresh rd t m : tree_of dbg rd t m -> used keep dbg rd t m
| used_again rd t m f m' lost safe calm t' r now :
    used keep dbg rd t m -> attempt keep dbg rd t m f m' lost safe calm ->
    leaves f t' r -> r = Ok tt \/ r = Err -> readable rd t' now -> used keep dbg rd t' now
| used_filtered rd t m p x t' : used keep dbg rd t m -> t_filter_prefix rd t p x ⇓ Ok t' ->
    used keep dbg rd t' (m_filter_prefix m p x)
| used_grouped rd t m d ts t' now : used keep dbg rd t m -> (forall path r, exists b, d path r = Ok b) ->
    t_group_by rd t d ⇓ Ok ts -> In t' ts -> readable rd t' now -> used keep dbg rd t' now
| used_detached rd t m t' : used keep dbg rd t m -> t_detached rd t ⇓ Ok t' -> used keep dbg detached_read t' m
| used_joined rd rd' t m rdB rdB' u mu f' h F m' t' : used keep dbg rd t m -> used keep dbg rdB u mu ->
    flaky rd' rd -> flaky rdB' rdB -> flaky2 f' (combiner rd rdB h) ->
    joins dbg rd' rdB' t u m mu f' h F m' -> F ⇓ Ok t' -> used keep dbg detached_read t' m'
with attempt (keep dbg : bool) :
    reader -> node -> kmap -> (nat -> left_in node) -> kmap -> (bytes -> Prop) -> Prop -> Prop -> Prop :=
| try_insert rd rd' t m k v : flaky rd' rd ->
    attempt keep dbg rd t m (insert_in keep dbg rd' t k v) (m_insert m k v)
      (fun _ => keep = false) True (rd' = rd)
| try_remove rd rd' t m k : flaky rd' rd ->
    attempt keep dbg rd t m (remove_in keep dbg rd' t k) (m_remove m k)
      (fun _ => keep = false) (dbg = true -> unstored rd) (rd' = rd)
| try_remove_prefix rd rd' t m p : flaky rd' rd ->
    attempt keep dbg rd t m (remove_prefix_in1 keep dbg rd' t p) (m_remove_prefix m p)
      (fun _ => keep = false) (dbg = true -> unstored rd) (rd' = rd)
| try_outer rd rd' t m rdB rdB' u mu f' h c : flaky rd' rd -> flaky rdB' rdB -> used keep dbg rdB u mu ->
    flaky2 f' (combiner_with rd rdB h) ->
    (c = detach_converter rdB' \/ (c = downcast_converter /\ rdB = detached_read) \/
     (c = identity_converter rdB' /\ rdB = rd)) ->
    attempt keep dbg rd t m (outer_with_in keep dbg rd' rdB' c t u f') (m_outer h m mu)
      (fun k => keep = false \/ hit rd rdB f' m mu k) (unstored rdB)
      (rd' = rd /\ rdB' = rdB /\ f' = combiner_with rd rdB h)
| try_inner rd rd' t m rdB rdB' u mu f' h : flaky rd' rd -> flaky rdB' rdB -> used keep dbg rdB u mu ->
    flaky2 f' (combiner_with rd rdB h) ->
    attempt keep dbg rd t m (inner_with_in keep dbg rd' rdB' t u f') (m_inner h m mu)
      (fun k => keep = false \/ hit rd rdB f' m mu k) (unstored rdB)
      (rd' = rd /\ rdB' = rdB /\ f' = combiner_with rd rdB h)
| try_left rd rd' t m rdB rdB' u mu f' h : flaky rd' rd -> flaky rdB' rdB -> used keep dbg rdB u mu ->
    flaky2 f' (combiner_with rd rdB h) ->
    attempt keep dbg rd t m (left_with_in keep dbg rd' rdB' t u f') (m_left h m mu)
      (fun k => keep = false \/ hit rd rdB f' m mu k) (unstored rdB /\ (dbg = true -> unstored rd))
      (rd' = rd /\ rdB' = rdB /\ f' = combiner_with rd rdB h)
| try_remove_prefix_with rd rd' t m rdB rdB' u mu f' s : flaky rd' rd -> flaky rdB' rdB -> used keep dbg rdB u mu ->
    flaky1 f' (selector rdB s) ->
    attempt keep dbg rd t m (remove_prefix_with_in keep dbg rd' rdB' t u f') (m_remove_prefix_with s m mu)
      (fun _ => keep = false) (unstored rdB /\ (dbg = true -> unstored rd))
      (rd' = rd /\ rdB' = rdB /\ f' = selector rdB s)
| try_retain_prefix_with rd rd' t m rdB rdB' u mu f' s : flaky rd' rd -> flaky rdB' rdB -> used keep dbg rdB u mu ->
    flaky1 f' (selector rdB s) -> downward_rejected s mu ->
    attempt keep dbg rd t m (retain_prefix_with_in keep dbg rd' rdB' t u f') (m_retain_prefix_with s m mu)
      (fun _ => keep = false) (unstored rdB /\ (dbg = true -> unstored rd))
      (rd' = rd /\ rdB' = rdB /\ f' = selector rdB s).

(** What an attempt comes to. *)
Definition comes_to (rd : reader) (m : kmap) (f : nat -> left_in node) (m' : kmap) (lost : bytes -> Prop)
    (safe calm : Prop) (t' : node) (r : res unit) : Prop :=
  (r = Ok tt /\ readable rd t' m') \/
  (r = Err /\ ~ calm /\ exists now, readable rd t' now /\ partway lost m m' now) \/
  (r = Panic /\ ~ safe).
