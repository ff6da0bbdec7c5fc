(** How client code observes trees, and programs of API calls on in-memory trees.
    This file is part of the statement of the theorems, not a model of code in
    /repo. *)
From Verif Require Import Base Header Node Combine Iter Api Spec.

(** Load the value of an entry. *)
Definition load_opt (rd : reader) (o : option blob) : res (option bytes) :=
  match o with
  | None => Ok None
  | Some b => x <- value_load rd b ;; Ok (Some x)
  end.
Fixpoint load_values (rd : reader) (l : list blob) : res (list bytes) :=
  match l with
  | [] => Ok []
  | b :: l => x <- value_load rd b ;; xs <- load_values rd l ;; Ok (x :: xs)
  end.
Definition load_entry (rd : reader) (o : option (bytes * blob)) : res (option (bytes * bytes)) :=
  match o with
  | None => Ok None
  | Some (k, b) => x <- value_load rd b ;; Ok (Some (k, x))
  end.
Fixpoint load_entries (rd : reader) (l : list (bytes * blob)) : res (list (bytes * bytes)) :=
  match l with
  | [] => Ok []
  | (k, b) :: l => x <- value_load rd b ;; xs <- load_entries rd l ;; Ok ((k, x) :: xs)
  end.

(** [get], then load the value found. *)
Definition get_bytes (rd : reader) (t : node) (k : bytes) (fuel : nat) : res (option bytes) :=
  o <- t_get rd t k fuel ;; load_opt rd o.

(** The tree holds exactly the entries of [m]: so [get] answers for every key. *)
Definition holds (rd : reader) (t : node) (m : kmap) : Prop :=
  forall k, get_bytes rd t k ⇓ Ok (m k).

Definition iter_bytes (rd : reader) (t : node) (fuel : nat) : res (list (bytes * bytes)) :=
  l <- t_iter rd t fuel ;; load_entries rd l.
Definition values_bytes (rd : reader) (t : node) (fuel : nat) : res (list bytes) :=
  l <- t_values rd t fuel ;; load_values rd l.
Definition scan_bytes (rd : reader) (t : node) (p : bytes) (fuel : nat) : res (list (bytes * bytes)) :=
  l <- t_scan_prefix rd t p fuel ;; load_entries rd l.
Definition first_value_bytes (rd : reader) (t : node) (fuel : nat) : res (option bytes) :=
  o <- t_first_value rd t fuel ;; load_opt rd o.
Definition last_value_bytes (rd : reader) (t : node) (fuel : nat) : res (option bytes) :=
  o <- t_last_value rd t fuel ;; load_opt rd o.
Definition first_entry_bytes (rd : reader) (t : node) (p : bytes) (fuel : nat) : res (option (bytes * bytes)) :=
  o <- t_first_entry rd t p fuel ;; load_entry rd o.
Definition last_entry_bytes (rd : reader) (t : node) (p : bytes) (fuel : nat) : res (option (bytes * bytes)) :=
  o <- t_last_entry rd t p fuel ;; load_entry rd o.

(** The closures handed to the combines: load both values and combine the bytes. *)
Definition combiner (rdA rdB : reader) (h : bytes -> bytes -> option bytes) (a b : blob) : res (option blob) :=
  x <- value_load rdA a ;; y <- value_load rdB b ;; Ok (option_map Data (h x y)).
(** In place: the value is overwritten with data, or with "none". *)
Definition combiner_with (rdA rdB : reader) (h : bytes -> bytes -> option bytes) (a b : blob) : res blob :=
  x <- value_load rdA a ;; y <- value_load rdB b ;;
  Ok (match h x y with Some v => Data v | None => bnone end).
Definition predicate (rdA rdB : reader) (p : bytes -> bytes -> bool) (a b : blob) : res bool :=
  x <- value_load rdA a ;; y <- value_load rdB b ;; Ok (p x y).
Definition selector (rdB : reader) (s : bytes -> bool) (b : blob) : res bool :=
  y <- value_load rdB b ;; Ok (s y).

(** In-memory trees: the [Detached] store. *)
Notation mem := detached_read (only parsing).

(** Programs of API calls that build in-memory trees. *)
Inductive prog : Type :=
| PEmpty
| PLeaf (v : bytes)
| PSingle (k v : bytes)
| PCollect (l : list (bytes * bytes))
| PInsert (p : prog) (k v : bytes)
| PRemove (p : prog) (k : bytes)
| PRemovePrefix (p : prog) (k : bytes)
| PFilterPrefix (p : prog) (k s : bytes)
| POuter (h : bytes -> bytes -> option bytes) (p q : prog)
| PInner (h : bytes -> bytes -> option bytes) (p q : prog)
| PLeft (h : bytes -> bytes -> option bytes) (p q : prog)
| POuterWith (h : bytes -> bytes -> option bytes) (p q : prog)
| PInnerWith (h : bytes -> bytes -> option bytes) (p q : prog)
| PLeftWith (h : bytes -> bytes -> option bytes) (p q : prog)
| PRemovePrefixWith (s : bytes -> bool) (p q : prog)
| PRetainPrefixWith (s : bytes -> bool) (p q : prog).

(** Running a program on the code, with or without debug assertions. *)
Fixpoint run (dbg : bool) (p : prog) (fuel : nat) : res node :=
  match p with
  | PEmpty => Ok n_empty
  | PLeaf v => Ok (n_leaf v)
  | PSingle k v => Ok (n_single k v)
  | PCollect l => t_from_pairs dbg mem n_empty l fuel
  | PInsert p k v => t <- run dbg p fuel ;; t_insert dbg mem t k v fuel
  | PRemove p k => t <- run dbg p fuel ;; t_remove dbg mem t k fuel
  | PRemovePrefix p k => t <- run dbg p fuel ;; t_remove_prefix dbg mem t k fuel
  | PFilterPrefix p k s => t <- run dbg p fuel ;; t_filter_prefix mem t k s fuel
  | POuter h p q =>
      t <- run dbg p fuel ;; u <- run dbg q fuel ;; t_outer_combine dbg mem mem t u (combiner mem mem h) fuel
  | PInner h p q =>
      t <- run dbg p fuel ;; u <- run dbg q fuel ;; t_inner_combine dbg mem mem t u (combiner mem mem h) fuel
  | PLeft h p q =>
      t <- run dbg p fuel ;; u <- run dbg q fuel ;; t_left_combine dbg mem mem t u (combiner mem mem h) fuel
  | POuterWith h p q =>
      t <- run dbg p fuel ;; u <- run dbg q fuel ;;
      t_outer_combine_with dbg mem mem (detach_converter mem) t u (combiner_with mem mem h) fuel
  | PInnerWith h p q =>
      t <- run dbg p fuel ;; u <- run dbg q fuel ;; t_inner_combine_with dbg mem mem t u (combiner_with mem mem h) fuel
  | PLeftWith h p q =>
      t <- run dbg p fuel ;; u <- run dbg q fuel ;; t_left_combine_with dbg mem mem t u (combiner_with mem mem h) fuel
  | PRemovePrefixWith s p q =>
      t <- run dbg p fuel ;; u <- run dbg q fuel ;; t_remove_prefix_with dbg mem mem t u (selector mem s) fuel
  | PRetainPrefixWith s p q =>
      t <- run dbg p fuel ;; u <- run dbg q fuel ;; t_retain_prefix_with dbg mem mem t u (selector mem s) fuel
  end.

(** Running it on plain maps. *)
Fixpoint meaning (p : prog) : kmap :=
  match p with
  | PEmpty => m_empty
  | PLeaf v => m_insert m_empty [] v
  | PSingle k v => m_insert m_empty k v
  | PCollect l => m_of_list l
  | PInsert p k v => m_insert (meaning p) k v
  | PRemove p k => m_remove (meaning p) k
  | PRemovePrefix p k => m_remove_prefix (meaning p) k
  | PFilterPrefix p k s => m_filter_prefix (meaning p) k s
  | POuter h p q => m_outer h (meaning p) (meaning q)
  | PInner h p q => m_inner h (meaning p) (meaning q)
  | PLeft h p q => m_left h (meaning p) (meaning q)
  | POuterWith h p q => m_outer h (meaning p) (meaning q)
  | PInnerWith h p q => m_inner h (meaning p) (meaning q)
  | PLeftWith h p q => m_left h (meaning p) (meaning q)
  | PRemovePrefixWith s p q => m_remove_prefix_with s (meaning p) (meaning q)
  | PRetainPrefixWith s p q => m_retain_prefix_with s (meaning p) (meaning q)
  end.

(** A rejected entry of [b] has no selected entry below it. *)
Definition downward_rejected (s : bytes -> bool) (b : kmap) : Prop :=
  forall q r x y, b q = Some x -> b (q ++ r) = Some y -> s x = false -> s y = false.

(** Two calls are outside the theorems, because the code does not do on them what
    their documentation says: [filter_prefix("", s)] with a non-empty [s] on an
    empty tree, and [retain_prefix_with] when a rejected prefix has a selected
    one below it (see the [_refuted] theorems). *)
Fixpoint allowed (p : prog) : Prop :=
  match p with
  | PEmpty | PLeaf _ | PSingle _ _ | PCollect _ => True
  | PInsert p _ _ | PRemove p _ | PRemovePrefix p _ => allowed p
  | PFilterPrefix p k s => allowed p /\ (k <> [] \/ s = [] \/ exists x, meaning p x <> None)
  | POuter _ p q | PInner _ p q | PLeft _ p q
  | POuterWith _ p q | PInnerWith _ p q | PLeftWith _ p q
  | PRemovePrefixWith _ p q => allowed p /\ allowed q
  | PRetainPrefixWith s p q => allowed p /\ allowed q /\ downward_rejected s (meaning q)
  end.

(** The in-memory trees a client can have, in a debug or a release build. *)
Definition reachable (dbg : bool) (t : node) : Prop := exists p, allowed p /\ run dbg p ⇓ Ok t.

(** The shape of an in-memory tree: prefix, value and children, recursively. *)
Inductive shape : Type := Shape (prefix : bytes) (value : option bytes) (children : list shape).
Fixpoint shape_of (n : node) : shape :=
  match n with
  | Node p v k =>
      Shape (blob_slice p) (option_map blob_slice (blob_opt v))
        (match k with KArc l => List.map shape_of l | KId _ => [] end)
  end.
