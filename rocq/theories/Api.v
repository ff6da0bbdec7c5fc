(** The public operations on [RadixTree<S>] (src/node/mod.rs:3222-3820).

    A tree is its root node; the store is passed as reading function.  The
    operations of [impl RadixTree] (in-memory trees) are those of
    [impl RadixTree<S>] with the [Detached] store and [unwrap_safe], which cannot
    fail on [Ok]. *)
From Verif Require Import Base Header Node Combine Iter.

Section Tree.
Context (dbg : bool) (rd : reader).

(** [try_get], src/node/mod.rs:3496-3498. *)
Definition t_get (t : node) (key : bytes) (fuel : nat) : res (option blob) :=
  get rd fuel t key.

(** [try_contains_key], src/node/mod.rs:3502-3504. *)
Definition t_contains_key (t : node) (key : bytes) (fuel : nat) : res bool :=
  contains_key rd fuel t key.

(** [try_has_prefix], src/node/mod.rs:3508-3510. *)
Definition t_has_prefix (t : node) (prefix : bytes) (fuel : nat) : res bool :=
  has_prefix rd fuel t prefix.

(** [try_insert], src/node/mod.rs:3518-3531. *)
Definition t_insert (t : node) (key value : bytes) (fuel : nat) : res node :=
  outer_combine_with dbg rd detached_read downcast_converter
    (fun _ replacement => Ok replacement) fuel t (ROwned (n_single key value)).

(** [try_remove], src/node/mod.rs:3534-3539. *)
Definition t_remove (t : node) (key : bytes) (fuel : nat) : res node :=
  left_combine_with dbg rd detached_read
    (fun _ _ => Ok bnone) fuel t (ROwned (n_single key [])).

(** [try_remove_prefix_with], src/node/mod.rs:3761-3774. *)
Definition t_remove_prefix_with (rdB : reader) (t that : node) (f : blob -> res bool)
    (fuel : nat) : res node :=
  remove_prefix_with dbg rd rdB f fuel t (ROwned that).

(** [try_remove_prefix], src/node/mod.rs:3513-3515. *)
Definition t_remove_prefix (t : node) (prefix : bytes) (fuel : nat) : res node :=
  t_remove_prefix_with detached_read t (n_single prefix []) (fun _ => Ok true) fuel.

(** [try_retain_prefix_with], src/node/mod.rs:3745-3758. *)
Definition t_retain_prefix_with (rdB : reader) (t that : node) (f : blob -> res bool)
    (fuel : nat) : res node :=
  retain_prefix_with dbg rd rdB f fuel t (ROwned that).

(** [try_iter], src/node/mod.rs:3542-3548, driven to its end. *)
Definition kv_new (t : node) : kv_iter := KV [] [(0, Some (IOwned [t]))].
Definition t_iter (t : node) (fuel : nat) : res (list (bytes * blob)) :=
  collect (kv_next rd) fuel (kv_new t).

(** [try_values], src/node/mod.rs:3551-3556, driven to its end. *)
Definition t_values (t : node) (fuel : nat) : res (list blob) :=
  collect (vi_next rd) fuel [IOwned [t]].

(** [try_scan_prefix], src/node/mod.rs:3559-3565, driven to its end. *)
Definition t_scan_prefix (t : node) (prefix : bytes) (fuel : nat) : res (list (bytes * blob)) :=
  s <- scan_prefix rd fuel t prefix ;;
  collect (kv_next rd) fuel s.

(** [try_group_by], src/node/mod.rs:3568-3584, driven to its end. *)
Definition t_group_by (t : node) (descend : bytes -> noderef -> res bool) (fuel : nat)
  : res (list node) :=
  collect (gb_next rd descend) fuel (kv_new t).

(** [try_filter_prefix], src/node/mod.rs:3777-3789. *)
Definition t_filter_prefix (t : node) (prefix substitution : bytes) (fuel : nat) : res node :=
  filter_prefix rd fuel t prefix substitution.

(** [try_first_value] and friends, src/node/mod.rs:3792-3809. *)
Definition t_first_value (t : node) (fuel : nat) : res (option blob) :=
  first_value rd fuel (ROwned t).
Definition t_last_value (t : node) (fuel : nat) : res (option blob) :=
  last_value rd fuel (ROwned t).
Definition t_first_entry (t : node) (prefix : bytes) (fuel : nat) : res (option (bytes * blob)) :=
  first_entry rd fuel prefix (ROwned t).
Definition t_last_entry (t : node) (prefix : bytes) (fuel : nat) : res (option (bytes * blob)) :=
  last_entry rd fuel prefix (ROwned t).

(** [try_detached], src/node/mod.rs:3486-3492. *)
Definition t_detached (t : node) (fuel : nat) : res node :=
  r_detached rd fuel (ROwned t).

(** [try_outer_combine], [try_inner_combine], [try_left_combine] and predicates,
    src/node/mod.rs:3587-3719; the result is an in-memory tree. *)
Definition t_outer_combine (rdB : reader) (t that : node)
    (f : blob -> blob -> res (option blob)) (fuel : nat) : res node :=
  outer_combine dbg rd rdB f fuel (ROwned t) (ROwned that).
Definition t_inner_combine (rdB : reader) (t that : node)
    (f : blob -> blob -> res (option blob)) (fuel : nat) : res node :=
  inner_combine dbg rd rdB f fuel (ROwned t) (ROwned that).
Definition t_left_combine (rdB : reader) (t that : node)
    (f : blob -> blob -> res (option blob)) (fuel : nat) : res node :=
  left_combine dbg rd rdB f fuel (ROwned t) (ROwned that).
Definition t_inner_combine_pred (rdB : reader) (t that : node)
    (f : blob -> blob -> res bool) (fuel : nat) : res bool :=
  inner_combine_pred rd rdB f fuel (ROwned t) (ROwned that).
Definition t_left_combine_pred (rdB : reader) (t that : node)
    (f : blob -> blob -> res bool) (fuel : nat) : res bool :=
  left_combine_pred rd rdB f fuel (ROwned t) (ROwned that).

(** [try_outer_combine_with] etc., src/node/mod.rs:3606-3626, 3648-3668, 3722-3742.
    The converter is a parameter; inner and left never use it. *)
Definition t_outer_combine_with (rdB : reader) (c : converter) (t that : node)
    (f : blob -> blob -> res blob) (fuel : nat) : res node :=
  outer_combine_with dbg rd rdB c f fuel t (ROwned that).
Definition t_inner_combine_with (rdB : reader) (t that : node)
    (f : blob -> blob -> res blob) (fuel : nat) : res node :=
  inner_combine_with dbg rd rdB f fuel t (ROwned that).
Definition t_left_combine_with (rdB : reader) (t that : node)
    (f : blob -> blob -> res blob) (fuel : nat) : res node :=
  left_combine_with dbg rd rdB f fuel t (ROwned that).

(** [FromIterator], src/node/mod.rs:3469-3477. *)
Fixpoint t_from_pairs (t : node) (l : list (bytes * bytes)) (fuel : nat) : res node :=
  match l with
  | [] => Ok t
  | (k, v) :: l =>
      t' <- t_insert t k v fuel ;;
      t_from_pairs t' l fuel
  end.
End Tree.

(** [PartialEq for TreeNode<Detached>], src/node/mod.rs:669-675, and of
    [RadixTree], 3461-3465.  [get_children()] is compared as
    [Result<&Arc<Vec<_>>, &[u8]>]. *)
Fixpoint n_eq (a b : node) {struct a} : bool :=
  match a, b with
  | Node pa va ka, Node pb vb kb =>
      (if list_eq_dec byte_eq_dec (blob_slice pa) (blob_slice pb) then true else false)
      && (if list_eq_dec byte_eq_dec (blob_slice va) (blob_slice vb) then true else false)
      && match ka, kb with
         | KArc xs, KArc ys =>
             (fix eqs (xs ys : list node) {struct xs} : bool :=
                match xs, ys with
                | [], [] => true
                | x :: xs', y :: ys' => n_eq x y && eqs xs' ys'
                | _, _ => false
                end) xs ys
         | KId x, KId y => if list_eq_dec byte_eq_dec x y then true else false
         | _, _ => false
         end
  end.

(** [RadixTree::value] and [prefix], src/node/mod.rs:3446-3458. *)
Definition t_value (t : node) : option blob := blob_opt (n_value t).
Definition t_prefix (t : node) : blob := n_prefix t.
