(** Loops of single calls that do what one call of an in-place join does, such as the one that
    examples/bulk_union.rs:34-48 compares with a union in one call. *)
From Verif Require Import Base Header Node Combine Iter Api Spec Client.

Section Loops.
Context (dbg : bool).
(** What the closure of the join makes of two values; [None] deletes. *)
Context (h : bytes -> bytes -> option bytes).

(** Store the outcome for a key: one call of [insert], src/node/mod.rs:3245-3247, or [remove], 3249-3251. *)
Definition put (t : node) (k : bytes) (o : option bytes) (fuel : nat) : res node :=
  match o with Some v => t_insert dbg mem t k v fuel | None => t_remove dbg mem t k fuel end.

(** [for (k, v) in entries { ... }]: insert keys that are missing, combine the others
    (compare examples/bulk_union.rs:44-46). *)
Fixpoint loop_outer (t : node) (l : list (bytes * bytes)) (fuel : nat) : res node :=
  match l with
  | [] => Ok t
  | (k, v) :: l =>
      o <- get_bytes mem t k fuel ;;
      t' <- match o with Some x => put t k (h x v) fuel | None => t_insert dbg mem t k v fuel end ;;
      loop_outer t' l fuel
  end.

(** The same, but keys that are missing are left alone. *)
Fixpoint loop_left (t : node) (l : list (bytes * bytes)) (fuel : nat) : res node :=
  match l with
  | [] => Ok t
  | (k, v) :: l =>
      o <- get_bytes mem t k fuel ;;
      t' <- match o with Some x => put t k (h x v) fuel | None => Ok t end ;;
      loop_left t' l fuel
  end.

(** Over the entries of the first tree: what the second does not have is removed. *)
Fixpoint loop_inner (u : node) (t : node) (l : list (bytes * bytes)) (fuel : nat) : res node :=
  match l with
  | [] => Ok t
  | (k, x) :: l =>
      o <- get_bytes mem u k fuel ;;
      t' <- put t k (match o with Some v => h x v | None => None end) fuel ;;
      loop_inner u t' l fuel
  end.

(** The whole programs: the entries are those that [iter], src/node/mod.rs:3253-3255, yields. *)
Definition by_one_outer (t u : node) (fuel : nat) : res node := l <- iter_bytes mem u fuel ;; loop_outer t l fuel.
Definition by_one_left (t u : node) (fuel : nat) : res node := l <- iter_bytes mem u fuel ;; loop_left t l fuel.
Definition by_one_inner (t u : node) (fuel : nat) : res node := l <- iter_bytes mem t fuel ;; loop_inner u t l fuel.
End Loops.

(** The same loops for a first tree that may be in a store, and a closure that never deletes; [missing]: keys that are
    missing are inserted (outer) or left alone (left). *)
Fixpoint loop_merge (dbg : bool) (rd : reader) (f : bytes -> bytes -> bytes) (missing : bool) (t : node) (l : list (bytes * bytes)) (fuel : nat)
  : res node :=
  match l with
  | [] => Ok t
  | (k, v) :: l =>
      o <- get_bytes rd t k fuel ;;
      t' <- match o with
            | Some x => t_insert dbg rd t k (f x v) fuel
            | None => if missing then t_insert dbg rd t k v fuel else Ok t
            end ;;
      loop_merge dbg rd f missing t' l fuel
  end.
