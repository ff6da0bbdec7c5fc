(** The recursive walk of examples/dump.rs, and the macro [radixtree!]. *)
From Verif Require Import Base Header Node Combine Iter Api Spec Client WalkSpec.

(** [prefix().data().map(|x| x.len()).unwrap()], examples/dump.rs:10, with [ValueRef::data],
    src/node/mod.rs:460-466, which panics for a prefix that is an id. *)
Definition prefix_len (t : node) : res nat :=
  match t_prefix t with Data p => Ok (length p) | Id _ => Panic end.

(** [dump], examples/dump.rs:3-17.  The result: the lines printed.  Lines printed before a panic
    are not part of the result of the model. *)
Fixpoint walk (fuel : nat) (indent : nat) (t : node) : res (list line) :=
  match fuel with
  | 0 => Fuel
  | S fuel =>
      let here := Line indent (t_prefix t) (t_value t) in
      n <- prefix_len t ;;
      if is_leaf t then Ok [here] else
        ts <- t_group_by detached_read t (fun path _ => Ok (length path <=? n)) fuel ;;
        ls <- (fix each (ts : list node) : res (list line) :=
                 match ts with
                 | [] => Ok []
                 | u :: us => l <- walk fuel (S indent) u ;; r <- each us ;; Ok (l ++ r)
                 end) ts ;;
        Ok (here :: ls)
  end.

(** [radixtree!] with keys and values, src/lib.rs:248-258: [collect] of the pairs. *)
Definition macro_map (dbg : bool) (l : list (bytes * bytes)) (fuel : nat) : res node :=
  t_from_pairs dbg detached_read n_empty l fuel.
(** [radixtree!] with keys only, src/lib.rs:263-273: the values are empty. *)
Definition macro_set (dbg : bool) (l : list bytes) (fuel : nat) : res node :=
  t_from_pairs dbg detached_read n_empty (map (fun k => (k, [])) l) fuel.
