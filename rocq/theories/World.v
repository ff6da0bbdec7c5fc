(** Histories of API calls on trees attached to one store.  This file is part of
    the statements: it says what client code does, and what it should observe. *)
From Verif Require Import Base Header Node Combine Iter Api Store StoreSpec Spec Client.

(** Commands of a client.  Trees and saved ids are referred to by the order in
    which they were obtained; a command with an unknown number does nothing.  The
    programs [p] build in-memory trees. *)
Inductive cmd : Type :=
| CEmpty                                                  (* RadixTree::empty(store) *)
| CAttach (p : prog)                                      (* p.try_attached(store) *)
| CLoad (j : nat)                                         (* RadixTree::try_load(store, id) *)
| CClone (i : nat)
| CInsert (i : nat) (k v : bytes)                         (* try_insert *)
| CMerge (i : nat) (h : bytes -> bytes -> bytes) (p : prog)  (* try_outer_combine_with *)
| CFilterPrefix (i : nat) (k s : bytes)                   (* try_filter_prefix: a new tree *)
| CReattach (i : nat)                                     (* try_reattach: saves the id *)
| CWrite (d : bytes)                                      (* another user of the store writes *)
| CRemove (i : nat) (k : bytes)                           (* try_remove *)
| CRemovePrefix (i : nat) (k : bytes)                     (* try_remove_prefix *)
| COuterWith (i : nat) (h : bytes -> bytes -> option bytes) (p : prog)
| CInnerWith (i : nat) (h : bytes -> bytes -> option bytes) (p : prog)
| CLeftWith (i : nat) (h : bytes -> bytes -> option bytes) (p : prog)
| CRemovePrefixWith (i : nat) (s : bytes -> bool) (p : prog)
| CRetainPrefixWith (i : nat) (s : bytes -> bool) (p : prog).

Fixpoint replace {A} (i : nat) (x : A) (l : list A) : list A :=
  match l, i with
  | [], _ => []
  | _ :: l, 0 => x :: l
  | y :: l, S i => y :: replace i x l
  end.

(** The state of the client: the trees and the ids it holds. *)
Record world (S : store) : Type := World { w_st : st S; w_trees : list node; w_ids : list bytes }.
Arguments World {S}.
Arguments w_st {S}.
Arguments w_trees {S}.
Arguments w_ids {S}.

Section World.
Context (dbg : bool) (S : store).
Notation world := (world S).

(** The outcome of a write: an error is reported to the client, who carries on
    with [w'] in the new state of the store. *)
Definition on_write {A} (w : world) (x : res A * st S) (k : A -> st S -> world)
  : res (bool * world) :=
  match x with
  | (Ok a, s') => Ok (true, k a s')
  | (Err, s') => Ok (false, World s' (w_trees w) (w_ids w))
  | (Panic, _) => Panic
  | (Fuel, _) => Fuel
  end.

Definition with_tree (w : world) (i : nat) (f : node -> res (bool * world)) : res (bool * world) :=
  match nth_error (w_trees w) i with Some t => f t | None => Ok (true, w) end.

Definition add_tree (w : world) (t : node) : world := World (w_st w) (w_trees w ++ [t]) (w_ids w).
Definition set_tree (w : world) (i : nat) (t : node) : world :=
  World (w_st w) (replace i t (w_trees w)) (w_ids w).

(** One call on the code.  The boolean tells whether the call succeeded. *)
Definition exec1 (w : world) (c : cmd) (fuel : nat) : res (bool * world) :=
  let rd := st_read S (w_st w) in
  match c with
  | CEmpty => Ok (true, add_tree w n_empty)
  | CAttach p =>
      t <- run dbg p fuel ;;
      on_write w (t_attached S t (w_st w)) (fun t' s' => World s' (w_trees w ++ [t']) (w_ids w))
  | CLoad j =>
      match nth_error (w_ids w) j with
      | Some id => t <- t_load S (w_st w) (Some id) ;; Ok (true, add_tree w t)
      | None => Ok (true, w)
      end
  | CClone i => with_tree w i (fun t => Ok (true, add_tree w t))
  | CInsert i k v =>
      with_tree w i (fun t => t' <- t_insert dbg rd t k v fuel ;; Ok (true, set_tree w i t'))
  | CMerge i h p =>
      u <- run dbg p fuel ;;
      with_tree w i (fun t =>
        t' <- t_outer_combine_with dbg rd mem (detach_converter mem) t u
                (combiner_with rd mem (fun x y => Some (h x y))) fuel ;;
        Ok (true, set_tree w i t'))
  | CFilterPrefix i k s =>
      with_tree w i (fun t => t' <- t_filter_prefix rd t k s fuel ;; Ok (true, add_tree w t'))
  | CReattach i =>
      with_tree w i (fun t =>
        on_write w (t_reattach S t (w_st w))
          (fun x s' => World s' (replace i (snd x) (w_trees w)) (w_ids w ++ [fst x])))
  | CWrite d => on_write w (st_write S (w_st w) d) (fun _ s' => World s' (w_trees w) (w_ids w))
  | CRemove i k =>
      with_tree w i (fun t => t' <- t_remove dbg rd t k fuel ;; Ok (true, set_tree w i t'))
  | CRemovePrefix i k =>
      with_tree w i (fun t => t' <- t_remove_prefix dbg rd t k fuel ;; Ok (true, set_tree w i t'))
  | COuterWith i h p =>
      u <- run dbg p fuel ;;
      with_tree w i (fun t =>
        t' <- t_outer_combine_with dbg rd mem (detach_converter mem) t u (combiner_with rd mem h) fuel ;;
        Ok (true, set_tree w i t'))
  | CInnerWith i h p =>
      u <- run dbg p fuel ;;
      with_tree w i (fun t =>
        t' <- t_inner_combine_with dbg rd mem t u (combiner_with rd mem h) fuel ;; Ok (true, set_tree w i t'))
  | CLeftWith i h p =>
      u <- run dbg p fuel ;;
      with_tree w i (fun t =>
        t' <- t_left_combine_with dbg rd mem t u (combiner_with rd mem h) fuel ;; Ok (true, set_tree w i t'))
  | CRemovePrefixWith i s p =>
      u <- run dbg p fuel ;;
      with_tree w i (fun t =>
        t' <- t_remove_prefix_with dbg rd mem t u (selector mem s) fuel ;; Ok (true, set_tree w i t'))
  | CRetainPrefixWith i s p =>
      u <- run dbg p fuel ;;
      with_tree w i (fun t =>
        t' <- t_retain_prefix_with dbg rd mem t u (selector mem s) fuel ;; Ok (true, set_tree w i t'))
  end.

Fixpoint exec (w : world) (h : list cmd) (fuel : nat) : res (list bool * world) :=
  match h with
  | [] => Ok ([], w)
  | c :: h =>
      x <- exec1 w c fuel ;;
      y <- exec (snd x) h fuel ;;
      Ok (fst x :: fst y, snd y)
  end.
End World.

(** What should happen: the same on plain maps.  [m_trees] are the contents of the
    trees, [m_saved] the contents at the time an id was saved. *)
Record maps : Type := Maps { m_trees : list kmap; m_saved : list kmap }.

Definition on_map (a : maps) (i : nat) (f : kmap -> maps) : maps :=
  match nth_error (m_trees a) i with Some m => f m | None => a end.
Definition add_map (a : maps) (m : kmap) : maps := Maps (m_trees a ++ [m]) (m_saved a).
Definition set_map (a : maps) (i : nat) (m : kmap) : maps := Maps (replace i m (m_trees a)) (m_saved a).

(** [ok] tells whether the call succeeded; a failed call changes nothing. *)
Definition model1 (a : maps) (c : cmd) (ok : bool) : maps :=
  if negb ok then a else
  match c with
  | CEmpty => add_map a m_empty
  | CAttach p => add_map a (meaning p)
  | CLoad j => match nth_error (m_saved a) j with Some m => add_map a m | None => a end
  | CClone i => on_map a i (add_map a)
  | CInsert i k v => on_map a i (fun m => set_map a i (m_insert m k v))
  | CMerge i h p => on_map a i (fun m => set_map a i (m_outer (fun x y => Some (h x y)) m (meaning p)))
  | CFilterPrefix i k s => on_map a i (fun m => add_map a (m_filter_prefix m k s))
  | CReattach i => on_map a i (fun m => Maps (m_trees a) (m_saved a ++ [m]))
  | CWrite d => a
  | CRemove i k => on_map a i (fun m => set_map a i (m_remove m k))
  | CRemovePrefix i k => on_map a i (fun m => set_map a i (m_remove_prefix m k))
  | COuterWith i h p => on_map a i (fun m => set_map a i (m_outer h m (meaning p)))
  | CInnerWith i h p => on_map a i (fun m => set_map a i (m_inner h m (meaning p)))
  | CLeftWith i h p => on_map a i (fun m => set_map a i (m_left h m (meaning p)))
  | CRemovePrefixWith i s p => on_map a i (fun m => set_map a i (m_remove_prefix_with s m (meaning p)))
  | CRetainPrefixWith i s p => on_map a i (fun m => set_map a i (m_retain_prefix_with s m (meaning p)))
  end.

Fixpoint model (a : maps) (h : list cmd) (oks : list bool) : maps :=
  match h, oks with
  | c :: h, ok :: oks => model (model1 a c ok) h oks
  | _, _ => a
  end.

(** Histories that build, load and extend trees, with keys of any length. *)
Definition extending (c : cmd) : Prop :=
  match c with
  | CEmpty | CLoad _ | CClone _ | CInsert _ _ _ | CReattach _ | CWrite _ => True
  | CAttach p | CMerge _ _ p => allowed p
  | CFilterPrefix _ k s => k <> [] \/ s = []
  | _ => False
  end.

(** Histories that also remove things, with keys of less than 128 bytes only. *)
Definition short (k : bytes) : Prop := length k < 128.
Definition short_keys (m : kmap) : Prop := forall k, m k <> None -> short k.
Definition short_cmd (c : cmd) : Prop :=
  match c with
  | CEmpty | CLoad _ | CClone _ | CReattach _ | CWrite _ | CRemove _ _ | CRemovePrefix _ _ => True
  | CInsert _ k _ => short k
  | CAttach p | CMerge _ _ p | COuterWith _ _ p => allowed p /\ short_keys (meaning p)
  | CInnerWith _ _ p | CLeftWith _ _ p | CRemovePrefixWith _ _ p => allowed p
  | CRetainPrefixWith _ s p => allowed p /\ downward_rejected s (meaning p)
  | CFilterPrefix _ k s => (k <> [] \/ s = []) /\ length s <= length k
  end.

(** Calls that can fail a [debug_assert!] on attached trees, see
    [C29_remove_debug_refuted]. *)
Definition release_only (c : cmd) : Prop :=
  match c with
  | CRemove _ _ | CRemovePrefix _ _ | CLeftWith _ _ _ | CRemovePrefixWith _ _ _ | CRetainPrefixWith _ _ _ => True
  | _ => False
  end.

(** The histories the theorems are about, in a debug ([dbg = true]) or a release
    build. *)
Definition short_history (dbg : bool) (h : list cmd) : Prop :=
  Forall (fun c => short_cmd c /\ (dbg = true -> ~ release_only c)) h.
Definition history_ok (dbg : bool) (h : list cmd) : Prop := Forall extending h \/ short_history dbg h.

(** The call panics, or returns something that satisfies [P]. *)
Definition ok_or_panic {A} (f : nat -> res A) (P : A -> Prop) : Prop :=
  (exists x, f ⇓ Ok x /\ P x) \/ f ⇓ Panic.

(** A client starts without trees and ids. *)
Definition start {S : store} (s : st S) : world S := World s [] [].
Definition no_maps : maps := Maps [] [].

(** After a history [h] of the kind [P] the store is in state [s], and one of the
    trees held is [t], which should have the contents [m]. *)
Definition attached_by (P : list cmd -> Prop) (dbg : bool) (S : store) (inv : st S -> Prop)
    (s : st S) (t : node) (m : kmap) : Prop :=
  exists s0 h oks w i, inv s0 /\ P h /\ exec dbg S (start s0) h ⇓ Ok (oks, w) /\ w_st w = s /\
    nth_error (w_trees w) i = Some t /\ nth_error (m_trees (model no_maps h oks)) i = Some m.
Definition attached (dbg : bool) := attached_by (history_ok dbg) dbg.
(** One of the ids held is [id], and the tree had the contents [m] when it was saved. *)
Definition saved (dbg : bool) (S : store) (inv : st S -> Prop) (s : st S) (id : bytes) (m : kmap) : Prop :=
  exists s0 h oks w j, inv s0 /\ history_ok dbg h /\ exec dbg S (start s0) h ⇓ Ok (oks, w) /\ w_st w = s /\
    nth_error (w_ids w) j = Some id /\ nth_error (m_saved (model no_maps h oks)) j = Some m.
