(** How many blocks the calls of a history write.  This file is part of the
    statements; it models no code. *)
From Verif Require Import Base Header Node Store Spec Client World.

(** The store [S] together with a counter of the calls of [write], failed or not. *)
Definition counting (S : store) : store := {|
  st := st S * nat;
  st_read := fun s => st_read S (fst s);
  st_write := fun s d => let (r, s') := st_write S (fst s) d in (r, (s', Datatypes.S (snd s)))
|}.

(** The bytes of all keys. *)
Definition key_bytes (l : list (bytes * bytes)) : nat := list_sum (map (fun e => length (fst e)) l).

(** What an account says about the trees and ids of a client: how many blocks each
    tree is behind its last stored version at most, how many ids there are, and how
    many blocks may have been written. *)
Record books : Type := Books { owed : list nat; known : nat; spent : nat }.

Definition on_owed (b : books) (i : nat) (f : nat -> books) : books :=
  match nth_error (owed b) i with Some x => f x | None => b end.
Definition add_owed (b : books) (x : nat) : books := Books (owed b ++ [x]) (known b) (spent b).
Definition set_owed (b : books) (i x : nat) : books := Books (replace i x (owed b)) (known b) (spent b).
Definition owe_more (b : books) (i x : nat) : books := on_owed b i (fun y => set_owed b i (y + x)).
Definition spend (b : books) (x : nat) : books := Books (owed b) (known b) (spent b + x).

(** Changing a tree along one key: a block for each byte of the key, and five more. *)
Definition key_cost (k : bytes) : nat := length k + 5.
(** Combining a tree with an in-memory tree of [n] entries with [b] bytes of keys. *)
Definition tree_cost (nb : nat * nat) : nat := snd nb + 8 * fst nb + 5.
(** Storing a tree of [n] entries for the first time, without its root. *)
Definition attach_cost (nb : nat * nat) : nat := 6 * fst nb + 3.

(** One command; [sz p] is the number of entries and of key bytes of the tree built
    by [p].  Loading and attaching leave nothing to be stored; a saved tree costs what
    it is behind and one block for the root; changes cost what they touch, whatever
    the size of the tree that is changed. *)
Definition book1 (sz : prog -> nat * nat) (b : books) (c : cmd) (ok : bool) : books :=
  match c with
  | CEmpty => add_owed b 0
  | CAttach p => (if ok then fun b => add_owed b 0 else fun b => b) (spend b (attach_cost (sz p)))
  | CLoad j => if j <? known b then add_owed b 0 else b
  | CClone i => on_owed b i (add_owed b)
  | CFilterPrefix i _ _ => on_owed b i (fun x => add_owed b (x + 1))
  | CReattach i => on_owed b i (fun x =>
      if ok then Books (replace i 0 (owed b)) (known b + 1) (spent b + (x + 1)) else spend b (x + 1))
  | CWrite _ => spend b 1
  | CInsert i k _ | CRemove i k | CRemovePrefix i k => owe_more b i (key_cost k)
  | CMerge i _ p | COuterWith i _ p | CInnerWith i _ p | CLeftWith i _ p
  | CRemovePrefixWith i _ p | CRetainPrefixWith i _ p => owe_more b i (tree_cost (sz p))
  end.

Fixpoint book (sz : prog -> nat * nat) (b : books) (h : list cmd) (oks : list bool) : books :=
  match h, oks with
  | c :: h, ok :: oks => book sz (book1 sz b c ok) h oks
  | _, _ => b
  end.
Definition no_books : books := Books [] 0 0.

(** [sz] is right about the programs of a command. *)
Definition measured (sz : prog -> nat * nat) (c : cmd) : Prop :=
  match c with
  | CAttach p | CMerge _ _ p | COuterWith _ _ p | CInnerWith _ _ p | CLeftWith _ _ p
  | CRemovePrefixWith _ _ p | CRetainPrefixWith _ _ p =>
      exists l, lists l (meaning p) /\ sz p = (length l, key_bytes l)
  | _ => True
  end.

(** A change of tree [i], and what it costs to save it. *)
Definition change (sz : prog -> nat * nat) (i : nat) (c : cmd) : option nat :=
  match c with
  | CInsert j k _ | CRemove j k | CRemovePrefix j k => if j =? i then Some (key_cost k) else None
  | CMerge j _ p | COuterWith j _ p | CInnerWith j _ p | CLeftWith j _ p
  | CRemovePrefixWith j _ p | CRetainPrefixWith j _ p => if j =? i then Some (tree_cost (sz p)) else None
  | _ => None
  end.
