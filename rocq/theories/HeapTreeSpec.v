(** Programs on several trees, on plain maps: every variable has its own map, and what
    happens to one variable does not touch another.  This is part of the statement of
    the theorems, not a model of code in /repo. *)
From Verif Require Import Base Header Node Api Spec Client Heap HeapSpec HeapTree.

(** What a variable holds: a tree, or a value that was taken from one.  [None]: it was
    dropped, or there was no value. *)
Inductive mval : Type :=
| MTree (m : kmap)
| MValue (v : bytes).
Notation menv := (list (option mval)) (only parsing).
Definition mat (r : nat) (e : menv) : option mval := nth r e None.
Definition mvar (r : nat) (e : menv) : option kmap :=
  match mat r e with Some (MTree m) => Some m | _ => None end.

(** An operation on variable [r]; with variable [s] as second operand, which must be
    another one, since the first is borrowed mutably. *)
Definition m_update (r : nat) (f : kmap -> kmap) (e : menv) : option menv :=
  match mvar r e with
  | Some m => Some (upd r (Some (MTree (f m))) e)
  | None => None
  end.
Definition m_update2 (r s : nat) (f : kmap -> kmap -> kmap) (e : menv) : option menv :=
  if r =? s then None
  else match mvar s e with Some b => m_update r (fun a => f a b) e | None => None end.
(** A new variable made from two, which may be the same one. *)
Definition m_new2 (r s : nat) (f : kmap -> kmap -> kmap) (e : menv) : option menv :=
  match mvar r e, mvar s e with
  | Some a, Some b => Some (e ++ [Some (MTree (f a b))])
  | _, _ => None
  end.

(** [None]: Rust does not accept the program, because it uses a dropped variable or
    borrows one twice. *)
Definition m_step (i : tinstr) (e : menv) : option menv :=
  match i with
  | TEmpty => Some (e ++ [Some (MTree m_empty)])
  | TLeaf v => Some (e ++ [Some (MTree (m_insert m_empty [] v))])
  | TSingle k v => Some (e ++ [Some (MTree (m_insert m_empty k v))])
  | TClone r => match mvar r e with Some m => Some (e ++ [Some (MTree m)]) | None => None end
  | TInsert r k v => m_update r (fun m => m_insert m k v) e
  | TRemove r k => m_update r (fun m => m_remove m k) e
  | TRemovePrefix r k => m_update r (fun m => m_remove_prefix m k) e
  | TOuterWith g r s => m_update2 r s (m_outer g) e
  | TInnerWith g r s => m_update2 r s (m_inner g) e
  | TLeftWith g r s => m_update2 r s (m_left g) e
  | TRemovePrefixWith g r s => m_update2 r s (m_remove_prefix_with g) e
  | TRetainPrefixWith g r s => m_update2 r s (m_retain_prefix_with g) e
  | TOuter g r s => m_new2 r s (m_outer g) e
  | TInner g r s => m_new2 r s (m_inner g) e
  | TLeft g r s => m_new2 r s (m_left g) e
  | TFilterPrefix r k s => match mvar r e with Some m => Some (e ++ [Some (MTree (m_filter_prefix m k s))]) | None => None end
  | TGet r k => match mvar r e with Some m => Some (e ++ [option_map MValue (m k)]) | None => None end
  | TIf _ _ => None (* see [m_runs] *)
  | TDrop r => Some (upd r None e)
  end.

(** What a question asks; [None]: Rust does not accept it. *)
Definition q_asks (q : query) (e : menv) : option Prop :=
  match q with
  | QContains r k => match mvar r e with Some m => Some (m k <> None) | None => None end
  | QPrefix r k => match mvar r e with Some m => Some (exists x, m x <> None /\ starts_with k x = true) | None => None end
  | QEmpty r => match mvar r e with Some m => Some (forall x, m x = None) | None => None end
  | QInner g r s =>
      match mvar r e, mvar s e with
      | Some a, Some b => Some (exists k x y, a k = Some x /\ b k = Some y /\ g x y = true)
      | _, _ => None
      end
  | QLeft g r s =>
      match mvar r e, mvar s e with
      | Some a, Some b => Some (exists k x, a k = Some x /\ match b k with Some y => g x y = true | None => True end)
      | _, _ => None
      end
  end.

(** [m_runs ok p e e']: the program takes [e] to [e'], and every instruction satisfies
    [ok] when it runs. *)
Inductive m_runs (ok : tinstr -> menv -> Prop) : list tinstr -> menv -> menv -> Prop :=
| m_done e : m_runs ok [] e e
| m_next i p e e1 e2 : ok i e -> m_step i e = Some e1 -> m_runs ok p e1 e2 -> m_runs ok (i :: p) e e2
| m_yes q (P : Prop) i p e e' : ok (TIf q i) e -> q_asks q e = Some P -> P -> m_runs ok (i :: p) e e' -> m_runs ok (TIf q i :: p) e e'
| m_no q (P : Prop) i p e e' : ok (TIf q i) e -> q_asks q e = Some P -> ~ P -> m_runs ok p e e' -> m_runs ok (TIf q i :: p) e e'.

(** [retain_prefix_with] only does what it says if a rejected prefix has no selected
    one below it (C20), [filter_prefix("", s)] not on an empty tree (C04, C10), and [has_prefix("")] is
    right unless the tree is empty (C04). *)
Definition may_filter (r : nat) (k s : bytes) (e : menv) : Prop :=
  forall m, mvar r e = Some m -> k <> [] \/ s = [] \/ exists x, m x <> None.
Definition may_ask (q : query) (e : menv) : Prop :=
  match q with
  | QPrefix r k => forall m, mvar r e = Some m -> k <> [] \/ exists x, m x <> None
  | _ => True
  end.
Definition may (i : tinstr) (e : menv) : Prop :=
  match i with
  | TRetainPrefixWith g r s => forall b, mvar s e = Some b -> downward_rejected g b
  | TFilterPrefix r k s => may_filter r k s e
  | TIf q _ => may_ask q e
  | _ => True
  end.
(** Instructions that never take an entry out of a tree; what makes a new
    tree changes none. *)
Definition grows (i : tinstr) (e : menv) : Prop :=
  match i with
  | TEmpty | TLeaf _ | TSingle _ _ | TClone _ | TInsert _ _ _ | TDrop _ => True
  | TOuter _ _ _ | TInner _ _ _ | TLeft _ _ _ | TGet _ _ => True
  | TFilterPrefix r k s => may_filter r k s e
  | TIf q _ => may_ask q e
  | TOuterWith g r s =>
      (forall x y, g x y <> None) /\ exists v m k, In v [r; s] /\ mvar v e = Some m /\ m k <> None
  | _ => False
  end.

(** On the heap: the program ends normally, so it has no undefined behaviour and does not
    panic, with variables [e] and memory [h], however many steps beyond the needed ones it
    is given. *)
Definition t_runs (dbg : bool) (p : list tinstr) (e : env) (h : heap) : Prop :=
  exists n0, forall fuel, n0 <= fuel -> t_run dbg fuel p [] [] = Done (e, h).

(** In memory [h] the variable [s] is a tree that holds the map, and is one that the API
    can build; or it is the value. *)
Definition var_holds (dbg : bool) (h : heap) (o : option mval) (s : slot) : Prop :=
  match o, s with
  | Some (MValue v), SValue hdr w => blob_shows h (Data v) hdr w
  | Some (MTree m), SNode c => exists t, shows h t c /\ reachable dbg t /\ holds mem t m
  | None, SGone => True
  | _, _ => False
  end.
(** The variable that an instruction changes or drops. *)
Fixpoint written (i : tinstr) : list nat :=
  match i with
  | TEmpty | TLeaf _ | TSingle _ _ | TClone _ | TOuter _ _ _ | TInner _ _ _ | TLeft _ _ _ | TFilterPrefix _ _ _ | TGet _ _ => []
  | TIf _ i => written i
  | TInsert r _ _ | TRemove r _ | TRemovePrefix r _ | TDrop r => [r]
  | TOuterWith _ r _ | TInnerWith _ r _ | TLeftWith _ r _ | TRemovePrefixWith _ r _ | TRetainPrefixWith _ r _ => [r]
  end.
(** The end of all scopes. *)
Definition t_drop_all (n : nat) : list tinstr := map TDrop (seq 0 n).
(** When all trees are dropped, all memory is freed. *)
Definition t_all_freed : Prop :=
  forall dbg p ms, m_runs may p [] ms -> forall e h, t_runs dbg (p ++ t_drop_all (length ms)) e h -> in_use h = [].
