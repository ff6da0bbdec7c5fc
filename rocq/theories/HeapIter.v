(** Iterators in memory: raw pointers into node vectors that an [Arc] keeps alive, and
    keys that are copied on write (src/node/mod.rs:1757-1834, 2966-3124, 3542-3556).

    [Iter.v] treats iterators as values.  Here they hold reference counted pointers
    on the same heap as the trees (Heap.v), and programs may modify and drop trees
    while iterators over them are in use.

    Not modelled: iterators over nodes in a store ([BorrowedTreeNodeIter]; a node with
    an id is a panic here), [GroupBy] (it borrows the tree), and what Heap.v does not
    model. *)
From Verif Require Import Base Header Node Store Heap.

(** [OwnedTreeNodeIter] made by [new_owned], lines 1757-1768: the owner, and a
    [slice::Iter] with the lifetime extended.  [hi_cs] is what the slice pointed to
    when it was made, [hi_pos] how much of it is consumed. *)
Record hiter : Type := HIter { hi_arc : addr; hi_cs : list cnode; hi_pos : nat }.
Definition word_eq_dec (a b : word) : {a = b} + {a <> b}.
Proof. decide equality; [apply (list_eq_dec Byte.byte_eq_dec)|apply Nat.eq_dec]. Defined.
Definition cnode_eq_dec (a b : cnode) : {a = b} + {a <> b}.
Proof. decide equality; solve [apply word_eq_dec|apply Byte.byte_eq_dec]. Defined.

(** [new_owned], lines 1764-1767: the parameter [owner] is cloned and dropped. *)
Definition h_iter_new (a : addr) : M hiter :=
  cs <! vec_get a ;;
  _ <! arc_clone (Ptr a) ;;
  _ <! drop [(NodesK, Ptr a)] ;;
  ret (HIter a cs 0).
(** [next], lines 1827-1829.  The elements must be as they were when the slice was
    taken: whoever writes to the vector breaks the promise of the shared reference. *)
Definition h_iter_next (it : hiter) : M (option cnode * hiter) :=
  match nth_error (hi_cs it) (hi_pos it) with
  | None => ret (None, it)
  | Some c =>
      cs <! vec_get (hi_arc it) ;;
      if list_eq_dec cnode_eq_dec cs (hi_cs it) then ret (Some c, HIter (hi_arc it) (hi_cs it) (S (hi_pos it)))
      else undefined
  end.
Definition iter_items (it : hiter) : list item := [(NodesK, Ptr (hi_arc it))].

(** [IterKey::append] and [IterKey::pop], lines 2977-2988: [Arc::make_mut], then the
    change. *)
Definition h_key_mut (f : bytes -> bytes) (a : addr) : M addr :=
  e <! arc_get a ;;
  match snd e with
  | CNodes _ => undefined
  | CBytes k =>
      if fst e =? 1 then _ <! put a (Some (1, CBytes (f k))) ;; ret a
      else b <! arc_new (CBytes (f k)) ;; _ <! drop [(BytesK, Ptr a)] ;; ret b
  end.
Definition k_append (p k : bytes) : bytes := k ++ p.
Definition k_pop (n : nat) (k : bytes) : bytes := firstn (length k - n) k.

(** [load_prefix], lines 920-926; a prefix in the store is not modelled. *)
Definition h_load_prefix (c : cnode) : M bytes :=
  if hdr_is_id (c_ph c) then panic else blob_read (c_ph c) (c_p c).
(** [load_children_owned], lines 846-851, and [TreeNodeIter::load] of an empty id;
    children in the store are not modelled. *)
Definition h_load_children (c : cnode) : M (option hiter) :=
  k <! h_children c ;;
  match k with
  | RArc a => _ <! arc_clone (Ptr a) ;; it <! h_iter_new a ;; ret (Some it)
  | RId [] => ret None
  | RId _ => panic
  end.
(** [value_opt().map(|x| x.to_owned())], lines 532-538, 3041, 3105. *)
Definition h_own_value (c : cnode) : M (option (byte * word)) :=
  if h_has_value c then w <! word_clone (c_vh c) (c_v c) ;; ret (Some (c_vh c, w))
  else ret None.

(** [KeyValueIter], lines 3076-3080; the store is left out. *)
Record hkv : Type := HKv { kv_path : addr; kv_stack : list (nat * option hiter) }.
Definition frame_items (f : nat * option hiter) : list item :=
  match snd f with Some it => iter_items it | None => [] end.
Definition kv_items (k : hkv) : list item :=
  (BytesK, Ptr (kv_path k)) :: flat_map frame_items (kv_stack k).
(** [next0], lines 3099-3123. *)
Fixpoint h_kv_next (fuel : nat) (k : hkv) : M (hkv * option (addr * (byte * word))) :=
  match fuel with
  | 0 => fun _ => Exhausted
  | S fuel =>
      match kv_stack k with
      | [] => ret (k, None)
      | (n, Some it) :: rest =>
          x <! h_iter_next it ;;
          match fst x with
          | Some c =>
              v <! h_own_value c ;;
              p <! h_load_prefix c ;;
              ch <! h_load_children c ;;
              a <! h_key_mut (k_append p) (kv_path k) ;;
              let k := HKv a ((length p, ch) :: (n, Some (snd x)) :: rest) in
              match v with
              | Some v => _ <! arc_clone (Ptr a) ;; ret (k, Some (a, v))
              | None => h_kv_next fuel k
              end
          | None =>
              _ <! drop (iter_items it) ;;
              h_kv_next fuel (HKv (kv_path k) ((n, None) :: rest))
          end
      | (n, None) :: rest =>
          a <! h_key_mut (k_pop n) (kv_path k) ;;
          h_kv_next fuel (HKv a rest)
      end
  end.

(** [ValueIter], lines 3018-3021, and its [next0], 3038-3053. *)
Definition hvals := list hiter.
Definition vals_items (s : hvals) : list item := flat_map iter_items s.
Fixpoint h_vals_next (fuel : nat) (s : hvals) : M (hvals * option (byte * word)) :=
  match fuel with
  | 0 => fun _ => Exhausted
  | S fuel =>
      match s with
      | [] => ret ([], None)
      | it :: rest =>
          x <! h_iter_next it ;;
          match fst x with
          | Some c =>
              v <! h_own_value c ;;
              ch <! h_load_children c ;;
              let s := match ch with Some i => [i] | None => [] end ++ snd x :: rest in
              match v with Some v => ret (s, Some v) | None => h_vals_next fuel s end
          | None => _ <! drop (iter_items it) ;; h_vals_next fuel rest
          end
      end
  end.

(* ------------------------------------------------------------------ *)
(** ** Programs with iterators

    Beside the variables of Heap.v a client owns iterators and the keys they gave
    out. *)
Inductive xinstr : Type :=
| XOp (i : instr)
| XIter (r : nat) (pre : bytes) (* [iter()] of the tree in variable [r], or [scan_prefix] with keys starting with [pre] *)
| XNext (j : nat)               (* [next()] of the [j]th iterator: a key and a value, or end *)
| XDropIter (j : nat)
| XValues (r : nat)             (* [values()] *)
| XNextValue (j : nat)
| XDropValues (j : nat)
| XDropKey (k : nat).

Record xst : Type := X {
  x_env : env;
  x_iters : list (option hkv);
  x_vals : list (option hvals);
  x_keys : list (option addr) }.

(** [KeyValueIter::new(TreeNodeIter::from_arc(Arc::new(vec![node.clone()])), ..)],
    lines 3542-3556 and 1999-2004, where [pre] is the key so far. *)
Definition h_iter_of (c : cnode) : M hiter :=
  c' <! h_clone c ;; a <! arc_new (CNodes [c']) ;; h_iter_new a.

(** One instruction of a program. *)
Definition x_step (fuel : nat) (dbg : bool) (i : xinstr) (x : xst) : M xst :=
  match i with
  | XOp i => e <! h_step dbg i (x_env x) ;; ret (X e (x_iters x) (x_vals x) (x_keys x))
  | XIter r pre =>
      match var r (x_env x) with
      | SNode c =>
          it <! h_iter_of c ;;
          p <! arc_new (CBytes pre) ;;
          ret (X (x_env x) (x_iters x ++ [Some (HKv p [(0, Some it)])]) (x_vals x) (x_keys x))
      | _ => panic
      end
  | XNext j =>
      match nth j (x_iters x) None with
      | Some k =>
          y <! h_kv_next fuel k ;;
          let its := upd j (Some (fst y)) (x_iters x) in
          match snd y with
          | Some (a, (h, w)) => ret (X (x_env x ++ [SValue h w]) its (x_vals x) (x_keys x ++ [Some a]))
          | None => ret (X (x_env x ++ [SGone]) its (x_vals x) (x_keys x ++ [None]))
          end
      | None => panic
      end
  | XDropIter j =>
      match nth j (x_iters x) None with
      | Some k => _ <! drop (kv_items k) ;; ret (X (x_env x) (upd j None (x_iters x)) (x_vals x) (x_keys x))
      | None => ret x
      end
  | XValues r =>
      match var r (x_env x) with
      | SNode c =>
          it <! h_iter_of c ;;
          ret (X (x_env x) (x_iters x) (x_vals x ++ [Some [it]]) (x_keys x))
      | _ => panic
      end
  | XNextValue j =>
      match nth j (x_vals x) None with
      | Some s =>
          y <! h_vals_next fuel s ;;
          let vs := upd j (Some (fst y)) (x_vals x) in
          match snd y with
          | Some (h, w) => ret (X (x_env x ++ [SValue h w]) (x_iters x) vs (x_keys x))
          | None => ret (X (x_env x ++ [SGone]) (x_iters x) vs (x_keys x))
          end
      | None => panic
      end
  | XDropValues j =>
      match nth j (x_vals x) None with
      | Some s => _ <! drop (vals_items s) ;; ret (X (x_env x) (x_iters x) (upd j None (x_vals x)) (x_keys x))
      | None => ret x
      end
  | XDropKey k =>
      match nth k (x_keys x) None with
      | Some a => _ <! drop [(BytesK, Ptr a)] ;; ret (X (x_env x) (x_iters x) (x_vals x) (upd k None (x_keys x)))
      | None => ret x
      end
  end.
(** A program and its start; no code in the repository. *)
Fixpoint x_run (fuel : nat) (dbg : bool) (p : list xinstr) (x : xst) : M xst :=
  match p with
  | [] => ret x
  | i :: p => x' <! x_step fuel dbg i x ;; x_run fuel dbg p x'
  end.
Definition x_start : xst := X [] [] [] [].
