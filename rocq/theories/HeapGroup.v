(** Grouping in memory: [GroupBy] of src/node/mod.rs:3142-3219 on the memory of Heap.v
    and HeapIter.v.

    The iterator owns its path and clones of the [Arc]s of the children it descends
    into, and holds raw pointers into these; each tree that it gives out shares the
    children of the node it is made from. *)
From Verif Require Import Base Header Node Store Heap HeapIter.

(** [Deref for IterKey], lines 3007-3013. *)
Definition h_key_read (a : addr) : M bytes :=
  e <! arc_get a ;; match snd e with CBytes k => ret k | CNodes _ => undefined end.
(** What the user's predicate is shown of a node, line 3172: its value, if there is
    one.  A value in the store is not modelled.  The predicate gets the node itself,
    whose other fields it can not read. *)
Definition h_shown_value (c : cnode) : M (option bytes) :=
  if h_has_value c then
    if hdr_is_id (c_vh c) then panic else b <! blob_read (c_vh c) (c_v c) ;; ret (Some b)
  else ret None.

(** [next0], lines 3159-3201; [GroupBy] has the same state as [KeyValueIter] beside
    the predicate [d]. *)
Fixpoint h_gb_next (d : bytes -> option bytes -> bool) (fuel : nat) (k : hkv) : M (hkv * option cnode) :=
  match fuel with
  | 0 => fun _ => Exhausted
  | S fuel =>
      match kv_stack k with
      | [] => ret (k, None)
      | (n, Some it) :: rest =>
          x <! h_iter_next it ;;
          match fst x with
          | Some c =>
              p <! h_load_prefix c ;;
              a <! h_key_mut (k_append p) (kv_path k) ;;
              path <! h_key_read a ;;
              v <! h_shown_value c ;;
              if d path v then
                ch <! h_load_children c ;;
                let k := HKv a ((length p, ch) :: (n, Some (snd x)) :: rest) in
                if h_has_value c then
                  r <! h_clone c ;;
                  r1 <! h_set_prefix path r ;;
                  r2 <! h_set_children_id [] r1 ;;
                  ret (k, Some r2)
                else h_gb_next d fuel k
              else
                r <! h_clone c ;;
                r1 <! h_set_prefix path r ;;
                a' <! h_key_mut (k_pop (length p)) a ;;
                ret (HKv a' ((n, Some (snd x)) :: rest), Some r1)
          | None =>
              _ <! drop (iter_items it) ;;
              h_gb_next d fuel (HKv (kv_path k) ((n, None) :: rest))
          end
      | (n, None) :: rest =>
          a <! h_key_mut (k_pop n) (kv_path k) ;;
          h_gb_next d fuel (HKv a rest)
      end
  end.

(* ------------------------------------------------------------------ *)
(** ** Programs that group

    Beside what HeapIter.v has, a client owns iterators over groups. *)
Definition hgb : Type := (bytes -> option bytes -> bool) * hkv.
Inductive ginstr : Type :=
| GDo (i : xinstr)
| GGroup (r : nat) (d : bytes -> option bytes -> bool) (* [group_by(d)] of the tree in variable [r] *)
| GNext (j : nat)                                      (* [next()]: a tree in a new variable, or end *)
| GDrop (j : nat).
Record gst : Type := GS { g_x : xst; g_groups : list (option hgb) }.

(** [GGroup]: [try_group_by], lines 3568-3584, with [IterKey::default()], line
    2969.  The borrow of the tree that Rust keeps while the iterator lives is not
    enforced: the program may change or drop the tree. *)
Definition g_step (fuel : nat) (dbg : bool) (i : ginstr) (s : gst) : M gst :=
  match i with
  | GDo i => x <! x_step fuel dbg i (g_x s) ;; ret (GS x (g_groups s))
  | GGroup r d =>
      match var r (x_env (g_x s)) with
      | SNode c =>
          it <! h_iter_of c ;;
          p <! arc_new (CBytes []) ;;
          ret (GS (g_x s) (g_groups s ++ [Some (d, HKv p [(0, Some it)])]))
      | _ => panic
      end
  | GNext j =>
      match nth j (g_groups s) None with
      | Some (d, k) =>
          y <! h_gb_next d fuel k ;;
          let x := g_x s in
          let v := match snd y with Some c => SNode c | None => SGone end in
          ret (GS (X (x_env x ++ [v]) (x_iters x) (x_vals x) (x_keys x)) (upd j (Some (d, fst y)) (g_groups s)))
      | None => panic
      end
  | GDrop j =>
      match nth j (g_groups s) None with
      | Some (d, k) => _ <! drop (kv_items k) ;; ret (GS (g_x s) (upd j None (g_groups s)))
      | None => ret s
      end
  end.
Fixpoint g_run (fuel : nat) (dbg : bool) (p : list ginstr) (s : gst) : M gst :=
  match p with
  | [] => ret s
  | i :: p => s' <! g_step fuel dbg i s ;; g_run fuel dbg p s'
  end.
Definition g_start : gst := GS x_start [].
