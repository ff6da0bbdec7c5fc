(** The whole in-memory API on shared memory: programs that mix what HeapTree.v,
    HeapIter.v and HeapGroup.v model, and further reads of a tree
    (src/node/mod.rs:1516-1567, 1988-2009, 2966-3013). *)
From Verif Require Import Base Header Node Store Heap HeapIter HeapTree HeapGroup.

(** ** Reads of a tree *)
(** [last] of a slice iterator, lines 1831-1833. *)
Definition bi_last (it : biter) : M (option cnode) :=
  match bi_rest it with
  | [] => ret None
  | c :: r => _ <! bi_check it ;; ret (Some (last (c :: r) c))
  end.
(** [value_opt().map(|x| x.to_owned())], lines 532-538, 1074-1080. *)
Definition h_owned_value (c : cnode) : M slot :=
  match h_value_opt c with
  | Some v => w <! word_clone (fst v) (snd v) ;; ret (SValue (fst v) w)
  | None => ret SGone
  end.
(** [first_value], lines 1516-1527. *)
Fixpoint h_first_value (fuel : nat) (t : cnode) : M slot :=
  match fuel with
  | 0 => fun _ => Exhausted
  | S fuel =>
      match h_value_opt t with
      | Some _ => h_owned_value t
      | None =>
          ch <! h_slice t ;;
          match ch with
          | None => ret SGone
          | Some it =>
              o <! bi_next it ;;
              match o with Some (c, _) => h_first_value fuel c | None => panic end
          end
      end
  end.
(** [last_value], lines 1530-1538. *)
Fixpoint h_last_value (fuel : nat) (t : cnode) : M slot :=
  match fuel with
  | 0 => fun _ => Exhausted
  | S fuel =>
      ch <! h_slice t ;;
      match ch with
      | None => h_owned_value t
      | Some it =>
          o <! bi_last it ;;
          match o with Some c => h_last_value fuel c | None => panic end
      end
  end.
(** [first_entry], lines 1541-1554, and [last_entry], lines 1557-1567: the key is a
    [Vec<u8>] that nothing else refers to. *)
Definition with_key (k : bytes) (m : M slot) : M (option bytes * slot) :=
  s <! m ;; ret (match s with SGone => None | _ => Some k end, s).
Fixpoint h_first_entry (fuel : nat) (prefix : bytes) (t : cnode) : M (option bytes * slot) :=
  match fuel with
  | 0 => fun _ => Exhausted
  | S fuel =>
      tp <! h_load_prefix t ;;
      match h_value_opt t with
      | Some _ => with_key (prefix ++ tp) (h_owned_value t)
      | None =>
          ch <! h_slice t ;;
          match ch with
          | None => ret (None, SGone)
          | Some it =>
              o <! bi_next it ;;
              match o with Some (c, _) => h_first_entry fuel (prefix ++ tp) c | None => panic end
          end
      end
  end.
Fixpoint h_last_entry (fuel : nat) (prefix : bytes) (t : cnode) : M (option bytes * slot) :=
  match fuel with
  | 0 => fun _ => Exhausted
  | S fuel =>
      tp <! h_load_prefix t ;;
      ch <! h_slice t ;;
      match ch with
      | None => with_key (prefix ++ tp) (h_owned_value t)
      | Some it =>
          o <! bi_last it ;;
          match o with Some c => h_last_entry fuel (prefix ++ tp) c | None => panic end
      end
  end.
(** [scan_prefix], lines 1988-2009, with [IterKey::new], 2972-2974, and
    [KeyValueIter::new] and [empty], 3083-3097. *)
Definition h_scan_prefix (fuel : nat) (prefix : bytes) (t : cnode) : M hkv :=
  x <! h_find fuel t prefix ;;
  match x with
  | HFound c =>
      p <! arc_new (CBytes prefix) ;;
      it <! h_iter_of c ;;
      ret (HKv p [(0, Some it)])
  | HPrefix c matching =>
      if matching <=? length prefix then
        p <! arc_new (CBytes (firstn (length prefix - matching) prefix)) ;;
        it <! h_iter_of c ;;
        ret (HKv p [(0, Some it)])
      else panic
  | HNotFound => p <! arc_new (CBytes []) ;; ret (HKv p [])
  end.

(** ** Keys as blobs
    [IterKey::to_owned_blob], lines 2990-2992, with [From<Arc<Vec<u8>>> for OwnedBlob],
    src/store/blob_store.rs:200-208: the blob owns a clone of the [Arc], and a slice
    whose lifetime is extended.  [snd]: what the slice pointed to when it was made. *)
Definition hblob : Type := addr * bytes.
Definition h_key_blob (a : addr) : M hblob :=
  k <! h_key_read a ;; _ <! arc_clone (Ptr a) ;; ret (a, k).
(** Reading the slice: whoever writes to the vector breaks the promise. *)
Definition h_blob_read (b : hblob) : M bytes :=
  k <! h_key_read (fst b) ;;
  if list_eq_dec Byte.byte_eq_dec k (snd b) then ret k else undefined.
Definition hblob_items (b : hblob) : list item := [(BytesK, Ptr (fst b))].

(* ------------------------------------------------------------------ *)
(** ** Programs

    A client owns the variables of HeapTree.v, iterators, keys, iterators over groups,
    vectors of bytes that it read and blobs made from keys. *)
Inductive winstr : Type :=
| WTree (i : tinstr)
| WIf (q : query) (i : winstr)
| WIter (r : nat)                      (* [iter()] *)
| WScan (r : nat) (p : bytes)          (* [scan_prefix(p)] *)
| WNext (j : nat)                      (* a key and, in a new variable, a value; or end *)
| WDropIter (j : nat)
| WValues (r : nat)
| WNextValue (j : nat)
| WDropValues (j : nat)
| WReadKey (k : nat)                   (* the bytes of a key *)
| WDropKey (k : nat)
| WBlob (k : nat)                      (* [to_owned_blob()] of a key *)
| WReadBlob (b : nat)
| WDropBlob (b : nat)
| WGroup (r : nat) (d : bytes -> option bytes -> bool)
| WNextGroup (j : nat)
| WDropGroup (j : nat)
| WFirst (r : nat)                     (* [first_value()] *)
| WLast (r : nat)
| WFirstEntry (r : nat) (p : bytes)    (* [first_entry(p)] *)
| WLastEntry (r : nat) (p : bytes)
| WReadValue (r : nat).                (* the bytes of the value in variable [r] *)
Record wst : Type := W {
  w_g : gst;
  w_vecs : list (option bytes);
  w_blobs : list (option hblob) }.
Definition w_x (s : wst) : xst := g_x (w_g s).
Definition w_env (s : wst) : env := x_env (w_x s).
Definition w_put (e : env) (s : wst) : wst :=
  W (GS (X e (x_iters (w_x s)) (x_vals (w_x s)) (x_keys (w_x s))) (g_groups (w_g s))) (w_vecs s) (w_blobs s).
Definition w_with (fuel : nat) (dbg : bool) (i : ginstr) (s : wst) : M wst :=
  g <! g_step fuel dbg i (w_g s) ;; ret (W g (w_vecs s) (w_blobs s)).

(** One instruction of a program. *)
Fixpoint w_step (dbg : bool) (fuel : nat) (i : winstr) (s : wst) : M wst :=
  match i with
  | WTree i => e <! t_step dbg fuel i (w_env s) ;; ret (w_put e s)
  | WIf q i => b <! t_ask fuel q (w_env s) ;; if b then w_step dbg fuel i s else ret s
  | WIter r => w_with fuel dbg (GDo (XIter r [])) s
  | WScan r p =>
      match var r (w_env s) with
      | SNode c =>
          k <! h_scan_prefix fuel p c ;;
          ret (W (GS (X (w_env s) (x_iters (w_x s) ++ [Some k]) (x_vals (w_x s)) (x_keys (w_x s))) (g_groups (w_g s)))
                 (w_vecs s) (w_blobs s))
      | _ => panic
      end
  | WNext j => w_with fuel dbg (GDo (XNext j)) s
  | WDropIter j => w_with fuel dbg (GDo (XDropIter j)) s
  | WValues r => w_with fuel dbg (GDo (XValues r)) s
  | WNextValue j => w_with fuel dbg (GDo (XNextValue j)) s
  | WDropValues j => w_with fuel dbg (GDo (XDropValues j)) s
  | WReadKey k =>
      match nth k (x_keys (w_x s)) None with
      | Some a => b <! h_key_read a ;; ret (W (w_g s) (w_vecs s ++ [Some b]) (w_blobs s))
      | None => panic
      end
  | WDropKey k => w_with fuel dbg (GDo (XDropKey k)) s
  | WBlob k =>
      match nth k (x_keys (w_x s)) None with
      | Some a => b <! h_key_blob a ;; ret (W (w_g s) (w_vecs s) (w_blobs s ++ [Some b]))
      | None => panic
      end
  | WReadBlob j =>
      match nth j (w_blobs s) None with
      | Some b => k <! h_blob_read b ;; ret (W (w_g s) (w_vecs s ++ [Some k]) (w_blobs s))
      | None => panic
      end
  | WDropBlob j =>
      match nth j (w_blobs s) None with
      | Some b => _ <! drop (hblob_items b) ;; ret (W (w_g s) (w_vecs s) (upd j None (w_blobs s)))
      | None => ret s
      end
  | WGroup r d => w_with fuel dbg (GGroup r d) s
  | WNextGroup j => w_with fuel dbg (GNext j) s
  | WDropGroup j => w_with fuel dbg (GDrop j) s
  | WFirst r => e <! t_new1 (w_env s) r (h_first_value fuel) ;; ret (w_put e s)
  | WLast r => e <! t_new1 (w_env s) r (h_last_value fuel) ;; ret (w_put e s)
  | WFirstEntry r p =>
      match var r (w_env s) with
      | SNode c => x <! h_first_entry fuel p c ;; ret (W (w_g (w_put (w_env s ++ [snd x]) s)) (w_vecs s ++ [fst x]) (w_blobs s))
      | _ => panic
      end
  | WLastEntry r p =>
      match var r (w_env s) with
      | SNode c => x <! h_last_entry fuel p c ;; ret (W (w_g (w_put (w_env s ++ [snd x]) s)) (w_vecs s ++ [fst x]) (w_blobs s))
      | _ => panic
      end
  | WReadValue r =>
      match var r (w_env s) with
      | SValue h w => if hdr_is_id h then panic else b <! blob_read h w ;; ret (W (w_g s) (w_vecs s ++ [Some b]) (w_blobs s))
      | _ => panic
      end
  end.
(** A program and its start; no code in the repository. *)
Fixpoint w_run (dbg : bool) (fuel : nat) (p : list winstr) (s : wst) : M wst :=
  match p with
  | [] => ret s
  | i :: p => s' <! w_step dbg fuel i s ;; w_run dbg fuel p s'
  end.
Definition w_start : wst := W g_start [] [].
