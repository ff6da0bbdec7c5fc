(** Tree nodes, borrowed nodes, node iterators and their basic operations. *)
From Verif Require Import Base Header.

(** A prefix or value field together with its header
    (src/node/mod.rs:31-97, 316-382, 407-436).  [Data b] is a header without id
    bit, [Id b] one with the id bit; [Id []] is "none" (header 0x80).
    Simplification: the header byte is a function of the constructor and the
    length (every setter establishes exactly that, see Heap.v where the
    union and its header are modelled and related to this type). *)
Inductive blob : Type :=
| Data (b : bytes)
| Id (b : bytes).

(** [slice()] of a blob reference, src/node/mod.rs:359-361, 424-426. *)
Definition blob_slice (b : blob) : bytes :=
  match b with Data x => x | Id x => x end.

(** [is_id()], src/node/mod.rs:351-353, 412-414. *)
Definition blob_is_id (b : blob) : bool :=
  match b with Data _ => false | Id _ => true end.

(** "none": an id of length 0, src/node/mod.rs:355-357. *)
Definition bnone : blob := Id [].

(** [TreeNode], src/node/mod.rs:649-666, with [ChildrenRef] (108-113): the
    children are an owned vector ([KArc], header ARCDATA) or an id ([KId],
    [KId []] is header NONE).  Reference counting is not modelled; a clone is a
    copy. *)
Inductive node : Type :=
| Node (prefix : blob) (value : blob) (children : kids)
with kids : Type :=
| KArc (ns : list node)
| KId (id : bytes).

(** The fields, src/node/mod.rs:651-667. *)
Definition n_prefix (n : node) : blob := let (p, _, _) := n in p.
Definition n_value (n : node) : blob := let (_, v, _) := n in v.
Definition n_kids (n : node) : kids := let (_, _, k) := n in k.

(** [TreeNode::EMPTY], src/node/mod.rs:942-950. *)
Definition n_empty : node := Node (Data []) bnone (KId []).

(** [TreeNode::single] / [leaf], src/node/mod.rs:958-969. *)
Definition n_single (p v : bytes) : node := Node (Data p) (Data v) (KId []).
Definition n_leaf (v : bytes) : node := Node (Data []) (Data v) (KId []).

(** [has_value] / [value_opt], src/node/mod.rs:1070-1080: header other than NONE. *)
Definition blob_opt (b : blob) : option blob :=
  match b with Id [] => None | _ => Some b end.
Definition has_value (n : node) : bool :=
  match blob_opt (n_value n) with Some _ => true | None => false end.

(** [is_leaf], src/node/mod.rs:1100-1102: children header is NONE. *)
Definition is_leaf (n : node) : bool :=
  match n_kids n with KId [] => true | _ => false end.

(** [is_empty], src/node/mod.rs:983-985. *)
Definition is_empty (n : node) : bool := negb (has_value n) && is_leaf n.

(** [first_prefix_byte], src/node/mod.rs:979-981. *)
Definition first_byte (b : blob) : option byte := hd_error (blob_slice b).
Definition n_first (n : node) : option byte := first_byte (n_prefix n).

(** [child_count], src/node/mod.rs:1104-1116. *)
Definition child_count (n : node) : nat :=
  match n_kids n with
  | KArc ns => length ns
  | KId [] => 0
  | KId _ => 2
  end.

(** Setters [set_prefix_slice], [set_value_slice], [set_children_arc(_opt)],
    src/node/mod.rs:993-1062. *)
Definition set_prefix_slice (n : node) (p : bytes) : node :=
  Node (Data p) (n_value n) (n_kids n).
Definition set_value (n : node) (v : blob) : node :=
  Node (n_prefix n) v (n_kids n).
Definition set_kids (n : node) (k : kids) : node :=
  Node (n_prefix n) (n_value n) k.

(** [set_value] / [set_value_slice] with an [Option<Value>],
    src/node/mod.rs:1024-1041: the value's slice is stored as data. *)
Definition opt_value (v : option blob) : blob :=
  match v with Some b => Data (blob_slice b) | None => bnone end.

(** [set_children_arc_opt], src/node/mod.rs:1057-1062. *)
Definition kids_opt (k : option (list node)) : kids :=
  match k with Some ns => KArc ns | None => KId [] end.

(** A borrowed node inside a buffer, src/node/mod.rs:1148-1160. *)
Record bnode : Type := BNode { b_prefix : blob; b_value : blob; b_children : blob }.

(** One length-prefixed field of a serialized node: header byte and payload,
    src/node/mod.rs:1297-1302. *)
Definition read_field (rest : bytes) : option (blob * bytes) :=
  match rest with
  | [] => None
  | h :: tl =>
      if length tl <? hdr_len h then None
      else
        let payload := firstn (hdr_len h) tl in
        Some (if hdr_is_id h then Id payload else Data payload, skipn (hdr_len h) tl)
  end.

(** [BorrowedTreeNode::read_one], src/node/mod.rs:1296-1331. *)
Definition read_one (rest : bytes) : option (bnode * bytes) :=
  match read_field rest with
  | None => None
  | Some (p, rest) =>
      match read_field rest with
      | None => None
      | Some (v, rest) =>
          match read_field rest with
          | None => None
          | Some (c, rest) => Some (BNode p v c, rest)
          end
      end
  end.

(** [BorrowedTreeNode::to_owned], src/node/mod.rs:1206-1212: [unwrap_err] panics
    on a children field without id bit. *)
Definition b_to_owned (b : bnode) : res node :=
  match b_children b with
  | Id c => Ok (Node (b_prefix b) (b_value b) (KId c))
  | Data _ => Panic
  end.

(** [TreeNode::deserialize], src/node/mod.rs:761-768. *)
Definition deserialize (data : bytes) : res node :=
  match read_one data with
  | Some (b, rest) =>
      match rest with [] => b_to_owned b | _ => Err end
  | None => Err
  end.

(** [TreeNodeRef], src/node/mod.rs:1336-1338. *)
Inductive noderef : Type :=
| ROwned (n : node)
| RBorrowed (b : bnode).

(** [TreeNodeIter], src/node/mod.rs:1761, 1836-1841, 1921-1924.  An owned
    iterator is the remaining slice, a borrowed one the remaining bytes
    [data[offset..]].  The record size is not used by any read. *)
Inductive iter : Type :=
| IOwned (ns : list node)
| IBorrowed (data : bytes).

(** [TreeNodeRef::to_owned], src/node/mod.rs:1381-1386. *)
Definition r_to_owned (r : noderef) : res node :=
  match r with ROwned n => Ok n | RBorrowed b => b_to_owned b end.

Definition r_prefix (r : noderef) : blob :=
  match r with ROwned n => n_prefix n | RBorrowed b => b_prefix b end.

(** [TreeNodeRef::value_opt], src/node/mod.rs:1416-1421, 1074-1080, 1269-1275. *)
Definition r_value_opt (r : noderef) : option blob :=
  match r with
  | ROwned n => blob_opt (n_value n)
  | RBorrowed b => blob_opt (b_value b)
  end.

(** [TreeNodeIter::next], src/node/mod.rs:1973-1978, 1827-1829, 1896-1903. *)
Definition it_next (it : iter) : option (noderef * iter) :=
  match it with
  | IOwned [] => None
  | IOwned (n :: ns) => Some (ROwned n, IOwned ns)
  | IBorrowed data =>
      match read_one data with
      | Some (b, rest) => Some (RBorrowed b, IBorrowed rest)
      | None => None
      end
  end.

(** [TreeNodeIter::first_prefix_byte_opt], src/node/mod.rs:1966-1971, 1823-1825, 1892-1894. *)
Definition it_first (it : iter) : option (option byte) :=
  match it with
  | IOwned [] => None
  | IOwned (n :: _) => Some (n_first n)
  | IBorrowed data =>
      match read_one data with
      | Some (b, _) => Some (first_byte (b_prefix b))
      | None => None
      end
  end.

(** [slice::binary_search_by_key] of the Rust standard library as used in
    [OwnedTreeNodeIter::find] (src/node/mod.rs:1816-1819): halving of
    [left, right).  [fuel] is the length of the slice. *)
Fixpoint bsearch (ns : list node) (c : byte) (fuel left right : nat) : option node :=
  match fuel with
  | 0 => None
  | S fuel =>
      if left <? right then
        let mid := left + (right - left) / 2 in
        match nth_error ns mid with
        | None => None
        | Some x =>
            match cmp_ob (n_first x) (Some c) with
            | Lt => bsearch ns c fuel (mid + 1) right
            | Gt => bsearch ns c fuel left mid
            | Eq => Some x
            end
        end
      else None
  end.

(** [OwnedTreeNodeIter::find], src/node/mod.rs:1811-1821: with 256 children
    the byte is used as an index directly. *)
Definition find_owned (ns : list node) (c : byte) : option node :=
  if length ns =? 256 then nth_error ns (N.to_nat (bnum c))
  else bsearch ns c (S (length ns)) 0 (length ns).

(** [BorrowedTreeNodeIter::find], src/node/mod.rs:1875-1890.  [fuel] bounds the
    number of nodes in the buffer; every node takes at least 3 bytes. *)
Fixpoint find_borrowed (fuel : nat) (data : bytes) (c : byte) : option bnode :=
  match fuel with
  | 0 => None
  | S fuel =>
      match read_one data with
      | None => None
      | Some (b, rest) =>
          match cmp_ob (first_byte (b_prefix b)) (Some c) with
          | Lt => find_borrowed fuel rest c
          | Eq => Some b
          | Gt => None
          end
      end
  end.

(** [TreeNodeIter::find], src/node/mod.rs:1959-1964. *)
Definition it_find (it : iter) (c : byte) : option noderef :=
  match it with
  | IOwned ns => option_map ROwned (find_owned ns c)
  | IBorrowed data => option_map RBorrowed (find_borrowed (S (length data)) data c)
  end.

(** [BorrowedTreeNodeIter::last], src/node/mod.rs:1905-1918. *)
Fixpoint last_borrowed (fuel : nat) (data : bytes) (acc : option bnode) : option bnode :=
  match fuel with
  | 0 => acc
  | S fuel =>
      match read_one data with
      | None => acc
      | Some (b, rest) => last_borrowed fuel rest (Some b)
      end
  end.

(** [TreeNodeIter::last], src/node/mod.rs:1980-1985, 1831-1833. *)
Definition it_last (it : iter) : option noderef :=
  match it with
  | IOwned ns => option_map ROwned (nth_error ns (length ns - 1))
  | IBorrowed data => option_map RBorrowed (last_borrowed (S (length data)) data None)
  end.

Section WithReader.
Context (rd : reader).

(** [TreeNode::load_prefix] / [BorrowedTreeNode::load_prefix],
    src/node/mod.rs:920-926, 1259-1267.  [&id[1..]] panics on an empty id. *)
Definition load_prefix (p : blob) : res bytes :=
  match p with
  | Data x => Ok x
  | Id [] => Panic
  | Id (_ :: id) => rd id
  end.

(** [TreeNode::load_value], src/node/mod.rs:928-938. *)
Definition load_value (v : blob) : res (option bytes) :=
  match v with
  | Data x => Ok (Some x)
  | Id [] => Ok None
  | Id id => x <- rd id ;; Ok (Some x)
  end.

(** [Value::load], src/node/mod.rs:606-614 ([Value::read], 634-640).  A value
    returned by the API is never "none". *)
Definition value_load (v : blob) : res bytes :=
  match v with
  | Data x => Ok x
  | Id id => rd id
  end.

(** [TreeNodeIter::load], src/node/mod.rs:1933-1935, 1844-1856. *)
Definition it_load (id : bytes) : res (option iter) :=
  match id with
  | [] => Ok None
  | _ :: id => data <- rd id ;; Ok (Some (IBorrowed data))
  end.

(** [TreeNode::load_children], src/node/mod.rs:839-844 ([from_slice], 1937-1943). *)
Definition load_children (n : node) : res (option iter) :=
  match n_kids n with
  | KArc [] => Ok None
  | KArc ns => Ok (Some (IOwned ns))
  | KId id => it_load id
  end.

(** [TreeNode::load_children_owned], src/node/mod.rs:846-851: no emptiness test. *)
Definition load_children_owned (n : node) : res (option iter) :=
  match n_kids n with
  | KArc ns => Ok (Some (IOwned ns))
  | KId id => it_load id
  end.

(** [BorrowedTreeNode::load_children], src/node/mod.rs:1277-1288. *)
Definition b_load_children (b : bnode) : res (option iter) :=
  match b_children b with
  | Id [] => Ok None
  | Id id => it_load id
  | Data _ => Panic
  end.

(** [TreeNodeRef::load_children(_owned)], src/node/mod.rs:1402-1414. *)
Definition r_load_children (r : noderef) : res (option iter) :=
  match r with ROwned n => load_children n | RBorrowed b => b_load_children b end.
Definition r_load_children_owned (r : noderef) : res (option iter) :=
  match r with ROwned n => load_children_owned n | RBorrowed b => b_load_children b end.

(** The loop of [load_children_mut], src/node/mod.rs:856-860. *)
Fixpoint collect_owned (fuel : nat) (data : bytes) : res (list node) :=
  match fuel with
  | 0 => Fuel
  | S fuel =>
      match read_one data with
      | None => Ok []
      | Some (b, rest) =>
          n <- b_to_owned b ;;
          ns <- collect_owned fuel rest ;;
          Ok (n :: ns)
      end
  end.

(** [TreeNode::load_children_mut], src/node/mod.rs:853-865: afterwards the
    children are an owned vector.  Returns that vector; the callers store the
    mutated vector back with [KArc]. *)
Definition load_children_mut (n : node) : res (list node) :=
  match n_kids n with
  | KArc ns => Ok ns
  | KId [] => Ok []
  | KId (_ :: id) => data <- rd id ;; collect_owned (S (length data)) data
  end.

(** [TreeNode::clone_shortened], src/node/mod.rs:867-872. *)
Definition clone_shortened (n : node) (k : nat) : res node :=
  p <- load_prefix (n_prefix n) ;;
  q <- slice_from k p ;;
  Ok (set_prefix_slice n q).

(** [TreeNodeRef::clone_shortened], src/node/mod.rs:1423-1428: [todo!()] for
    borrowed nodes. *)
Definition r_clone_shortened (r : noderef) (k : nat) : res node :=
  match r with ROwned n => clone_shortened n k | RBorrowed _ => Panic end.

(** [TreeNode::split], src/node/mod.rs:874-891. *)
Definition split (n : node) (k : nat) : res node :=
  p <- load_prefix (n_prefix n) ;;
  q <- slice_from k p ;;
  p' <- slice_to k p ;;
  Ok (Node (Data p') bnone (KArc [Node (Data q) (n_value n) (n_kids n)])).

(** The children loop of [TreeNode::detached], src/node/mod.rs:724-727, and of
    [OwnedTreeNodeIter::detached], 1799-1803; [rec] detaches one node. *)
Fixpoint detach_loop (rec : noderef -> res node) (fuel : nat) (it : iter) : res (list node) :=
  match fuel with
  | 0 => Fuel
  | S fuel =>
      match it_next it with
      | None => Ok []
      | Some (r, it') =>
          x <- rec r ;;
          xs <- detach_loop rec fuel it' ;;
          Ok (x :: xs)
      end
  end.

(** [TreeNodeRef::detached], src/node/mod.rs:1367-1372; [TreeNode::detached],
    718-731; [BorrowedTreeNode::detached], 1214-1219. *)
Fixpoint r_detached (fuel : nat) (r : noderef) : res node :=
  match fuel with
  | 0 => Fuel
  | S fuel =>
      n <- r_to_owned r ;;
      p <- load_prefix (n_prefix n) ;;
      v <- load_value (n_value n) ;;
      c <- load_children n ;;
      match c with
      | None => Ok (Node (Data p) (opt_value (option_map Data v)) (KId []))
      | Some it =>
          ns <- detach_loop (r_detached fuel) fuel it ;;
          Ok (Node (Data p) (opt_value (option_map Data v)) (KArc ns))
      end
  end.

(** [TreeNodeIter::detached], src/node/mod.rs:1952-1957, 1793-1805, 1867-1869:
    [todo!()] for borrowed iterators that are not at their end.  The shortcut for
    an owned [Arc] under [Detached] returns the same nodes. *)
Definition it_detached (fuel : nat) (it : iter) : res (option (list node)) :=
  match it with
  | IOwned [] => Ok None
  | IOwned ns => xs <- detach_loop (r_detached fuel) fuel (IOwned ns) ;; Ok (Some xs)
  | IBorrowed [] => Ok None
  | IBorrowed _ => Panic
  end.

(** [ValueRef::detached], src/node/mod.rs:481-490: [todo!()] for ids. *)
Definition v_detached (v : blob) : res blob :=
  match v with Data x => Ok (Data x) | Id _ => Panic end.

End WithReader.

(** [TreeNode::canonicalize], src/node/mod.rs:893-918.  [dbg] tells whether
    [debug_assert!] is compiled in. *)
Definition canonicalize (dbg : bool) (n : node) : res node :=
  let loaded := match n_kids n with KArc _ => true | KId [] => true | KId _ => false end in
  if dbg && negb loaded then Panic
  else
    n1 <- (match blob_opt (n_value n), n_kids n with
           | None, KArc [c] =>
               if dbg && (blob_is_id (n_prefix n) || blob_is_id (n_prefix c)) then Panic
               else Ok (Node (Data (blob_slice (n_prefix n) ++ blob_slice (n_prefix c)))
                             (n_value c) (n_kids c))
           | _, _ => Ok n
           end) ;;
    if negb (has_value n1) && (child_count n1 =? 0)
    then Ok (Node (Data []) (n_value n1) (KId []))
    else Ok n1.
