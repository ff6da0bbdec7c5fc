(** The memory representation of tree nodes: unions of inline bytes and reference
    counted pointers, told apart by header bytes (src/node/mod.rs:23-214, 256-314,
    577-1146).

    [Node.v] treats nodes as values: a clone is a copy, and nothing is ever
    freed.  Here nodes live on a heap with reference counts, and every [unsafe]
    access is explicit: [Undefined] is undefined behaviour (reading the union
    member that was not written, using freed memory, taking a node vector for a
    byte vector).

    Not modelled: address reuse (a freed address is never allocated again, so that
    every later use of it is noticed), several threads, weak references (there
    are none), overflow of the reference count, and unwinding after a panic.  In a
    debug build [manual_drop] also zeroes the union; every caller overwrites it. *)
From Verif Require Import Base Header Node Store.

(** [PTR_SIZE], line 23. *)
Definition PTR_SIZE : nat := 8.
Definition addr := nat.

(** The eight bytes of [CompactOwnedBlob] (lines 31-34) or [ChildrenRef] (108-113):
    an inline array or one of the [Arc]s. *)
Inductive word : Type :=
| Inline (b : bytes)
| Ptr (a : addr).

(** [TreeNode], lines 649-666. *)
Record cnode : Type := CNode {
  c_ph : byte; c_vh : byte; c_ch : byte;
  c_p : word; c_v : word; c_c : word }.

(** What an [Arc] points to: [Vec<u8>] or [Vec<TreeNode>]. *)
Inductive cell : Type :=
| CBytes (b : bytes)
| CNodes (cs : list cnode).

(** Per address the strong count and the contents; [None] is freed. *)
Definition heap := list (option (nat * cell)).

Inductive out (A : Type) : Type :=
| Done (a : A)
| Panics
| Undefined
| Exhausted (* the step bound of the model was too small; excluded by the theorems *).
Arguments Done {A} a.
Arguments Panics {A}.
Arguments Undefined {A}.
Arguments Exhausted {A}.

(** Plumbing without counterpart in the source: a computation that changes the heap and
    returns, panics, is undefined or runs out of steps. *)
Definition M (A : Type) : Type := heap -> out (A * heap).
Definition ret {A} (a : A) : M A := fun h => Done (a, h).
Definition panic {A} : M A := fun _ => Panics.
Definition undefined {A} : M A := fun _ => Undefined.
Definition mbind {A B} (m : M A) (k : A -> M B) : M B := fun h =>
  match m h with
  | Done (a, h') => k a h'
  | Panics => Panics
  | Undefined => Undefined
  | Exhausted => Exhausted
  end.
Notation "x <! e ;; k" := (mbind e (fun x => k))
  (at level 61, e at next level, right associativity).

(** Replace an element of a list (an assignment through a pointer or to a variable). *)
Fixpoint upd {A} (i : nat) (x : A) (l : list A) : list A :=
  match l, i with
  | [], _ => []
  | _ :: l', 0 => x :: l'
  | y :: l', S i' => y :: upd i' x l'
  end.

(* ------------------------------------------------------------------ *)
(** ** [Arc] *)

Definition arc_get (a : addr) : M (nat * cell) := fun h =>
  match nth_error h a with
  | Some (Some e) => Done (e, h)
  | _ => Undefined
  end.
(** Overwrite a cell of the heap; used by the operations on [Arc] below (standard library). *)
Definition put (a : addr) (e : option (nat * cell)) : M unit := fun h => Done (tt, upd a e h).
(** [Arc::new]. *)
Definition arc_new (x : cell) : M addr := fun h => Done (length h, h ++ [Some (1, x)]).
(** [Arc::clone]. *)
Definition arc_clone (w : word) : M unit :=
  match w with
  | Ptr a => e <! arc_get a ;; put a (Some (S (fst e), snd e))
  | Inline _ => undefined
  end.

(** The reference counted pointers that a node holds, with their types.  A field
    holds one iff its header says so ([is_arc], lines 299-301). *)
Inductive kind : Type := BytesK | NodesK.
Definition item : Type := kind * word.
Definition is_arc (h : byte) : bool := PTR_SIZE <? hdr_len h.
Definition field_items (k : kind) (h : byte) (w : word) : list item :=
  if is_arc h then [(k, w)] else [].
Definition kids_kind (h : byte) : kind := if hdr_is_id h then BytesK else NodesK.
Definition node_items (c : cnode) : list item :=
  field_items BytesK (c_ph c) (c_p c) ++ field_items BytesK (c_vh c) (c_v c) ++
  field_items (kids_kind (c_ch c)) (c_ch c) (c_c c).
Definition cell_items (x : cell) : list item :=
  match x with CBytes _ => [] | CNodes cs => flat_map node_items cs end.
Definition same_kind (k : kind) (x : cell) : bool :=
  match k, x with BytesK, CBytes _ => true | NodesK, CNodes _ => true | _, _ => false end.

(** Dropping [Arc]s: the count goes down; at zero the contents are dropped, too
    ([Drop for TreeNode], lines 1118-1124) and the memory is freed. *)
Fixpoint drop_items (fuel : nat) (l : list item) (h : heap) : out (unit * heap) :=
  match l with
  | [] => Done (tt, h)
  | (k, w) :: l' =>
      match fuel with
      | 0 => Exhausted
      | S fuel =>
          match w with
          | Inline _ => Undefined
          | Ptr a =>
              match nth_error h a with
              | Some (Some (n, x)) =>
                  if same_kind k x then
                    if n =? 1 then drop_items fuel (cell_items x ++ l') (upd a None h)
                    else drop_items fuel l' (upd a (Some (n - 1, x)) h)
                  else Undefined
              | _ => Undefined
              end
          end
      end
  end.
Definition count_of (e : option (nat * cell)) : nat := match e with Some (n, _) => n | None => 0 end.
Definition total (h : heap) : nat := list_sum (map count_of h).
Definition drop (l : list item) : M unit := fun h => drop_items (total h) l h.

(* ------------------------------------------------------------------ *)
(** ** [CompactOwnedBlob], lines 36-97 *)

Definition pad (d : bytes) : bytes := d ++ repeat x00 (PTR_SIZE - length d).
(** [EMPTY], lines 37-39. *)
Definition w_empty : word := Inline (repeat x00 PTR_SIZE).
(** [copy_from_slice], lines 41-52; also [ChildrenRef::id_from_slice], 132-143. *)
Definition blob_word (d : bytes) : M word :=
  if PTR_SIZE <? length d then a <! arc_new (CBytes d) ;; ret (Ptr a)
  else ret (Inline (pad d)).
(** [slice], lines 62-70. *)
Definition blob_read (h : byte) (w : word) : M bytes :=
  if is_arc h then
    match w with
    | Ptr a => e <! arc_get a ;; match snd e with CBytes b => ret b | CNodes _ => undefined end
    | Inline _ => undefined
    end
  else match w with Inline b => ret (firstn (hdr_len h) b) | Ptr _ => undefined end.
(** [manual_clone], lines 72-84 and 181-199. *)
Definition word_clone (h : byte) (w : word) : M word :=
  if is_arc h then _ <! arc_clone w ;; ret w
  else match w with Inline b => ret (Inline b) | Ptr _ => undefined end.

(* ------------------------------------------------------------------ *)
(** ** [TreeNode] *)

(** [EMPTY], lines 942-950. *)
Definition c_empty : cnode := CNode (hdr_data 0) hdr_none hdr_none w_empty w_empty w_empty.

(** Assign the header and the word of one field of [TreeNode], src/node/mod.rs:651-667. *)
Definition with_p (c : cnode) (h : byte) (w : word) : cnode :=
  CNode h (c_vh c) (c_ch c) w (c_v c) (c_c c).
Definition with_v (c : cnode) (h : byte) (w : word) : cnode :=
  CNode (c_ph c) h (c_ch c) (c_p c) w (c_c c).
Definition with_c (c : cnode) (h : byte) (w : word) : cnode :=
  CNode (c_ph c) (c_vh c) h (c_p c) (c_v c) w.

(** The references that the fields of a node own: what dropping them releases,
    src/node/mod.rs:1119-1125. *)
Definition p_items (c : cnode) : list item := field_items BytesK (c_ph c) (c_p c).
Definition v_items (c : cnode) : list item := field_items BytesK (c_vh c) (c_v c).
Definition c_items (c : cnode) : list item := field_items (kids_kind (c_ch c)) (c_ch c) (c_c c).

(** [set_prefix_slice], lines 993-997. *)
Definition h_set_prefix (d : bytes) (c : cnode) : M cnode :=
  _ <! drop (p_items c) ;; w <! blob_word d ;; ret (with_p c (hdr_data (length d)) w).
(** [set_value_slice], lines 1032-1041. *)
Definition h_set_value (v : option bytes) (c : cnode) : M cnode :=
  _ <! drop (v_items c) ;;
  match v with
  | Some d => w <! blob_word d ;; ret (with_v c (hdr_data (length d)) w)
  | None => ret (with_v c hdr_none w_empty)
  end.
(** [set_value_owned], lines 999-1003. *)
Definition h_set_value_owned (h : byte) (w : word) (c : cnode) : M cnode :=
  _ <! drop (v_items c) ;; w' <! word_clone h w ;; ret (with_v c h w').
(** [set_children_arc], lines 1051-1055 (takes the pointer). *)
Definition h_set_children_arc (a : addr) (c : cnode) : M cnode :=
  _ <! drop (c_items c) ;; ret (with_c c (hdr_data 127) (Ptr a)).
(** [set_children_id], lines 1064-1068. *)
Definition h_set_children_id (id : bytes) (c : cnode) : M cnode :=
  _ <! drop (c_items c) ;;
  match hdr_id (length id) with
  | Ok h => w <! blob_word id ;; ret (with_c c h w)
  | _ => panic
  end.
(** [set_prefix_borrowed], [set_value_borrowed], [set_children_borrowed], lines
    1005-1022: header and bytes come from a buffer. *)
Definition h_set_prefix_borrowed (h : byte) (d : bytes) (c : cnode) : M cnode :=
  _ <! drop (p_items c) ;; w <! blob_word d ;; ret (with_p c h w).
Definition h_set_value_borrowed (h : byte) (d : bytes) (c : cnode) : M cnode :=
  _ <! drop (v_items c) ;; w <! blob_word d ;; ret (with_v c h w).
Definition h_set_children_borrowed (h : byte) (d : bytes) (c : cnode) : M cnode :=
  if hdr_is_id h then _ <! drop (c_items c) ;; w <! blob_word d ;; ret (with_c c h w)
  else panic.
(** [take_value], lines 1092-1097. *)
Definition h_take_value (c : cnode) : cnode * (byte * word) :=
  (with_v c hdr_none w_empty, (c_vh c, c_v c)).
(** [has_value], line 1070. *)
Definition h_has_value (c : cnode) : bool := negb (hdr_is_none (c_vh c)).

(** [Clone for TreeNode], lines 1126-1138. *)
Definition h_clone (c : cnode) : M cnode :=
  p <! word_clone (c_ph c) (c_p c) ;;
  v <! word_clone (c_vh c) (c_v c) ;;
  k <! word_clone (c_ch c) (c_c c) ;;
  ret (CNode (c_ph c) (c_vh c) (c_ch c) p v k).
Fixpoint h_clones (cs : list cnode) : M (list cnode) :=
  match cs with
  | [] => ret []
  | c :: cs => c' <! h_clone c ;; cs' <! h_clones cs ;; ret (c' :: cs')
  end.

(** [get_children], lines 1043-1045, 152-166. *)
Inductive cref : Type := RArc (a : addr) | RId (id : bytes).
Definition h_children (c : cnode) : M cref :=
  if hdr_is_id (c_ch c) then b <! blob_read (c_ch c) (c_c c) ;; ret (RId b)
  else if hdr_len (c_ch c) <=? PTR_SIZE then panic
  else match c_c c with Ptr a => ret (RArc a) | Inline _ => undefined end.
(** Dereferencing an [Arc<Vec<TreeNode>>]. *)
Definition vec_get (a : addr) : M (list cnode) :=
  e <! arc_get a ;; match snd e with CNodes cs => ret cs | CBytes _ => undefined end.
(** [child_count], lines 1104-1116. *)
Definition h_child_count (c : cnode) : M nat :=
  k <! h_children c ;;
  match k with
  | RArc a => cs <! vec_get a ;; ret (length cs)
  | RId [] => ret 0
  | RId _ => ret 2
  end.

(** [Arc::make_mut(get_children_mut().unwrap())], lines 863-864, 898-899: afterwards
    the vector is not shared. *)
Definition h_make_mut (c : cnode) : M (cnode * addr) :=
  k <! h_children c ;;
  match k with
  | RId _ => panic
  | RArc a =>
      e <! arc_get a ;;
      match snd e with
      | CBytes _ => undefined
      | CNodes cs =>
          if fst e =? 1 then ret (c, a)
          else
            cs' <! h_clones cs ;;
            b <! arc_new (CNodes cs') ;;
            _ <! drop [(NodesK, Ptr a)] ;;
            ret (with_c c (c_ch c) (Ptr b), b)
      end
  end.
(** Access through [&mut Vec<TreeNode>].  The exclusive borrow is a move of the
    vector's elements out of the heap and back; nobody can look in between. *)
Definition vec_take (a : addr) : M (list cnode) :=
  e <! arc_get a ;;
  match snd e with
  | CNodes cs => _ <! put a (Some (fst e, CNodes [])) ;; ret cs
  | CBytes _ => undefined
  end.
Definition vec_put (a : addr) (cs : list cnode) : M unit :=
  e <! arc_get a ;; put a (Some (fst e, CNodes cs)).

(** [split], lines 874-891, where [p] is the loaded prefix. *)
Definition h_split (p : bytes) (k : nat) (c : cnode) : M cnode :=
  if k <=? length p then
    child <! h_set_prefix (skipn k p) c_empty ;;
    c1 <! h_set_prefix (firstn k p) c ;;
    let child := with_v (with_c child (c_ch c1) (c_c c1)) (c_vh c1) (c_v c1) in
    let c2 := with_v (with_c c1 hdr_none w_empty) hdr_none w_empty in
    a <! arc_new (CNodes [child]) ;;
    h_set_children_arc a c2
  else panic.

(** [canonicalize], lines 893-918.  The last two assignments overwrite the children
    without [manual_drop]. *)
Definition h_canonicalize (dbg : bool) (c : cnode) : M cnode :=
  if dbg && negb (negb (hdr_is_id (c_ch c)) || hdr_is_none (c_ch c)) then panic
  else
    cc <! h_child_count c ;;
    c1 <! (if negb (h_has_value c) && (cc =? 1) then
             m <! h_make_mut c ;;
             let c := fst m in
             cs <! vec_take (snd m) ;;
             match rev cs with
             | [] => panic
             | child :: rest =>
                 _ <! vec_put (snd m) (rev rest) ;;
                 if dbg && (hdr_is_id (c_ph c) || hdr_is_id (c_ph child)) then panic
                 else
                   p <! blob_read (c_ph c) (c_p c) ;;
                   q <! blob_read (c_ph child) (c_p child) ;;
                   c1 <! h_set_prefix (p ++ q) c ;;
                   let c2 := with_c (with_v c1 (c_vh child) (c_v child)) (c_ch child) (c_c child) in
                   let child := with_c (with_v child (c_vh c1) (c_v c1)) (c_ch c1) (c_c c1) in
                   _ <! drop (node_items child) ;;
                   ret c2
             end
           else ret c) ;;
    cc <! h_child_count c1 ;;
    if negb (h_has_value c1) && (cc =? 0) then
      _ <! drop (p_items c1) ;;
      ret (with_c (with_p c1 (hdr_data 0) w_empty) hdr_none w_empty)
    else ret c1.

(* ------------------------------------------------------------------ *)
(** ** Programs

    A client owns nodes, values and shared node vectors in variables, and can name
    any node inside of them by a path of child indices.  All functions of
    src/node/mod.rs work on nodes through the operations below. *)

(** What a variable holds; [SGone]: moved away or dropped. *)
Inductive slot : Type :=
| SNode (c : cnode)
| SValue (h : byte) (w : word)
| SArc (a : addr)
| SGone.
Definition slot_items (s : slot) : list item :=
  match s with
  | SNode c => node_items c
  | SValue h w => field_items BytesK h w
  | SArc a => [(NodesK, Ptr a)]
  | SGone => []
  end.

(** Mutations through [&mut TreeNode]. *)
Inductive op : Type :=
| OPrefix (d : bytes)
| OValue (v : option bytes)
| OValueOwned (r : nat)     (* from the value in variable [r] *)
| OPrefixBorrowed (h : byte) (d : bytes)
| OValueBorrowed (h : byte) (d : bytes)
| OChildrenBorrowed (h : byte) (d : bytes)
| OChildrenId (id : bytes)
| OChildrenArc (r : nat)    (* moves the vector in variable [r] *)
| OTakeValue                (* the value goes to a new variable *)
| OSplit (p : bytes) (k : nat)
| OCanonicalize
| OPush (r : nat)           (* moves the node in variable [r] to the end of the children *)
| ORemove (i : nat)         (* moves the child [i] to a new variable *).

Inductive instr : Type :=
| INode                               (* [TreeNode::EMPTY] *)
| INewArc (rs : list nat)             (* [Arc::new] of a vector of nodes, which are moved *)
| IClone (r : nat) (path : list nat)  (* [clone] of a node *)
| IGetValue (r : nat) (path : list nat) (* [to_owned] of a value *)
| IShare (r : nat) (path : list nat)  (* [clone] of the [Arc] of the children *)
| IMut (r : nat) (path : list nat) (o : op)
| IDrop (r : nat).

(** The variables of a program; no code in the repository. *)
Definition env := list slot.
Definition var (r : nat) (e : env) : slot := nth r e SGone.

(** The node at a path, for reading. *)
Fixpoint h_at (c : cnode) (path : list nat) : M cnode :=
  match path with
  | [] => ret c
  | i :: path =>
      k <! h_children c ;;
      match k with
      | RId _ => panic
      | RArc a => cs <! vec_get a ;; match nth_error cs i with Some c' => h_at c' path | None => panic end
      end
  end.
Definition h_place (s : slot) (path : list nat) : M cnode :=
  match s, path with
  | SNode c, _ => h_at c path
  | SArc a, i :: path =>
      cs <! vec_get a ;; match nth_error cs i with Some c => h_at c path | None => panic end
  | _, _ => panic
  end.

(** Mutation at a path: every vector on the way is made unique. *)
Fixpoint h_mut (f : cnode -> M (cnode * list slot)) (path : list nat) (c : cnode)
  : M (cnode * list slot) :=
  match path with
  | [] => f c
  | i :: path =>
      m <! h_make_mut c ;;
      cs <! vec_take (snd m) ;;
      match nth_error cs i with
      | None => panic
      | Some x =>
          y <! h_mut f path x ;;
          _ <! vec_put (snd m) (upd i (fst y) cs) ;;
          ret (fst m, snd y)
      end
  end.

(** The slots that an operation moves away. *)
Definition moved (o : op) : list nat :=
  match o with OChildrenArc r => [r] | OPush r => [r] | _ => [] end.

Definition h_op (dbg : bool) (e : env) (o : op) (c : cnode) : M (cnode * list slot) :=
  match o with
  | OPrefix d => c' <! h_set_prefix d c ;; ret (c', [])
  | OValue v => c' <! h_set_value v c ;; ret (c', [])
  | OValueOwned r =>
      match var r e with
      | SValue h w => c' <! h_set_value_owned h w c ;; ret (c', [])
      | _ => panic
      end
  | OPrefixBorrowed h d => c' <! h_set_prefix_borrowed h d c ;; ret (c', [])
  | OValueBorrowed h d => c' <! h_set_value_borrowed h d c ;; ret (c', [])
  | OChildrenBorrowed h d => c' <! h_set_children_borrowed h d c ;; ret (c', [])
  | OChildrenId id => c' <! h_set_children_id id c ;; ret (c', [])
  | OChildrenArc r =>
      match var r e with
      | SArc a => c' <! h_set_children_arc a c ;; ret (c', [])
      | _ => panic
      end
  | OTakeValue => let (c', v) := h_take_value c in ret (c', [SValue (fst v) (snd v)])
  | OSplit p k => c' <! h_split p k c ;; ret (c', [])
  | OCanonicalize => c' <! h_canonicalize dbg c ;; ret (c', [])
  | OPush r =>
      match var r e with
      | SNode x =>
          m <! h_make_mut c ;;
          cs <! vec_take (snd m) ;;
          _ <! vec_put (snd m) (cs ++ [x]) ;;
          ret (fst m, [])
      | _ => panic
      end
  | ORemove i =>
      m <! h_make_mut c ;;
      cs <! vec_take (snd m) ;;
      match nth_error cs i with
      | None => panic
      | Some x => _ <! vec_put (snd m) (firstn i cs ++ skipn (S i) cs) ;; ret (fst m, [SNode x])
      end
  end.

(** Moving values out of variables: a variable is gone afterwards (Rust's moves). *)
Fixpoint clear (rs : list nat) (e : env) : env :=
  match rs with [] => e | r :: rs => clear rs (upd r SGone e) end.
Fixpoint h_nodes (rs : list nat) (e : env) : option (list cnode) :=
  match rs with
  | [] => Some []
  | r :: rs =>
      match var r e, h_nodes rs (upd r SGone e) with
      | SNode c, Some cs => Some (c :: cs)
      | _, _ => None
      end
  end.

(** One instruction of a program, in terms of the node operations above. *)
Definition h_step (dbg : bool) (i : instr) (e : env) : M env :=
  match i with
  | INode => ret (e ++ [SNode c_empty])
  | INewArc rs =>
      match h_nodes rs e with
      | Some cs => a <! arc_new (CNodes cs) ;; ret (clear rs e ++ [SArc a])
      | None => panic
      end
  | IClone r path =>
      c <! h_place (var r e) path ;; c' <! h_clone c ;; ret (e ++ [SNode c'])
  | IGetValue r path =>
      c <! h_place (var r e) path ;;
      w <! word_clone (c_vh c) (c_v c) ;; ret (e ++ [SValue (c_vh c) w])
  | IShare r path =>
      c <! h_place (var r e) path ;;
      k <! h_children c ;;
      match k with
      | RArc a => _ <! arc_clone (Ptr a) ;; ret (e ++ [SArc a])
      | RId _ => panic
      end
  | IMut r path o =>
      let e1 := clear (moved o) e in
      match var r e1 with
      | SNode c =>
          let e2 := upd r SGone e1 in
          y <! h_mut (h_op dbg (match o with OValueOwned _ => e2 | _ => e end) o) path c ;;
          ret (upd r (SNode (fst y)) e2 ++ snd y)
      | _ => panic
      end
  | IDrop r => _ <! drop (slot_items (var r e)) ;; ret (upd r SGone e)
  end.

(** A program; no code in the repository. *)
Fixpoint h_run (dbg : bool) (p : list instr) (e : env) : M env :=
  match p with
  | [] => ret e
  | i :: p => e' <! h_step dbg i e ;; h_run dbg p e'
  end.
