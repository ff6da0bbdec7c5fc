(** The operations on trees, on reference counted memory.

    Combine.v has them on nodes as values.  Here they run on the heap of Heap.v.  In
    place, the first tree is changed through [Arc::make_mut], so that vectors it shares
    with other trees are copied and others are changed in place; the second tree is only
    borrowed and may share memory with the first.  The others borrow both trees, which may
    be the same one, and make a new one.

    Both trees are in memory; a node with an id is a panic here.  Not modelled: what
    Heap.v does not model; closures that panic are in HeapFail.v. *)
From Verif Require Import Base Header Node Combine Store Heap HeapIter.

(** [OwnedTreeNodeIter::new], src/node/mod.rs:1774-1777: an iterator that borrows a
    slice.  [bi_vec]: the vector on the heap that the slice belongs to and the elements
    it had when it was borrowed; [None] is a local array.  [bi_rest]: what is left. *)
Record biter : Type := BIter { bi_vec : option (addr * list cnode); bi_rest : list cnode }.
(** Whoever frees the vector or writes to it while it is borrowed breaks the promise
    of the shared reference. *)
Definition bi_check (it : biter) : M unit :=
  match bi_vec it with
  | None => ret tt
  | Some (a, cs) =>
      cs' <! vec_get a ;;
      if list_eq_dec cnode_eq_dec cs' cs then ret tt else undefined
  end.
(** [next], lines 1827-1829. *)
Definition bi_next (it : biter) : M (option (cnode * biter)) :=
  match bi_rest it with
  | [] => ret None
  | c :: r => _ <! bi_check it ;; ret (Some (c, BIter (bi_vec it) r))
  end.
(** [first_prefix_byte], lines 979-981. *)
Definition h_first (c : cnode) : M (option byte) :=
  p <! blob_read (c_ph c) (c_p c) ;; ret (hd_error p).
(** [first_prefix_byte_opt], lines 1823-1825. *)
Definition bi_first (it : biter) : M (option (option byte)) :=
  match bi_rest it with
  | [] => ret None
  | c :: _ => _ <! bi_check it ;; p <! h_first c ;; ret (Some p)
  end.
(** [is_empty], lines 983-985 and 1100-1102. *)
Definition h_is_empty (c : cnode) : bool := negb (h_has_value c) && hdr_is_none (c_ch c).
(** [value_opt], lines 1074-1080. *)
Definition h_value_opt (c : cnode) : option (byte * word) :=
  if h_has_value c then Some (c_vh c, c_v c) else None.
(** [Value] going out of scope, lines 643-647. *)
Definition drop_value (v : byte * word) : M unit := drop (field_items BytesK (fst v) (snd v)).

(** [load_children] of a borrowed node, lines 839-844, 1937-1943. *)
Definition h_slice (c : cnode) : M (option biter) :=
  k <! h_children c ;;
  match k with
  | RArc a =>
      cs <! vec_get a ;;
      ret (match cs with [] => None | _ => Some (BIter (Some (a, cs)) cs) end)
  | RId [] => ret None
  | RId _ => panic
  end.
(** [load_children_mut], lines 853-865. *)
Definition h_load_children_mut (c : cnode) : M (cnode * addr) :=
  k <! h_children c ;;
  c1 <! (match k with
         | RArc _ => ret c
         | RId [] => a <! arc_new (CNodes []) ;; h_set_children_arc a c
         | RId _ => panic
         end) ;;
  h_make_mut c1.
(** Code that has [&mut Vec<TreeNode>] of the children of [c]; see [vec_take]. *)
Definition h_with_children (c : cnode) (k : list cnode -> M (list cnode)) : M cnode :=
  m <! h_load_children_mut c ;;
  cs <! vec_take (snd m) ;;
  cs' <! k cs ;;
  _ <! vec_put (snd m) cs' ;;
  ret (fst m).
(** [clone_shortened], lines 867-872. *)
Definition h_clone_shortened (c : cnode) (n : nat) : M cnode :=
  p <! h_load_prefix c ;;
  c' <! h_clone c ;;
  if n <=? length p then h_set_prefix (skipn n p) c' else panic.

(** [load_value], lines 928-938. *)
Definition h_load_value (c : cnode) : M (option bytes) :=
  if hdr_is_id (c_vh c) then if hdr_is_none (c_vh c) then ret None else panic
  else d <! blob_read (c_vh c) (c_v c) ;; ret (Some d).
(** The loop of [detached], lines 724-727. *)
Fixpoint h_detach_loop (rec : cnode -> M cnode) (fuel : nat) (it : biter) : M (list cnode) :=
  match fuel with
  | 0 => fun _ => Exhausted
  | S fuel =>
      o <! bi_next it ;;
      match o with
      | None => ret []
      | Some (c, it') => x <! rec c ;; xs <! h_detach_loop rec fuel it' ;; ret (x :: xs)
      end
  end.
(** [detached], lines 719-731 and 1367-1372: a copy in new memory. *)
Fixpoint h_detached (fuel : nat) (c : cnode) : M cnode :=
  match fuel with
  | 0 => fun _ => Exhausted
  | S fuel =>
      p <! h_load_prefix c ;;
      c1 <! h_set_prefix p c_empty ;;
      v <! h_load_value c ;;
      c2 <! h_set_value v c1 ;;
      it <! h_slice c ;;
      match it with
      | None => ret c2
      | Some it =>
          cs <! h_detach_loop (h_detached fuel) fuel it ;;
          a <! arc_new (CNodes cs) ;;
          h_set_children_arc a c2
      end
  end.

(** [NodeConverter], lines 1576-1591.  Both converters for in-memory trees clone a
    value (1618-1620, 1656-1658, 481-490). *)
Record hconv : Type := HConv {
  hc_node : nat -> cnode -> M cnode;
  hc_short : nat -> cnode -> nat -> M cnode }.
Definition h_convert_value (v : byte * word) : M (byte * word) :=
  w <! word_clone (fst v) (snd v) ;; ret (fst v, w).
(** [x.downcast()] of a temporary node, lines 685-689: a clone; then the temporary is
    dropped. *)
Definition h_recast (c : cnode) : M cnode :=
  c' <! h_clone c ;; _ <! drop (node_items c) ;; ret c'.
(** [DowncastConverter], lines 1600-1621. *)
Definition h_downcast : hconv :=
  HConv (fun _ c => h_clone c) (fun _ c n => c' <! h_clone_shortened c n ;; h_recast c').
(** [DetachConverter], lines 1652-1668. *)
Definition h_detach : hconv :=
  HConv (fun fuel c => d <! h_detached fuel c ;; h_recast d)
    (fun fuel c n =>
       c' <! h_clone_shortened c n ;;
       d <! h_detached fuel c' ;;
       d' <! h_recast d ;;
       d'' <! h_recast d' ;;
       _ <! drop (node_items c') ;;
       ret d'').

(** [cmp], lines 1743-1755. *)
Definition h_cmp (ac : list cnode) (bc : biter) : M (option comparison) :=
  match ac with
  | x :: _ =>
      a <! h_first x ;;
      b <! bi_first bc ;;
      ret (match b with Some b => Some (cmp_ob a b) | None => Some Lt end)
  | [] =>
      b <! bi_first bc ;;
      ret (match b with Some _ => Some Gt | None => None end)
  end.

(** The loops over two lists of children: [outer_combine_children_with], lines
    2196-2219; [inner_combine_children_with], 2466-2487, and
    [retain_prefix_children_with], 2838-2859; [left_combine_children_with], 2741-2762,
    and [remove_prefix_children_with], 2940-2961.  They differ in what becomes of a
    child that only the first tree has ([keep]: [consume(1, true)], otherwise it is
    dropped) and of one that only the second has ([ins]: pushed after conversion).  The
    result is the target part of the [InPlaceVecBuilder]. *)
Fixpoint h_merge (keep : bool) (ins : option hconv) (rec : cnode -> cnode -> M cnode) (fuel : nat)
    (ac : list cnode) (bc : biter) : M (list cnode) :=
  match fuel with
  | 0 => fun _ => Exhausted
  | S fuel =>
      o <! h_cmp ac bc ;;
      match o, ac with
      | None, _ => ret []
      | Some Lt, x :: ac' =>
          if keep then rs <! h_merge keep ins rec fuel ac' bc ;; ret (x :: rs)
          else _ <! drop (node_items x) ;; h_merge keep ins rec fuel ac' bc
      | Some Lt, [] => panic
      | Some Eq, x :: ac' =>
          b <! bi_next bc ;;
          match b with
          | None => panic
          | Some (y, bc') =>
              r <! rec x y ;;
              if h_is_empty r then _ <! drop (node_items r) ;; h_merge keep ins rec fuel ac' bc'
              else rs <! h_merge keep ins rec fuel ac' bc' ;; ret (r :: rs)
          end
      | Some Eq, [] => panic
      | Some Gt, _ =>
          b <! bi_next bc ;;
          match b with
          | None => panic
          | Some (y, bc') =>
              match ins with
              | Some c =>
                  x <! hc_node c fuel y ;;
                  rs <! h_merge keep ins rec fuel ac bc' ;;
                  ret (x :: rs)
              | None => h_merge keep ins rec fuel ac bc'
              end
          end
      end
  end.
(** The [ac.is_empty()] loop of [outer_combine_children_with], lines 2190-2195. *)
Fixpoint h_convert_loop (c : hconv) (fuel : nat) (bc : biter) : M (list cnode) :=
  match fuel with
  | 0 => fun _ => Exhausted
  | S fuel =>
      o <! bi_next bc ;;
      match o with
      | None => ret []
      | Some (y, bc') => x <! hc_node c fuel y ;; xs <! h_convert_loop c fuel bc' ;; ret (x :: xs)
      end
  end.

(** [outer_combine_children_with], lines 2174-2222. *)
Definition h_outer_children (c : hconv) (rec : cnode -> cnode -> M cnode) (fuel : nat)
    (ac : list cnode) (bc : option biter) : M (list cnode) :=
  match bc with
  | None => ret ac
  | Some bc => match ac with [] => h_convert_loop c fuel bc | _ => h_merge true (Some c) rec fuel ac bc end
  end.
(** [inner_combine_children_with], lines 2447-2492, and [retain_prefix_children_with],
    2821-2864. *)
Definition h_inner_children (rec : cnode -> cnode -> M cnode) (fuel : nat)
    (ac : list cnode) (bc : option biter) : M (list cnode) :=
  match bc with
  | None => _ <! drop (flat_map node_items ac) ;; ret []
  | Some bc => match ac with [] => ret [] | _ => h_merge false None rec fuel ac bc end
  end.
(** [left_combine_children_with], lines 2722-2765, and [remove_prefix_children_with],
    2923-2964. *)
Definition h_left_children (rec : cnode -> cnode -> M cnode) (fuel : nat)
    (ac : list cnode) (bc : option biter) : M (list cnode) :=
  match bc with
  | None => ret ac
  | Some bc => match ac with [] => ret [] | _ => h_merge true None rec fuel ac bc end
  end.

(** What the operations do with the children of [a] when the prefix of [b] is used up:
    [let bc = b.load_children(&bb)?], then the children function [k]. *)
Definition h_kids (k : list cnode -> option biter -> M (list cnode)) (b : cnode) (ac : list cnode) : M (list cnode) :=
  bc <! h_slice b ;; k ac bc.
(** And when that of [a] is used up: [let bc = [b.clone_shortened(&bb, n)?]], the children
    function with [TreeNodeIter::from_slice(&bc)], and [bc] going out of scope. *)
Definition h_kids_short (k : list cnode -> option biter -> M (list cnode)) (b : cnode) (n : nat) (ac : list cnode)
  : M (list cnode) :=
  b' <! h_clone_shortened b n ;;
  ac' <! k ac (Some (BIter None [b'])) ;;
  _ <! drop (node_items b') ;;
  ret ac'.
(** The disjoint case of [outer_combine_with]: [ac.push(..)] and [sort_by_key], lines
    2164-2168; [ac] has one element, see [sort2]. *)
Definition h_push_sorted (ac : list cnode) (y : cnode) : M (list cnode) :=
  match ac with
  | [x] =>
      a <! h_first x ;; b <! h_first y ;;
      ret (match cmp_ob a b with Gt => [y; x] | _ => [x; y] end)
  | _ => ret (ac ++ [y])
  end.
(** [set_children_arc_opt(None)] after [set_value_slice(None)]. *)
Definition h_clear (c : cnode) : M cnode :=
  c1 <! h_set_value None c ;; h_set_children_id [] c1.

Section Ops.
Context (dbg : bool).

Section Combines.
(** [f] is the closure: it takes the first value by [&mut] and gives back what it is
    afterwards. *)
Context (c : hconv) (f : byte * word -> byte * word -> M (byte * word)).

(** [if let Some(mut av) = a.take_value_opt() { f(&mut av, &bv)?; a.set_value_owned(..) }] *)
Definition h_combine_value (a : cnode) (bv : byte * word) : M cnode :=
  let (a1, av) := h_take_value a in
  av' <! f av bv ;;
  a2 <! h_set_value_owned (fst av') (snd av') a1 ;;
  _ <! drop_value av' ;;
  ret a2.

(** [outer_combine_with], lines 2121-2172. *)
Fixpoint h_outer_with (fuel : nat) (a b : cnode) : M cnode :=
  match fuel with
  | 0 => fun _ => Exhausted
  | S fuel =>
      ap <! h_load_prefix a ;;
      bp <! h_load_prefix b ;;
      let n := common_prefix ap bp in
      if n =? length bp then
        a1 <! (if negb (n =? length ap) then h_split ap n a else ret a) ;;
        a2 <! (match h_value_opt b with
               | Some bv =>
                   if h_has_value a1 then h_combine_value a1 bv
                   else
                     av <! h_convert_value bv ;;
                     a2 <! h_set_value_owned (fst av) (snd av) a1 ;;
                     _ <! drop_value av ;;
                     ret a2
               | None => ret a1
               end) ;;
        a3 <! h_with_children a2 (h_kids (h_outer_children c (h_outer_with fuel) fuel) b) ;;
        h_canonicalize dbg a3
      else if n =? length ap then
        a3 <! h_with_children a (h_kids_short (h_outer_children c (h_outer_with fuel) fuel) b n) ;;
        h_canonicalize dbg a3
      else
        a1 <! h_split ap n a ;;
        a3 <! h_with_children a1 (fun ac => y <! hc_short c fuel b n ;; h_push_sorted ac y) ;;
        h_canonicalize dbg a3
  end.

(** [inner_combine_with], lines 2398-2445.  [(a.take_value_opt(), b.value_opt())]: the
    value of [a] is taken in any case and dropped when [b] has none. *)
Fixpoint h_inner_with (fuel : nat) (a b : cnode) : M cnode :=
  match fuel with
  | 0 => fun _ => Exhausted
  | S fuel =>
      ap <! h_load_prefix a ;;
      bp <! h_load_prefix b ;;
      let n := common_prefix ap bp in
      if (n =? length ap) && (n =? length bp) then
        a2 <! (if h_has_value a then
                 match h_value_opt b with
                 | Some bv => h_combine_value a bv
                 | None => let (a1, av) := h_take_value a in _ <! drop_value av ;; ret a1
                 end
               else ret a) ;;
        a3 <! h_with_children a2 (h_kids (h_inner_children (h_inner_with fuel) fuel) b) ;;
        h_canonicalize dbg a3
      else if n =? length ap then
        a1 <! h_set_value None a ;;
        a3 <! h_with_children a1 (h_kids_short (h_inner_children (h_inner_with fuel) fuel) b n) ;;
        h_canonicalize dbg a3
      else if n =? length bp then
        a1 <! h_split ap n a ;;
        a3 <! h_with_children a1 (h_kids (h_inner_children (h_inner_with fuel) fuel) b) ;;
        h_canonicalize dbg a3
      else
        a1 <! h_clear a ;;
        h_canonicalize dbg a1
  end.

(** [left_combine_with], lines 2675-2720. *)
Fixpoint h_left_with (fuel : nat) (a b : cnode) : M cnode :=
  match fuel with
  | 0 => fun _ => Exhausted
  | S fuel =>
      ap <! h_load_prefix a ;;
      bp <! h_load_prefix b ;;
      let n := common_prefix ap bp in
      if (n =? length ap) && (n =? length bp) then
        a2 <! (match h_value_opt b with
               | Some bv => if h_has_value a then h_combine_value a bv else ret a
               | None => ret a
               end) ;;
        a3 <! h_with_children a2 (h_kids (h_left_children (h_left_with fuel) fuel) b) ;;
        h_canonicalize dbg a3
      else if n =? length ap then
        a3 <! h_with_children a (h_kids_short (h_left_children (h_left_with fuel) fuel) b n) ;;
        h_canonicalize dbg a3
      else if n =? length bp then
        a1 <! h_split ap n a ;;
        a3 <! h_with_children a1 (h_kids (h_left_children (h_left_with fuel) fuel) b) ;;
        h_canonicalize dbg a3
      else h_canonicalize dbg a
  end.
End Combines.

Section Prefixes.
(** [f] looks at a value of the second tree. *)
Context (f : byte * word -> M bool).
Definition h_selected (b : cnode) : M bool :=
  match h_value_opt b with Some v => f v | None => ret false end.

(** [retain_prefix_with], lines 2771-2819. *)
Fixpoint h_retain_prefix_with (fuel : nat) (a b : cnode) : M cnode :=
  match fuel with
  | 0 => fun _ => Exhausted
  | S fuel =>
      ap <! h_load_prefix a ;;
      bp <! h_load_prefix b ;;
      let n := common_prefix ap bp in
      if (n =? length ap) && (n =? length bp) then
        s <! h_selected b ;;
        if s then h_canonicalize dbg a
        else
          a1 <! h_set_value None a ;;
          a3 <! h_with_children a1 (h_kids (h_inner_children (h_retain_prefix_with fuel) fuel) b) ;;
          h_canonicalize dbg a3
      else if n =? length bp then
        match h_value_opt b with
        | None =>
            a1 <! h_split ap n a ;;
            a3 <! h_with_children a1 (h_kids (h_inner_children (h_retain_prefix_with fuel) fuel) b) ;;
            h_canonicalize dbg a3
        | Some bv =>
            s <! f bv ;;
            if s then h_canonicalize dbg a
            else a1 <! h_clear a ;; h_canonicalize dbg a1
        end
      else if n =? length ap then
        a1 <! h_set_value None a ;;
        a3 <! h_with_children a1 (h_kids_short (h_inner_children (h_retain_prefix_with fuel) fuel) b n) ;;
        h_canonicalize dbg a3
      else
        a1 <! h_clear a ;;
        h_canonicalize dbg a1
  end.

(** [remove_prefix_with], lines 2870-2921. *)
Fixpoint h_remove_prefix_with (fuel : nat) (a b : cnode) : M cnode :=
  match fuel with
  | 0 => fun _ => Exhausted
  | S fuel =>
      ap <! h_load_prefix a ;;
      bp <! h_load_prefix b ;;
      let n := common_prefix ap bp in
      if (n =? length ap) && (n =? length bp) then
        s <! h_selected b ;;
        if s then a1 <! h_clear a ;; h_canonicalize dbg a1
        else
          a3 <! h_with_children a (h_kids (h_left_children (h_remove_prefix_with fuel) fuel) b) ;;
          h_canonicalize dbg a3
      else if n =? length bp then
        s <! h_selected b ;;
        if s then a1 <! h_clear a ;; h_canonicalize dbg a1
        else
          a1 <! h_split ap n a ;;
          a3 <! h_with_children a1 (h_kids (h_left_children (h_remove_prefix_with fuel) fuel) b) ;;
          h_canonicalize dbg a3
      else if n =? length ap then
        a3 <! h_with_children a (h_kids_short (h_left_children (h_remove_prefix_with fuel) fuel) b n) ;;
        h_canonicalize dbg a3
      else h_canonicalize dbg a
  end.
End Prefixes.
End Ops.

(* ------------------------------------------------------------------ *)
(** ** Combining into a new tree *)

(** [OuterJoin::next0], lines 1690-1734: both iterators borrow. *)
Definition h_oj_next (a b : biter) : M (option (option cnode * option cnode * biter * biter)) :=
  ka <! bi_first a ;;
  kb <! bi_first b ;;
  match ka, kb with
  | Some x, Some y =>
      match cmp_ob x y with
      | Lt =>
          o <! bi_next a ;;
          match o with Some (c, a') => ret (Some (Some c, None, a', b)) | None => panic end
      | Gt =>
          o <! bi_next b ;;
          match o with Some (c, b') => ret (Some (None, Some c, a, b')) | None => panic end
      | Eq =>
          o <! bi_next a ;;
          o' <! bi_next b ;;
          ret (Some (option_map fst o, option_map fst o',
                     match o with Some (_, a') => a' | None => a end,
                     match o' with Some (_, b') => b' | None => b end))
      end
  | _, _ =>
      o <! bi_next a ;;
      match o with
      | Some (c, a') => ret (Some (Some c, None, a', b))
      | None =>
          o' <! bi_next b ;;
          match o' with
          | Some (c, b') => ret (Some (None, Some c, a, b'))
          | None => ret None
          end
      end
  end.
(** [if !r.is_empty() { res.push(r) }]; an empty [r] is dropped at the end of the round.
    [chk]: whether it is asked. *)
Definition h_keep (chk : bool) (r : cnode) (rest : M (list cnode)) : M (list cnode) :=
  if chk && h_is_empty r then _ <! drop (node_items r) ;; rest
  else rs <! rest ;; ret (r :: rs).
(** The loops of [outer_combine_children], lines 2095-2107, [inner_combine_children],
    2301-2310, and [left_combine_children], 2567-2582.  [ka]: whether a child that only the
    first tree has is copied, and whether the copy is asked if it is empty; [kb]: the same
    for the second.  The results are consed to those of the rest, see Combine.v. *)
Fixpoint h_join (ka kb : option bool) (rec : cnode -> cnode -> M cnode) (fuel : nat) (a b : biter) : M (list cnode) :=
  match fuel with
  | 0 => fun _ => Exhausted
  | S fuel =>
      o <! h_oj_next a b ;;
      match o with
      | None => ret []
      | Some (xa, xb, a', b') =>
          match xa, xb with
          | Some x, Some y => r <! rec x y ;; h_keep true r (h_join ka kb rec fuel a' b')
          | Some x, None =>
              match ka with
              | Some chk => r <! h_detached fuel x ;; h_keep chk r (h_join ka kb rec fuel a' b')
              | None => h_join ka kb rec fuel a' b'
              end
          | None, Some y =>
              match kb with
              | Some chk => r <! h_detached fuel y ;; h_keep chk r (h_join ka kb rec fuel a' b')
              | None => h_join ka kb rec fuel a' b'
              end
          | None, None => match kb with Some _ => panic | None => h_join ka kb rec fuel a' b' end
          end
      end
  end.
(** [if res.is_empty() { None } else { Some(Arc::new(res)) }] *)
Definition h_vec (cs : list cnode) : M (option addr) :=
  match cs with [] => ret None | _ => a <! arc_new (CNodes cs) ;; ret (Some a) end.
(** [TreeNodeIter::detached], lines 1952-1957 and 1793-1805, of an iterator that borrows. *)
Definition h_it_detached (fuel : nat) (it : biter) : M (option addr) :=
  match bi_rest it with
  | [] => ret None
  | _ => cs <! h_detach_loop (h_detached fuel) fuel it ;; a <! arc_new (CNodes cs) ;; ret (Some a)
  end.
(** [outer_combine_children], lines 2080-2118. *)
Definition h_outer_join (rec : cnode -> cnode -> M cnode) (fuel : nat) (ac bc : option biter) : M (option addr) :=
  match ac, bc with
  | Some ac, Some bc => rs <! h_join (Some true) (Some true) rec fuel ac bc ;; h_vec rs
  | None, Some bc => h_it_detached fuel bc
  | Some ac, None => h_it_detached fuel ac
  | None, None => ret None
  end.
(** [inner_combine_children], lines 2286-2319. *)
Definition h_inner_join (rec : cnode -> cnode -> M cnode) (fuel : nat) (ac bc : option biter) : M (option addr) :=
  match ac, bc with
  | Some ac, Some bc => rs <! h_join None None rec fuel ac bc ;; h_vec rs
  | _, _ => ret None
  end.
(** [left_combine_children], lines 2552-2592. *)
Definition h_left_join (rec : cnode -> cnode -> M cnode) (fuel : nat) (ac bc : option biter) : M (option addr) :=
  match ac, bc with
  | Some ac, Some bc => rs <! h_join (Some false) None rec fuel ac bc ;; h_vec rs
  | Some ac, None => h_it_detached fuel ac
  | _, _ => ret None
  end.

Section NewTree.
(** [f] is the closure: it borrows both values and gives a new one. *)
Context (dbg : bool) (f : byte * word -> byte * word -> M (option (byte * word))).

(** [a.value_opt().map(|x| x.detached(&ab)).transpose()?]; [ValueRef::detached], lines
    481-490, is a clone. *)
Definition h_opt_detached (v : option (byte * word)) : M (option (byte * word)) :=
  match v with
  | Some v => if hdr_is_id (fst v) then panic else v' <! h_convert_value v ;; ret (Some v')
  | None => ret None
  end.
(** The end of all three, e.g. lines 2072-2077.  [set_value], lines 1024-1030, copies the
    bytes of the value, which then goes out of scope. *)
Definition h_finish (p : bytes) (value : option (byte * word)) (children : option addr) : M cnode :=
  c1 <! h_set_prefix p c_empty ;;
  c2 <! (match value with
         | Some v =>
             d <! blob_read (fst v) (snd v) ;;
             c2 <! h_set_value (Some d) c1 ;;
             _ <! drop_value v ;;
             ret c2
         | None => h_set_value None c1
         end) ;;
  c3 <! (match children with
         | Some a => h_set_children_arc a c2
         | None => h_set_children_id [] c2
         end) ;;
  h_canonicalize dbg c3.
(** The children of both nodes; [k] is the function on children. *)
Definition h_both (k : option biter -> option biter -> M (option addr)) (a b : cnode) : M (option addr) :=
  ac <! h_slice a ;; bc <! h_slice b ;; k ac bc.
(** [let bc = [b.clone_shortened(&bb, n)?]] and the children of [a]; [bc] goes out of scope
    at the end of the branch. *)
Definition h_second_short (k : option biter -> option biter -> M (option addr)) (a b : cnode) (n : nat) : M (option addr) :=
  ac <! h_slice a ;;
  b' <! h_clone_shortened b n ;;
  r <! k ac (Some (BIter None [b'])) ;;
  _ <! drop (node_items b') ;;
  ret r.
(** [let ac = [a.clone_shortened(&ab, n)?]] and the children of [b]. *)
Definition h_first_short (k : option biter -> option biter -> M (option addr)) (a b : cnode) (n : nat) : M (option addr) :=
  a' <! h_clone_shortened a n ;;
  bc <! h_slice b ;;
  r <! k (Some (BIter None [a'])) bc ;;
  _ <! drop (node_items a') ;;
  ret r.

(** [outer_combine], lines 2012-2078. *)
Fixpoint h_outer (fuel : nat) (a b : cnode) : M cnode :=
  match fuel with
  | 0 => fun _ => Exhausted
  | S fuel =>
      ap <! h_load_prefix a ;;
      bp <! h_load_prefix b ;;
      let n := common_prefix ap bp in
      let p := firstn n ap in
      if (n =? length ap) && (n =? length bp) then
        value <! (match h_value_opt b with
                  | Some bv =>
                      match h_value_opt a with
                      | Some av => f av bv
                      | None => h_opt_detached (Some bv)
                      end
                  | None => h_opt_detached (h_value_opt a)
                  end) ;;
        children <! h_both (h_outer_join (h_outer fuel) fuel) a b ;;
        h_finish p value children
      else if n =? length ap then
        value <! h_opt_detached (h_value_opt a) ;;
        children <! h_second_short (h_outer_join (h_outer fuel) fuel) a b n ;;
        h_finish p value children
      else if n =? length bp then
        value <! h_opt_detached (h_value_opt b) ;;
        children <! h_first_short (h_outer_join (h_outer fuel) fuel) a b n ;;
        h_finish p value children
      else
        a' <! hc_short h_detach fuel a n ;;
        b' <! hc_short h_detach fuel b n ;;
        children <! h_vec (match cmp_ob (nth_error ap n) (nth_error bp n) with Gt => [b'; a'] | _ => [a'; b'] end) ;;
        h_finish p None children
  end.

(** [inner_combine], lines 2225-2284. *)
Fixpoint h_inner (fuel : nat) (a b : cnode) : M cnode :=
  match fuel with
  | 0 => fun _ => Exhausted
  | S fuel =>
      ap <! h_load_prefix a ;;
      bp <! h_load_prefix b ;;
      let n := common_prefix ap bp in
      let p := firstn n ap in
      if (n =? length ap) && (n =? length bp) then
        value <! (match h_value_opt b with
                  | Some bv => match h_value_opt a with Some av => f av bv | None => ret None end
                  | None => ret None
                  end) ;;
        children <! h_both (h_inner_join (h_inner fuel) fuel) a b ;;
        h_finish p value children
      else if n =? length ap then
        children <! h_second_short (h_inner_join (h_inner fuel) fuel) a b n ;;
        h_finish p None children
      else if n =? length bp then
        children <! h_first_short (h_inner_join (h_inner fuel) fuel) a b n ;;
        h_finish p None children
      else h_finish p None None
  end.

(** [left_combine], lines 2495-2550. *)
Fixpoint h_left (fuel : nat) (a b : cnode) : M cnode :=
  match fuel with
  | 0 => fun _ => Exhausted
  | S fuel =>
      ap <! h_load_prefix a ;;
      bp <! h_load_prefix b ;;
      let n := common_prefix ap bp in
      let p := firstn n ap in
      if (n =? length ap) && (n =? length bp) then
        value <! (match h_value_opt a with
                  | Some av =>
                      match h_value_opt b with
                      | Some bv => f av bv
                      | None => h_opt_detached (Some av)
                      end
                  | None => ret None
                  end) ;;
        children <! h_both (h_left_join (h_left fuel) fuel) a b ;;
        h_finish p value children
      else if n =? length ap then
        value <! h_opt_detached (h_value_opt a) ;;
        children <! h_second_short (h_left_join (h_left fuel) fuel) a b n ;;
        h_finish p value children
      else if n =? length bp then
        children <! h_first_short (h_left_join (h_left fuel) fuel) a b n ;;
        h_finish p None children
      else h_detached fuel a
  end.
End NewTree.

(* ------------------------------------------------------------------ *)
(** ** The API *)

(** [Value::set], lines 616-632, on a value of an in-memory tree. *)
Definition h_value_set (av : byte * word) (v : option (byte * word)) : M (byte * word) :=
  _ <! drop_value av ;;
  match v with
  | Some (h, w) => w' <! word_clone h w ;; ret (h, w')
  | None => ret (hdr_none, w_empty)
  end.
(** The closure of [try_insert], lines 3526-3529. *)
Definition h_replace (av bv : byte * word) : M (byte * word) := h_value_set av (Some bv).
(** The closure of [try_remove], lines 3535-3538. *)
Definition h_erase (av bv : byte * word) : M (byte * word) := h_value_set av None.
(** A closure of a user: reads both values, computes the new one, makes a [Value] of it and
    assigns that or calls [set(None)]. *)
Definition h_user (g : bytes -> bytes -> option bytes) (av bv : byte * word) : M (byte * word) :=
  x <! blob_read (fst av) (snd av) ;;
  y <! blob_read (fst bv) (snd bv) ;;
  match g x y with
  | Some d => w <! blob_word d ;; _ <! drop_value av ;; ret (hdr_data (length d), w)
  | None => h_value_set av None
  end.
(** And of one that makes a new value. *)
Definition h_user_new (g : bytes -> bytes -> option bytes) (av bv : byte * word) : M (option (byte * word)) :=
  x <! blob_read (fst av) (snd av) ;;
  y <! blob_read (fst bv) (snd bv) ;;
  match g x y with
  | Some d => w <! blob_word d ;; ret (Some (hdr_data (length d), w))
  | None => ret None
  end.
Definition h_pred (s : bytes -> bool) (bv : byte * word) : M bool :=
  y <! blob_read (fst bv) (snd bv) ;; ret (s y).

(** [TreeNode::single], lines 958-963; [leaf], 965-969. *)
Definition h_single (k v : bytes) : M cnode :=
  c <! h_set_prefix k c_empty ;; h_set_value (Some v) c.
Definition h_leaf (v : bytes) : M cnode := h_set_value (Some v) c_empty.
(** [RadixTree::single(..)] as argument, dropped at the end of the statement. *)
Definition h_with_single (k v : bytes) (m : cnode -> M cnode) : M cnode :=
  s <! h_single k v ;; r <! m s ;; _ <! drop (node_items s) ;; ret r.
(** [try_insert], lines 3518-3531. *)
Definition h_insert (dbg : bool) (fuel : nat) (k v : bytes) (a : cnode) : M cnode :=
  h_with_single k v (h_outer_with dbg h_downcast h_replace fuel a).
(** [try_remove], lines 3534-3539. *)
Definition h_remove (dbg : bool) (fuel : nat) (k : bytes) (a : cnode) : M cnode :=
  h_with_single k [] (h_left_with dbg h_erase fuel a).
(** [try_remove_prefix], lines 3513-3515. *)
Definition h_remove_prefix (dbg : bool) (fuel : nat) (k : bytes) (a : cnode) : M cnode :=
  h_with_single k [] (h_remove_prefix_with dbg (fun _ => ret true) fuel a).

(** ** Searching *)
(** The binary search in [OwnedTreeNodeIter::find], lines 1816-1819; see [bsearch] in
    Node.v. *)
Fixpoint h_bsearch (cs : list cnode) (c : byte) (fuel left right : nat) : M (option cnode) :=
  match fuel with
  | 0 => ret None
  | S fuel =>
      if left <? right then
        let mid := left + (right - left) / 2 in
        match nth_error cs mid with
        | None => ret None
        | Some x =>
            f <! h_first x ;;
            match cmp_ob f (Some c) with
            | Lt => h_bsearch cs c fuel (mid + 1) right
            | Gt => h_bsearch cs c fuel left mid
            | Eq => ret (Some x)
            end
        end
      else ret None
  end.
(** [OwnedTreeNodeIter::find], lines 1811-1821. *)
Definition bi_find (it : biter) (c : byte) : M (option cnode) :=
  _ <! bi_check it ;;
  let cs := bi_rest it in
  if length cs =? 256 then ret (nth_error cs (N.to_nat (bnum c)))
  else h_bsearch cs c (S (length cs)) 0 (length cs).

(** [FindResult], lines 1431-1443, and [find], 1449-1485: the node found is borrowed from
    the tree.  As in Iter.v the continuation is applied by the callers. *)
Inductive hfound : Type :=
| HFound (c : cnode)
| HPrefix (c : cnode) (matching : nat)
| HNotFound.
Fixpoint h_find (fuel : nat) (t : cnode) (prefix : bytes) : M hfound :=
  match fuel with
  | 0 => fun _ => Exhausted
  | S fuel =>
      tp <! h_load_prefix t ;;
      let n := common_prefix tp prefix in
      let rt := length tp - n in
      let rp := length prefix - n in
      if (rp =? 0) && (rt =? 0) then ret (HFound t)
      else if rp =? 0 then ret (HPrefix t n)
      else if rt =? 0 then
        match nth_error prefix n with
        | None => panic
        | Some c =>
            ch <! h_slice t ;;
            match ch with
            | None => ret HNotFound
            | Some it =>
                x <! bi_find it c ;;
                match x with
                | Some child => h_find fuel child (skipn n prefix)
                | None => ret HNotFound
                end
            end
        end
      else ret HNotFound
  end.
(** [TreeNode::get], lines 828-837: the value is cloned ([ValueRef::to_owned]). *)
Definition h_get (fuel : nat) (key : bytes) (t : cnode) : M slot :=
  x <! h_find fuel t key ;;
  match x with
  | HFound c =>
      match h_value_opt c with
      | Some v => w <! word_clone (fst v) (snd v) ;; ret (SValue (fst v) w)
      | None => ret SGone
      end
  | _ => ret SGone
  end.
(** [filter_prefix], lines 1488-1513. *)
Definition h_filter_prefix (fuel : nat) (prefix substitution : bytes) (t : cnode) : M cnode :=
  x <! h_find fuel t prefix ;;
  match x with
  | HFound c => r <! h_clone c ;; h_set_prefix substitution r
  | HPrefix c n =>
      tp <! h_load_prefix c ;;
      r <! h_clone c ;;
      if n <=? length tp then h_set_prefix (substitution ++ skipn n tp) r else panic
  | HNotFound => ret c_empty
  end.

(** ** Questions *)
(** [contains_key], lines 805-814; [has_prefix], 817-826. *)
Definition h_contains_key (fuel : nat) (key : bytes) (t : cnode) : M bool :=
  x <! h_find fuel t key ;;
  ret (match x with
       | HFound c => match h_value_opt c with Some _ => true | None => false end
       | _ => false
       end).
Definition h_has_prefix (fuel : nat) (prefix : bytes) (t : cnode) : M bool :=
  x <! h_find fuel t prefix ;;
  ret (match x with HNotFound => false | _ => true end).

Section Questions.
(** [f] is the closure: it borrows both values. *)
Context (f : byte * word -> byte * word -> M bool).

(** The loops of [inner_combine_pred], lines 2350-2356 and 2360-2366. *)
Fixpoint h_any_loop (rec : cnode -> M bool) (fuel : nat) (it : biter) : M bool :=
  match fuel with
  | 0 => fun _ => Exhausted
  | S fuel =>
      o <! bi_next it ;;
      match o with
      | None => ret false
      | Some (x, it') => r <! rec x ;; if r then ret true else h_any_loop rec fuel it'
      end
  end.
Definition h_any (rec : cnode -> M bool) (fuel : nat) (o : option biter) : M bool :=
  match o with Some it => h_any_loop rec fuel it | None => ret false end.
(** The loops of [inner_combine_children_pred], lines 2371-2395, and
    [left_combine_children_pred], 2640-2672; [only] is the answer for a child that is only
    on the left, if there is one. *)
Fixpoint h_pred_loop (only : option bool) (rec : cnode -> cnode -> M bool) (fuel : nat) (a b : biter) : M bool :=
  match fuel with
  | 0 => fun _ => Exhausted
  | S fuel =>
      o <! h_oj_next a b ;;
      match o with
      | None => ret false
      | Some (Some x, Some y, a', b') => r <! rec x y ;; if r then ret true else h_pred_loop only rec fuel a' b'
      | Some (Some _, None, a', b') => match only with Some r => ret r | None => h_pred_loop only rec fuel a' b' end
      | Some (_, _, a', b') => h_pred_loop only rec fuel a' b'
      end
  end.
Definition h_inner_pred_kids (rec : cnode -> cnode -> M bool) (fuel : nat) (ac bc : option biter) : M bool :=
  match ac, bc with
  | Some ac, Some bc => h_pred_loop None rec fuel ac bc
  | _, _ => ret false
  end.
Definition h_left_pred_kids (rec : cnode -> cnode -> M bool) (fuel : nat) (ac bc : option biter) : M bool :=
  match ac, bc with
  | Some ac, Some bc => h_pred_loop (Some true) rec fuel ac bc
  | Some _, None => ret true
  | _, _ => ret false
  end.
(** A temporary node is dropped when the function returns, also early. *)
Definition h_scoped (c : cnode) (m : M bool) : M bool := r <! m ;; _ <! drop (node_items c) ;; ret r.

(** [inner_combine_pred], lines 2322-2369. *)
Fixpoint h_inner_pred (fuel : nat) (a b : cnode) : M bool :=
  match fuel with
  | 0 => fun _ => Exhausted
  | S fuel =>
      ap <! h_load_prefix a ;;
      bp <! h_load_prefix b ;;
      let n := common_prefix ap bp in
      if (n =? length ap) && (n =? length bp) then
        hit <! (match h_value_opt a, h_value_opt b with
                | Some av, Some bv => f av bv
                | _, _ => ret false
                end) ;;
        if hit then ret true
        else ac <! h_slice a ;; bc <! h_slice b ;; h_inner_pred_kids (h_inner_pred fuel) fuel ac bc
      else if n =? length ap then
        b' <! h_clone_shortened b n ;;
        h_scoped b' (ac <! h_slice a ;; h_any (fun x => h_inner_pred fuel x b') fuel ac)
      else if n =? length bp then
        a' <! h_clone_shortened a n ;;
        h_scoped a' (bc <! h_slice b ;; h_any (fun y => h_inner_pred fuel a' y) fuel bc)
      else ret false
  end.

(** [left_combine_pred], lines 2595-2638. *)
Fixpoint h_left_pred (fuel : nat) (a b : cnode) : M bool :=
  match fuel with
  | 0 => fun _ => Exhausted
  | S fuel =>
      ap <! h_load_prefix a ;;
      bp <! h_load_prefix b ;;
      let n := common_prefix ap bp in
      if (n =? length ap) && (n =? length bp) then
        hit <! (match h_value_opt a, h_value_opt b with
                | Some av, Some bv => f av bv
                | Some _, None => ret true
                | _, _ => ret false
                end) ;;
        if hit then ret true
        else ac <! h_slice a ;; bc <! h_slice b ;; h_left_pred_kids (h_left_pred fuel) fuel ac bc
      else if n =? length ap then
        match h_value_opt a with
        | Some _ => ret true
        | None =>
            ac <! h_slice a ;;
            b' <! h_clone_shortened b n ;;
            h_scoped b' (h_left_pred_kids (h_left_pred fuel) fuel ac (Some (BIter None [b'])))
        end
      else if n =? length bp then
        a' <! h_clone_shortened a n ;;
        h_scoped a' (bc <! h_slice b ;; h_left_pred_kids (h_left_pred fuel) fuel (Some (BIter None [a'])) bc)
      else ret true
  end.
End Questions.
(** A closure of a user. *)
Definition h_user_pred (g : bytes -> bytes -> bool) (av bv : byte * word) : M bool :=
  x <! blob_read (fst av) (snd av) ;;
  y <! blob_read (fst bv) (snd bv) ;;
  ret (g x y).

(** A question of a client about trees in variables; both trees are borrowed, and may be the
    same.  [is_empty] is lines 3438-3440. *)
Inductive query : Type :=
| QContains (r : nat) (k : bytes)
| QPrefix (r : nat) (k : bytes)
| QEmpty (r : nat)
| QInner (g : bytes -> bytes -> bool) (r s : nat)
| QLeft (g : bytes -> bytes -> bool) (r s : nat).
(** The queries on the trees in variables. *)
Definition t_ask1 (e : env) (r : nat) (m : cnode -> M bool) : M bool :=
  match var r e with SNode a => m a | _ => panic end.
Definition t_ask2 (e : env) (r s : nat) (m : cnode -> cnode -> M bool) : M bool :=
  match var r e, var s e with SNode a, SNode b => m a b | _, _ => panic end.
Definition t_ask (fuel : nat) (q : query) (e : env) : M bool :=
  match q with
  | QContains r k => t_ask1 e r (h_contains_key fuel k)
  | QPrefix r k => t_ask1 e r (h_has_prefix fuel k)
  | QEmpty r => t_ask1 e r (fun a => ret (h_is_empty a))
  | QInner g r s => t_ask2 e r s (h_inner_pred (h_user_pred g) fuel)
  | QLeft g r s => t_ask2 e r s (h_left_pred (h_user_pred g) fuel)
  end.

(** Programs of a client that has trees in variables.  [clone] is [Clone for RadixTree]
    (derived).  The second operands of the in-place operations are other variables; the
    combines that make a new tree borrow both and put the result into a new variable.
    [get] puts the value found into a new variable, which is [SGone] if there is none.
    [TIf q i] is [if q { i }]. *)
Inductive tinstr : Type :=
| TEmpty
| TLeaf (v : bytes)
| TSingle (k v : bytes)
| TClone (r : nat)
| TInsert (r : nat) (k v : bytes)
| TRemove (r : nat) (k : bytes)
| TRemovePrefix (r : nat) (k : bytes)
| TOuterWith (g : bytes -> bytes -> option bytes) (r s : nat)
| TInnerWith (g : bytes -> bytes -> option bytes) (r s : nat)
| TLeftWith (g : bytes -> bytes -> option bytes) (r s : nat)
| TRemovePrefixWith (g : bytes -> bool) (r s : nat)
| TRetainPrefixWith (g : bytes -> bool) (r s : nat)
| TOuter (g : bytes -> bytes -> option bytes) (r s : nat)
| TInner (g : bytes -> bytes -> option bytes) (r s : nat)
| TLeft (g : bytes -> bytes -> option bytes) (r s : nat)
| TFilterPrefix (r : nat) (k s : bytes)
| TGet (r : nat) (k : bytes)
| TIf (q : query) (i : tinstr)
| TDrop (r : nat).

(** An in-place operation on variable [r]. *)
Definition t_update (e : env) (r : nat) (m : cnode -> M cnode) : M env :=
  match var r e with
  | SNode a => a' <! m a ;; ret (upd r (SNode a') e)
  | _ => panic
  end.
(** With variable [s] as second operand. *)
Definition t_update2 (e : env) (r s : nat) (m : cnode -> cnode -> M cnode) : M env :=
  match var s e with
  | SNode b => t_update e r (fun a => m a b)
  | _ => panic
  end.
(** A new tree from variables [r] and [s]. *)
Definition t_new2 (e : env) (r s : nat) (m : cnode -> cnode -> M cnode) : M env :=
  match var r e, var s e with
  | SNode a, SNode b => c <! m a b ;; ret (e ++ [SNode c])
  | _, _ => panic
  end.
(** Something new from variable [r]. *)
Definition t_new1 (e : env) (r : nat) (m : cnode -> M slot) : M env :=
  match var r e with
  | SNode a => s <! m a ;; ret (e ++ [s])
  | _ => panic
  end.
Fixpoint t_step (dbg : bool) (fuel : nat) (i : tinstr) (e : env) : M env :=
  match i with
  | TEmpty => ret (e ++ [SNode c_empty])
  | TLeaf v => c <! h_leaf v ;; ret (e ++ [SNode c])
  | TSingle k v => c <! h_single k v ;; ret (e ++ [SNode c])
  | TClone r =>
      match var r e with
      | SNode c => c' <! h_clone c ;; ret (e ++ [SNode c'])
      | _ => panic
      end
  | TInsert r k v => t_update e r (h_insert dbg fuel k v)
  | TRemove r k => t_update e r (h_remove dbg fuel k)
  | TRemovePrefix r k => t_update e r (h_remove_prefix dbg fuel k)
  | TOuterWith g r s => t_update2 e r s (h_outer_with dbg h_detach (h_user g) fuel)
  | TInnerWith g r s => t_update2 e r s (h_inner_with dbg (h_user g) fuel)
  | TLeftWith g r s => t_update2 e r s (h_left_with dbg (h_user g) fuel)
  | TRemovePrefixWith g r s => t_update2 e r s (h_remove_prefix_with dbg (h_pred g) fuel)
  | TRetainPrefixWith g r s => t_update2 e r s (h_retain_prefix_with dbg (h_pred g) fuel)
  | TOuter g r s => t_new2 e r s (h_outer dbg (h_user_new g) fuel)
  | TInner g r s => t_new2 e r s (h_inner dbg (h_user_new g) fuel)
  | TLeft g r s => t_new2 e r s (h_left dbg (h_user_new g) fuel)
  | TFilterPrefix r k s => t_new1 e r (fun a => c <! h_filter_prefix fuel k s a ;; ret (SNode c))
  | TGet r k => t_new1 e r (h_get fuel k)
  | TIf q i => b <! t_ask fuel q e ;; if b then t_step dbg fuel i e else ret e
  | TDrop r => _ <! drop (slot_items (var r e)) ;; ret (upd r SGone e)
  end.
(** A program; no code in the repository. *)
Fixpoint t_run (dbg : bool) (fuel : nat) (p : list tinstr) (e : env) : M env :=
  match p with
  | [] => ret e
  | i :: p => e' <! t_step dbg fuel i e ;; t_run dbg fuel p e'
  end.
