(** Combines and in-place operations with closures that panic, on reference counted memory.

    HeapTree.v has the operations with closures that return.  Here the closure may panic
    (or, with the [try_] variants, return an error, which leaves the functions at the same
    place).  The stack is unwound: every function on it is left where it called the next
    one, and its local variables are dropped.  The first tree is borrowed mutably, so its
    owner, who can catch the panic, keeps it in whatever state it is at that point.  So
    every operation returns the node as it is afterwards and whether the operation was
    completed.  A combine that makes a new tree changes neither operand; what it had made
    before the panic is dropped.

    [bk] says what [InPlaceVecBuilder] (inplace-vec-builder crate) does when it is dropped
    before its source part is used up: with [bk] the rest of the source stays in the
    vector, otherwise it is dropped.  The crate is not part of this repository, so both
    are considered (as in InPlace.v).

    Not modelled: a closure that panics after it has put something else into the first
    value (that is dropped like what was there before), and a panic while dropping. *)
From Verif Require Import Base Header Node Combine Store Heap HeapIter HeapTree.

Definition completed {A} (x : A) : M (A * bool) := ret (x, true).
(** Go on unless the stack is being unwound. *)
Definition and_then {A} (m : M (A * bool)) (k : A -> M (A * bool)) : M (A * bool) :=
  x <! m ;; if snd x then k (fst x) else ret x.

(** Code that has [&mut Vec<TreeNode>] of the children of [c], see [h_with_children] in
    HeapTree.v; the vector keeps what the code leaves in it. *)
Definition hf_with_children (c : cnode) (k : list cnode -> M (list cnode * bool)) : M (cnode * bool) :=
  m <! h_load_children_mut c ;;
  cs <! vec_take (snd m) ;;
  x <! k cs ;;
  _ <! vec_put (snd m) (fst x) ;;
  ret (fst m, snd x).

Section Fail.
Context (bk : bool).

(** What [InPlaceVecBuilder] leaves of its source part when it is dropped early. *)
Definition hf_rest (source : list cnode) : M (list cnode) :=
  if bk then ret source else _ <! drop (flat_map node_items source) ;; ret [].

(** The merge loops, see [h_merge] in HeapTree.v: src/node/mod.rs:2196-2219, 2466-2487,
    2741-2762, 2838-2859, 2940-2961.  A recursive call that is unwound leaves its node in
    the source part of the builder. *)
Fixpoint hf_merge (keep : bool) (ins : option hconv) (rec : cnode -> cnode -> M (cnode * bool)) (fuel : nat)
    (ac : list cnode) (bc : biter) : M (list cnode * bool) :=
  match fuel with
  | 0 => fun _ => Exhausted
  | S fuel =>
      o <! h_cmp ac bc ;;
      match o, ac with
      | None, _ => completed []
      | Some Lt, x :: ac' =>
          if keep then rs <! hf_merge keep ins rec fuel ac' bc ;; ret (x :: fst rs, snd rs)
          else _ <! drop (node_items x) ;; hf_merge keep ins rec fuel ac' bc
      | Some Lt, [] => panic
      | Some Eq, x :: ac' =>
          b <! bi_next bc ;;
          match b with
          | None => panic
          | Some (y, bc') =>
              r <! rec x y ;;
              if snd r then
                if h_is_empty (fst r) then _ <! drop (node_items (fst r)) ;; hf_merge keep ins rec fuel ac' bc'
                else rs <! hf_merge keep ins rec fuel ac' bc' ;; ret (fst r :: fst rs, snd rs)
              else rs <! hf_rest (fst r :: ac') ;; ret (rs, false)
          end
      | Some Eq, [] => panic
      | Some Gt, _ =>
          b <! bi_next bc ;;
          match b with
          | None => panic
          | Some (y, bc') =>
              match ins with
              | Some c =>
                  x <! hc_node c fuel y ;;
                  rs <! hf_merge keep ins rec fuel ac bc' ;;
                  ret (x :: fst rs, snd rs)
              | None => hf_merge keep ins rec fuel ac bc'
              end
          end
      end
  end.

(** [outer_combine_children_with], lines 2174-2222. *)
Definition hf_outer_children (c : hconv) (rec : cnode -> cnode -> M (cnode * bool)) (fuel : nat)
    (ac : list cnode) (bc : option biter) : M (list cnode * bool) :=
  match bc with
  | None => completed ac
  | Some bc =>
      match ac with
      | [] => cs <! h_convert_loop c fuel bc ;; completed cs
      | _ => hf_merge true (Some c) rec fuel ac bc
      end
  end.
(** [inner_combine_children_with], lines 2447-2492, and [retain_prefix_children_with],
    2821-2864. *)
Definition hf_inner_children (rec : cnode -> cnode -> M (cnode * bool)) (fuel : nat)
    (ac : list cnode) (bc : option biter) : M (list cnode * bool) :=
  match bc with
  | None => _ <! drop (flat_map node_items ac) ;; completed []
  | Some bc => match ac with [] => completed [] | _ => hf_merge false None rec fuel ac bc end
  end.
(** [left_combine_children_with], lines 2722-2765, and [remove_prefix_children_with],
    2923-2964. *)
Definition hf_left_children (rec : cnode -> cnode -> M (cnode * bool)) (fuel : nat)
    (ac : list cnode) (bc : option biter) : M (list cnode * bool) :=
  match bc with
  | None => completed ac
  | Some bc => match ac with [] => completed [] | _ => hf_merge true None rec fuel ac bc end
  end.

(** The children of [a], see [h_kids] and [h_kids_short] in HeapTree.v: the array with the
    shortened node is dropped in any case. *)
Definition hf_kids (k : list cnode -> option biter -> M (list cnode * bool)) (b : cnode) (ac : list cnode)
  : M (list cnode * bool) :=
  bc <! h_slice b ;; k ac bc.
Definition hf_kids_short (k : list cnode -> option biter -> M (list cnode * bool)) (b : cnode) (n : nat) (ac : list cnode)
  : M (list cnode * bool) :=
  b' <! h_clone_shortened b n ;;
  x <! k ac (Some (BIter None [b'])) ;;
  _ <! drop (node_items b') ;;
  ret x.

Section Ops.
Context (dbg : bool).
(** [a.canonicalize(); Ok(())], lines 2170-2171. *)
Definition hf_canon (a : cnode) : M (cnode * bool) := a' <! h_canonicalize dbg a ;; completed a'.
(** The children function, then [canonicalize]. *)
Definition hf_recurse (a : cnode) (k : list cnode -> M (list cnode * bool)) : M (cnode * bool) :=
  and_then (hf_with_children a k) hf_canon.

Section Combines.
(** [f] is the closure: what the first value is afterwards, and whether [f] returned. *)
Context (c : hconv) (f : byte * word -> byte * word -> M ((byte * word) * bool)).

(** [if let Some(mut av) = a.take_value_opt() { f(&mut av, &bv)?; a.set_value_owned(..) }]:
    the value is taken out of the node before [f] is called, and dropped when [f] panics. *)
Definition hf_combine_value (a : cnode) (bv : byte * word) : M (cnode * bool) :=
  let (a1, av) := h_take_value a in
  av' <! f av bv ;;
  if snd av' then
    a2 <! h_set_value_owned (fst (fst av')) (snd (fst av')) a1 ;;
    _ <! drop_value (fst av') ;;
    completed a2
  else
    _ <! drop_value (fst av') ;;
    ret (a1, false).

(** [outer_combine_with], lines 2121-2172. *)
Fixpoint hf_outer_with (fuel : nat) (a b : cnode) : M (cnode * bool) :=
  match fuel with
  | 0 => fun _ => Exhausted
  | S fuel =>
      ap <! h_load_prefix a ;;
      bp <! h_load_prefix b ;;
      let n := common_prefix ap bp in
      if n =? length bp then
        a1 <! (if negb (n =? length ap) then h_split ap n a else ret a) ;;
        and_then
          (match h_value_opt b with
           | Some bv =>
               if h_has_value a1 then hf_combine_value a1 bv
               else
                 av <! h_convert_value bv ;;
                 a2 <! h_set_value_owned (fst av) (snd av) a1 ;;
                 _ <! drop_value av ;;
                 completed a2
           | None => completed a1
           end)
          (fun a2 => hf_recurse a2 (hf_kids (hf_outer_children c (hf_outer_with fuel) fuel) b))
      else if n =? length ap then
        hf_recurse a (hf_kids_short (hf_outer_children c (hf_outer_with fuel) fuel) b n)
      else
        a1 <! h_split ap n a ;;
        a3 <! h_with_children a1 (fun ac => y <! hc_short c fuel b n ;; h_push_sorted ac y) ;;
        hf_canon a3
  end.

(** [inner_combine_with], lines 2398-2445. *)
Fixpoint hf_inner_with (fuel : nat) (a b : cnode) : M (cnode * bool) :=
  match fuel with
  | 0 => fun _ => Exhausted
  | S fuel =>
      ap <! h_load_prefix a ;;
      bp <! h_load_prefix b ;;
      let n := common_prefix ap bp in
      if (n =? length ap) && (n =? length bp) then
        and_then
          (if h_has_value a then
             match h_value_opt b with
             | Some bv => hf_combine_value a bv
             | None => let (a1, av) := h_take_value a in _ <! drop_value av ;; completed a1
             end
           else completed a)
          (fun a2 => hf_recurse a2 (hf_kids (hf_inner_children (hf_inner_with fuel) fuel) b))
      else if n =? length ap then
        a1 <! h_set_value None a ;;
        hf_recurse a1 (hf_kids_short (hf_inner_children (hf_inner_with fuel) fuel) b n)
      else if n =? length bp then
        a1 <! h_split ap n a ;;
        hf_recurse a1 (hf_kids (hf_inner_children (hf_inner_with fuel) fuel) b)
      else
        a1 <! h_clear a ;;
        hf_canon a1
  end.

(** [left_combine_with], lines 2675-2720. *)
Fixpoint hf_left_with (fuel : nat) (a b : cnode) : M (cnode * bool) :=
  match fuel with
  | 0 => fun _ => Exhausted
  | S fuel =>
      ap <! h_load_prefix a ;;
      bp <! h_load_prefix b ;;
      let n := common_prefix ap bp in
      if (n =? length ap) && (n =? length bp) then
        and_then
          (match h_value_opt b with
           | Some bv => if h_has_value a then hf_combine_value a bv else completed a
           | None => completed a
           end)
          (fun a2 => hf_recurse a2 (hf_kids (hf_left_children (hf_left_with fuel) fuel) b))
      else if n =? length ap then
        hf_recurse a (hf_kids_short (hf_left_children (hf_left_with fuel) fuel) b n)
      else if n =? length bp then
        a1 <! h_split ap n a ;;
        hf_recurse a1 (hf_kids (hf_left_children (hf_left_with fuel) fuel) b)
      else hf_canon a
  end.
End Combines.

Section Prefixes.
(** [f] looks at a value of the second tree; [None]: it panics. *)
Context (f : byte * word -> M (option bool)).
Definition hf_selected (b : cnode) : M (option bool) :=
  match h_value_opt b with Some v => f v | None => ret (Some false) end.

(** [retain_prefix_with], lines 2771-2819. *)
Fixpoint hf_retain_prefix_with (fuel : nat) (a b : cnode) : M (cnode * bool) :=
  match fuel with
  | 0 => fun _ => Exhausted
  | S fuel =>
      ap <! h_load_prefix a ;;
      bp <! h_load_prefix b ;;
      let n := common_prefix ap bp in
      if (n =? length ap) && (n =? length bp) then
        s <! hf_selected b ;;
        match s with
        | None => ret (a, false)
        | Some true => hf_canon a
        | Some false =>
            a1 <! h_set_value None a ;;
            hf_recurse a1 (hf_kids (hf_inner_children (hf_retain_prefix_with fuel) fuel) b)
        end
      else if n =? length bp then
        match h_value_opt b with
        | None =>
            a1 <! h_split ap n a ;;
            hf_recurse a1 (hf_kids (hf_inner_children (hf_retain_prefix_with fuel) fuel) b)
        | Some bv =>
            s <! f bv ;;
            match s with
            | None => ret (a, false)
            | Some true => hf_canon a
            | Some false => a1 <! h_clear a ;; hf_canon a1
            end
        end
      else if n =? length ap then
        a1 <! h_set_value None a ;;
        hf_recurse a1 (hf_kids_short (hf_inner_children (hf_retain_prefix_with fuel) fuel) b n)
      else
        a1 <! h_clear a ;;
        hf_canon a1
  end.

(** [remove_prefix_with], lines 2870-2921. *)
Fixpoint hf_remove_prefix_with (fuel : nat) (a b : cnode) : M (cnode * bool) :=
  match fuel with
  | 0 => fun _ => Exhausted
  | S fuel =>
      ap <! h_load_prefix a ;;
      bp <! h_load_prefix b ;;
      let n := common_prefix ap bp in
      if (n =? length ap) && (n =? length bp) then
        s <! hf_selected b ;;
        match s with
        | None => ret (a, false)
        | Some true => a1 <! h_clear a ;; hf_canon a1
        | Some false => hf_recurse a (hf_kids (hf_left_children (hf_remove_prefix_with fuel) fuel) b)
        end
      else if n =? length bp then
        s <! hf_selected b ;;
        match s with
        | None => ret (a, false)
        | Some true => a1 <! h_clear a ;; hf_canon a1
        | Some false =>
            a1 <! h_split ap n a ;;
            hf_recurse a1 (hf_kids (hf_left_children (hf_remove_prefix_with fuel) fuel) b)
        end
      else if n =? length ap then
        hf_recurse a (hf_kids_short (hf_left_children (hf_remove_prefix_with fuel) fuel) b n)
      else hf_canon a
  end.
End Prefixes.
End Ops.

(** ** Combines that make a new tree *)
(** The closure panics while a new tree is made: both trees are borrowed, and unwinding drops
    what has been made so far, see below.  [None]: unwound. *)
Definition unless_unwound {A C} (m : M (option A)) (k : A -> M (option C)) : M (option C) :=
  x <! m ;; match x with Some a => k a | None => ret None end.
Definition made {A} (m : M A) : M (option A) := x <! m ;; ret (Some x).
(** The vector [res] of the loops goes out of scope when a later round is unwound.  Its nodes
    are dropped from the last to the first here, in Rust from the first to the last. *)
Definition hn_keep (chk : bool) (r : cnode) (rest : M (option (list cnode))) : M (option (list cnode)) :=
  if chk && h_is_empty r then _ <! drop (node_items r) ;; rest
  else
    rs <! rest ;;
    match rs with
    | Some rs => ret (Some (r :: rs))
    | None => _ <! drop (node_items r) ;; ret None
    end.
(** The loops of [outer_combine_children], src/node/mod.rs:2095-2107, [inner_combine_children],
    2301-2310, and [left_combine_children], 2567-2582, see [h_join] in HeapTree.v. *)
Fixpoint hn_join (ka kb : option bool) (rec : cnode -> cnode -> M (option cnode)) (fuel : nat) (a b : biter) : M (option (list cnode)) :=
  match fuel with
  | 0 => fun _ => Exhausted
  | S fuel =>
      o <! h_oj_next a b ;;
      match o with
      | None => ret (Some [])
      | Some (xa, xb, a', b') =>
          match xa, xb with
          | Some x, Some y => unless_unwound (rec x y) (fun r => hn_keep true r (hn_join ka kb rec fuel a' b'))
          | Some x, None =>
              match ka with
              | Some chk => r <! h_detached fuel x ;; hn_keep chk r (hn_join ka kb rec fuel a' b')
              | None => hn_join ka kb rec fuel a' b'
              end
          | None, Some y =>
              match kb with
              | Some chk => r <! h_detached fuel y ;; hn_keep chk r (hn_join ka kb rec fuel a' b')
              | None => hn_join ka kb rec fuel a' b'
              end
          | None, None => match kb with Some _ => panic | None => hn_join ka kb rec fuel a' b' end
          end
      end
  end.
(** [outer_combine_children], lines 2080-2118. *)
Definition hn_outer_join (rec : cnode -> cnode -> M (option cnode)) (fuel : nat) (ac bc : option biter) : M (option (option addr)) :=
  match ac, bc with
  | Some ac, Some bc => unless_unwound (hn_join (Some true) (Some true) rec fuel ac bc) (fun rs => made (h_vec rs))
  | None, Some bc => made (h_it_detached fuel bc)
  | Some ac, None => made (h_it_detached fuel ac)
  | None, None => ret (Some None)
  end.
(** [inner_combine_children], lines 2286-2319. *)
Definition hn_inner_join (rec : cnode -> cnode -> M (option cnode)) (fuel : nat) (ac bc : option biter) : M (option (option addr)) :=
  match ac, bc with
  | Some ac, Some bc => unless_unwound (hn_join None None rec fuel ac bc) (fun rs => made (h_vec rs))
  | _, _ => ret (Some None)
  end.
(** [left_combine_children], lines 2552-2592. *)
Definition hn_left_join (rec : cnode -> cnode -> M (option cnode)) (fuel : nat) (ac bc : option biter) : M (option (option addr)) :=
  match ac, bc with
  | Some ac, Some bc => unless_unwound (hn_join (Some false) None rec fuel ac bc) (fun rs => made (h_vec rs))
  | Some ac, None => made (h_it_detached fuel ac)
  | _, _ => ret (Some None)
  end.

Section NewTree.
(** [f] is the closure; [None]: it panics. *)
Context (dbg : bool) (f : byte * word -> byte * word -> M (option (option (byte * word)))).
(** The value, which is dropped when the children function is unwound; then the children and
    the new node. *)
Definition hn_finish (p : bytes) (value : M (option (option (byte * word)))) (children : M (option (option addr))) : M (option cnode) :=
  unless_unwound value (fun v =>
    k <! children ;;
    match k with
    | Some k => made (h_finish dbg p v k)
    | None => _ <! (match v with Some v => drop_value v | None => ret tt end) ;; ret None
    end).
(** See [h_both], [h_second_short] and [h_first_short] in HeapTree.v: the shortened copy is
    dropped in any case. *)
Definition hn_both (k : option biter -> option biter -> M (option (option addr))) (a b : cnode) : M (option (option addr)) :=
  ac <! h_slice a ;; bc <! h_slice b ;; k ac bc.
Definition hn_second_short (k : option biter -> option biter -> M (option (option addr))) (a b : cnode) (n : nat) : M (option (option addr)) :=
  ac <! h_slice a ;;
  b' <! h_clone_shortened b n ;;
  r <! k ac (Some (BIter None [b'])) ;;
  _ <! drop (node_items b') ;;
  ret r.
Definition hn_first_short (k : option biter -> option biter -> M (option (option addr))) (a b : cnode) (n : nat) : M (option (option addr)) :=
  a' <! h_clone_shortened a n ;;
  bc <! h_slice b ;;
  r <! k (Some (BIter None [a'])) bc ;;
  _ <! drop (node_items a') ;;
  ret r.

(** [outer_combine], lines 2012-2078. *)
Fixpoint hn_outer (fuel : nat) (a b : cnode) : M (option cnode) :=
  match fuel with
  | 0 => fun _ => Exhausted
  | S fuel =>
      ap <! h_load_prefix a ;;
      bp <! h_load_prefix b ;;
      let n := common_prefix ap bp in
      let p := firstn n ap in
      if (n =? length ap) && (n =? length bp) then
        hn_finish p
          (match h_value_opt b with
           | Some bv =>
               match h_value_opt a with
               | Some av => f av bv
               | None => made (h_opt_detached (Some bv))
               end
           | None => made (h_opt_detached (h_value_opt a))
           end)
          (hn_both (hn_outer_join (hn_outer fuel) fuel) a b)
      else if n =? length ap then
        hn_finish p (made (h_opt_detached (h_value_opt a))) (hn_second_short (hn_outer_join (hn_outer fuel) fuel) a b n)
      else if n =? length bp then
        hn_finish p (made (h_opt_detached (h_value_opt b))) (hn_first_short (hn_outer_join (hn_outer fuel) fuel) a b n)
      else
        made (a' <! hc_short h_detach fuel a n ;;
              b' <! hc_short h_detach fuel b n ;;
              children <! h_vec (match cmp_ob (nth_error ap n) (nth_error bp n) with Gt => [b'; a'] | _ => [a'; b'] end) ;;
              h_finish dbg p None children)
  end.

(** [inner_combine], lines 2225-2284. *)
Fixpoint hn_inner (fuel : nat) (a b : cnode) : M (option cnode) :=
  match fuel with
  | 0 => fun _ => Exhausted
  | S fuel =>
      ap <! h_load_prefix a ;;
      bp <! h_load_prefix b ;;
      let n := common_prefix ap bp in
      let p := firstn n ap in
      if (n =? length ap) && (n =? length bp) then
        hn_finish p
          (match h_value_opt b with
           | Some bv => match h_value_opt a with Some av => f av bv | None => ret (Some None) end
           | None => ret (Some None)
           end)
          (hn_both (hn_inner_join (hn_inner fuel) fuel) a b)
      else if n =? length ap then
        hn_finish p (ret (Some None)) (hn_second_short (hn_inner_join (hn_inner fuel) fuel) a b n)
      else if n =? length bp then
        hn_finish p (ret (Some None)) (hn_first_short (hn_inner_join (hn_inner fuel) fuel) a b n)
      else made (h_finish dbg p None None)
  end.

(** [left_combine], lines 2495-2550. *)
Fixpoint hn_left (fuel : nat) (a b : cnode) : M (option cnode) :=
  match fuel with
  | 0 => fun _ => Exhausted
  | S fuel =>
      ap <! h_load_prefix a ;;
      bp <! h_load_prefix b ;;
      let n := common_prefix ap bp in
      let p := firstn n ap in
      if (n =? length ap) && (n =? length bp) then
        hn_finish p
          (match h_value_opt a with
           | Some av =>
               match h_value_opt b with
               | Some bv => f av bv
               | None => made (h_opt_detached (Some av))
               end
           | None => ret (Some None)
           end)
          (hn_both (hn_left_join (hn_left fuel) fuel) a b)
      else if n =? length ap then
        hn_finish p (made (h_opt_detached (h_value_opt a))) (hn_second_short (hn_left_join (hn_left fuel) fuel) a b n)
      else if n =? length bp then
        hn_finish p (ret (Some None)) (hn_first_short (hn_left_join (hn_left fuel) fuel) a b n)
      else made (h_detached fuel a)
  end.
End NewTree.

(** ** The API *)
(** A closure of a user, see [h_user] in HeapTree.v, which panics for some values. *)
Definition hf_user (panics : bytes -> bytes -> bool) (g : bytes -> bytes -> option bytes) (av bv : byte * word)
  : M ((byte * word) * bool) :=
  x <! blob_read (fst av) (snd av) ;;
  y <! blob_read (fst bv) (snd bv) ;;
  if panics x y then ret (av, false) else r <! h_user g av bv ;; completed r.
Definition hf_pred (panics : bytes -> bool) (s : bytes -> bool) (bv : byte * word) : M (option bool) :=
  y <! blob_read (fst bv) (snd bv) ;; ret (if panics y then None else Some (s y)).

(** A closure that gives a new value, see [h_user_new] in HeapTree.v. *)
Definition hn_user (panics : bytes -> bytes -> bool) (g : bytes -> bytes -> option bytes) (av bv : byte * word)
  : M (option (option (byte * word))) :=
  x <! blob_read (fst av) (snd av) ;;
  y <! blob_read (fst bv) (snd bv) ;;
  if panics x y then ret None else made (h_user_new g av bv).

Inductive combining : Type := Outer | Inner | Left.
(** Programs: calls as in HeapTree.v, and the in-place operations with closures that may
    panic; the panic is caught, and the program goes on with the same variables.
    [try_outer_combine_with], [try_inner_combine_with], [try_left_combine_with], lines
    3606-3626, 3648-3668, 3722-3742; [try_remove_prefix_with], [try_retain_prefix_with],
    3745-3774.  [FNew] is [outer_combine], [inner_combine] or [left_combine], lines
    3282-3319, into a new variable, which is an empty tree if the call panicked:
    [catch_unwind(..).unwrap_or_default()]. *)
Inductive finstr : Type :=
| FCall (i : tinstr)
| FCombine (k : combining) (panics : bytes -> bytes -> bool) (g : bytes -> bytes -> option bytes) (r s : nat)
| FPrefixes (retain : bool) (panics : bytes -> bool) (g : bytes -> bool) (r s : nat)
| FNew (k : combining) (panics : bytes -> bytes -> bool) (g : bytes -> bytes -> option bytes) (r s : nat).

(** An in-place operation on variable [r] with second operand [s]. *)
Definition f_update (e : env) (r s : nat) (m : cnode -> cnode -> M (cnode * bool)) : M (env * bool) :=
  match var s e, var r e with
  | SNode b, SNode a => x <! m a b ;; ret (upd r (SNode (fst x)) e, snd x)
  | _, _ => panic
  end.
(** A new tree from variables [r] and [s]; both are borrowed, and may be the same. *)
Definition f_new (e : env) (r s : nat) (m : cnode -> cnode -> M (option cnode)) : M (env * bool) :=
  match var r e, var s e with
  | SNode a, SNode b =>
      x <! m a b ;;
      match x with
      | Some c => ret (e ++ [SNode c], true)
      | None => ret (e ++ [SNode c_empty], false)
      end
  | _, _ => panic
  end.
(** The variables afterwards, and whether the call returned. *)
Definition f_step (dbg : bool) (fuel : nat) (i : finstr) (e : env) : M (env * bool) :=
  match i with
  | FCall i => e' <! t_step dbg fuel i e ;; completed e'
  | FCombine Outer panics g r s => f_update e r s (hf_outer_with dbg h_detach (hf_user panics g) fuel)
  | FCombine Inner panics g r s => f_update e r s (hf_inner_with dbg (hf_user panics g) fuel)
  | FCombine Left panics g r s => f_update e r s (hf_left_with dbg (hf_user panics g) fuel)
  | FPrefixes true panics g r s => f_update e r s (hf_retain_prefix_with dbg (hf_pred panics g) fuel)
  | FPrefixes false panics g r s => f_update e r s (hf_remove_prefix_with dbg (hf_pred panics g) fuel)
  | FNew Outer panics g r s => f_new e r s (hn_outer dbg (hn_user panics g) fuel)
  | FNew Inner panics g r s => f_new e r s (hn_inner dbg (hn_user panics g) fuel)
  | FNew Left panics g r s => f_new e r s (hn_left dbg (hn_user panics g) fuel)
  end.
(** For every instruction whether it returned. *)
Fixpoint f_run (dbg : bool) (fuel : nat) (p : list finstr) (e : env) : M (env * list bool) :=
  match p with
  | [] => ret (e, [])
  | i :: p =>
      x <! f_step dbg fuel i e ;;
      y <! f_run dbg fuel p (fst x) ;;
      ret (fst y, snd x :: snd y)
  end.
End Fail.
