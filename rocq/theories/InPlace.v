(** The combines that modify a tree in place, with the state they leave behind also
    when they fail.

    In Combine.v an operation that returns an error has no result.  In the code
    the tree is borrowed mutably ([a: &mut TreeNode<A>]) and [?] returns from the
    middle of the function, so the caller keeps a tree in whatever state it was at
    that point.  Here every operation returns the node together with the outcome.

    [keep] says what [InPlaceVecBuilder] (inplace-vec-builder crate) leaves in the
    vector if it is dropped before its source part is used up: with [keep] the
    target part followed by the rest of the source, otherwise the target part
    only.  The crate is not part of this repository, so both are considered.

    Simplification: a blob that is read twice during one call ([split] loads the
    edge again) gives the same result both times. *)
From Verif Require Import Base Header Node Combine.

(** State left behind, and the outcome. *)
Definition left_in (X : Type) : Type := (X * res unit)%type.

(** [r?]: if [r] is not a value return with state [s]. *)
Definition try {X A : Type} (s : X) (r : res A) (k : A -> left_in X) : left_in X :=
  match r with
  | Ok x => k x
  | Err => (s, Err)
  | Panic => (s, Panic)
  | Fuel => (s, Fuel)
  end.

Section InPlace.
Context (keep : bool) (dbg : bool) (rdA rdB : reader).

(** What remains of the source part of the builder when it is dropped. *)
Definition rest (source : list node) : list node := if keep then source else [].

(** [a.canonicalize(); Ok(())] at the end of all operations, src/node/mod.rs:2170-2171. *)
Definition finish_in (a : node) : left_in node :=
  try a (canonicalize dbg a) (fun a' => (a', Ok tt)).

(** [let ac = a.load_children_mut(&ab)?; let bc = b.load_children(&bb)?;
    ..._children_with(ac, ab, bc, ..)?; a.canonicalize();], for instance
    src/node/mod.rs:2155-2157 and 2170. *)
Definition recurse (kids : list node -> option iter -> left_in (list node)) (a : node) (bc : res (option iter))
  : left_in node :=
  try a (load_children_mut rdA a) (fun ac =>
    let a1 := set_kids a (KArc ac) in
    try a1 bc (fun bc =>
      let (ac', r) := kids ac bc in
      let a2 := set_kids a1 (KArc ac') in
      try a2 r (fun _ => finish_in a2))).

(** [[b.clone_shortened(&bb, n)?]] as children, for instance src/node/mod.rs:2162. *)
Definition shortened (b : noderef) (n : nat) : res (option iter) :=
  b' <- r_clone_shortened rdB b n ;; Ok (it_single b').

Section Loops.
Context (rec : node -> noderef -> left_in node).

(** The merge loop of [left_combine_children_with] and
    [remove_prefix_children_with], src/node/mod.rs:2741-2762 and 2940-2961. *)
Fixpoint left_loop_in (fuel : nat) (ac : list node) (bc : iter) : left_in (list node) :=
  match fuel with
  | 0 => (rest ac, Fuel)
  | S fuel' =>
      match cmp_with ac bc with
      | None => ([], Ok tt)
      | Some Lt =>
          match ac with
          | x :: ac' => let (rs, r) := left_loop_in fuel' ac' bc in (x :: rs, r)
          | [] => ([], Panic)
          end
      | Some Eq =>
          match ac, it_next bc with
          | x :: ac', Some (y, bc') =>
              let (x', r) := rec x y in
              try (rest (x' :: ac')) r (fun _ =>
                let (rs, r) := left_loop_in fuel' ac' bc' in
                (if is_empty x' then rs else x' :: rs, r))
          | _, _ => (rest ac, Panic)
          end
      | Some Gt =>
          match it_next bc with
          | Some (_, bc') => left_loop_in fuel' ac bc'
          | None => (rest ac, Panic)
          end
      end
  end.

(** [left_combine_children_with], src/node/mod.rs:2722-2765, and
    [remove_prefix_children_with], 2923-2964. *)
Definition left_children_in (fuel : nat) (ac : list node) (bc : option iter) : left_in (list node) :=
  match bc with
  | None => (ac, Ok tt)
  | Some bc => match ac with [] => ([], Ok tt) | _ => left_loop_in fuel ac bc end
  end.

(** The merge loop of [inner_combine_children_with] and
    [retain_prefix_children_with], src/node/mod.rs:2466-2487 and 2838-2859. *)
Fixpoint inner_loop_in (fuel : nat) (ac : list node) (bc : iter) : left_in (list node) :=
  match fuel with
  | 0 => (rest ac, Fuel)
  | S fuel' =>
      match cmp_with ac bc with
      | None => ([], Ok tt)
      | Some Lt =>
          match ac with
          | _ :: ac' => inner_loop_in fuel' ac' bc
          | [] => ([], Panic)
          end
      | Some Eq =>
          match ac, it_next bc with
          | x :: ac', Some (y, bc') =>
              let (x', r) := rec x y in
              try (rest (x' :: ac')) r (fun _ =>
                let (rs, r) := inner_loop_in fuel' ac' bc' in
                (if is_empty x' then rs else x' :: rs, r))
          | _, _ => (rest ac, Panic)
          end
      | Some Gt =>
          match it_next bc with
          | Some (_, bc') => inner_loop_in fuel' ac bc'
          | None => (rest ac, Panic)
          end
      end
  end.

(** [inner_combine_children_with], src/node/mod.rs:2447-2492, and
    [retain_prefix_children_with], 2821-2864. *)
Definition inner_children_in (fuel : nat) (ac : list node) (bc : option iter) : left_in (list node) :=
  match bc with
  | None => ([], Ok tt)
  | Some bc => match ac with [] => ([], Ok tt) | _ => inner_loop_in fuel ac bc end
  end.

Context (c : converter).

(** The [ac.is_empty()] loop of [outer_combine_children_with],
    src/node/mod.rs:2190-2195: pushes directly to the vector. *)
Fixpoint convert_loop_in (fuel : nat) (bc : iter) : left_in (list node) :=
  match fuel with
  | 0 => ([], Fuel)
  | S fuel' =>
      match it_next bc with
      | None => ([], Ok tt)
      | Some (y, bc') =>
          try [] (conv_node c fuel' y) (fun x =>
            let (xs, r) := convert_loop_in fuel' bc' in (x :: xs, r))
      end
  end.

(** The merge loop of [outer_combine_children_with], src/node/mod.rs:2196-2219. *)
Fixpoint outer_loop_in (fuel : nat) (ac : list node) (bc : iter) : left_in (list node) :=
  match fuel with
  | 0 => (rest ac, Fuel)
  | S fuel' =>
      match cmp_with ac bc with
      | None => ([], Ok tt)
      | Some Lt =>
          match ac with
          | x :: ac' => let (rs, r) := outer_loop_in fuel' ac' bc in (x :: rs, r)
          | [] => ([], Panic)
          end
      | Some Eq =>
          match ac, it_next bc with
          | x :: ac', Some (y, bc') =>
              let (x', r) := rec x y in
              try (rest (x' :: ac')) r (fun _ =>
                let (rs, r) := outer_loop_in fuel' ac' bc' in
                (if is_empty x' then rs else x' :: rs, r))
          | _, _ => (rest ac, Panic)
          end
      | Some Gt =>
          match it_next bc with
          | Some (y, bc') =>
              try (rest ac) (conv_node c fuel' y) (fun x =>
                let (rs, r) := outer_loop_in fuel' ac bc' in (x :: rs, r))
          | None => (rest ac, Panic)
          end
      end
  end.

(** [outer_combine_children_with], src/node/mod.rs:2174-2222. *)
Definition outer_children_in (fuel : nat) (ac : list node) (bc : option iter) : left_in (list node) :=
  match bc with
  | None => (ac, Ok tt)
  | Some bc => match ac with [] => convert_loop_in fuel bc | _ => outer_loop_in fuel ac bc end
  end.
End Loops.

Section Values.
Context (f : blob -> blob -> res blob).

(** [left_combine_with], src/node/mod.rs:2675-2720.  The value is taken out of the
    node before [f] is called (2697), so it is gone if [f] fails. *)
Fixpoint left_combine_in (fuel : nat) (a : node) (b : noderef) : left_in node :=
  match fuel with
  | 0 => (a, Fuel)
  | S fuel =>
      let kids := left_children_in (left_combine_in fuel) fuel in
      try a (load_prefix rdA (n_prefix a)) (fun ap =>
      try a (load_prefix rdB (r_prefix b)) (fun bp =>
      let n := common_prefix ap bp in
      if (n =? length ap) && (n =? length bp) then
        match r_value_opt b, blob_opt (n_value a) with
        | Some bv, Some av =>
            try (set_value a bnone) (f av bv) (fun v => recurse kids (set_value a v) (r_load_children rdB b))
        | _, _ => recurse kids a (r_load_children rdB b)
        end
      else if n =? length ap then recurse kids a (shortened b n)
      else if n =? length bp then
        try a (split rdA a n) (fun a1 => recurse kids a1 (r_load_children rdB b))
      else finish_in a))
  end.

(** [inner_combine_with], src/node/mod.rs:2398-2445. *)
Fixpoint inner_combine_in (fuel : nat) (a : node) (b : noderef) : left_in node :=
  match fuel with
  | 0 => (a, Fuel)
  | S fuel =>
      let kids := inner_children_in (inner_combine_in fuel) fuel in
      try a (load_prefix rdA (n_prefix a)) (fun ap =>
      try a (load_prefix rdB (r_prefix b)) (fun bp =>
      let n := common_prefix ap bp in
      if (n =? length ap) && (n =? length bp) then
        match blob_opt (n_value a), r_value_opt b with
        | Some av, Some bv =>
            try (set_value a bnone) (f av bv) (fun v => recurse kids (set_value a v) (r_load_children rdB b))
        | _, _ => recurse kids (set_value a bnone) (r_load_children rdB b)
        end
      else if n =? length ap then recurse kids (set_value a bnone) (shortened b n)
      else if n =? length bp then
        try a (split rdA a n) (fun a1 => recurse kids a1 (r_load_children rdB b))
      else finish_in (set_kids (set_value a bnone) (KId []))))
  end.

Context (c : converter).

(** [outer_combine_with], src/node/mod.rs:2121-2172. *)
Fixpoint outer_combine_in (fuel : nat) (a : node) (b : noderef) : left_in node :=
  match fuel with
  | 0 => (a, Fuel)
  | S fuel =>
      let kids := outer_children_in (outer_combine_in fuel) c fuel in
      try a (load_prefix rdA (n_prefix a)) (fun ap =>
      try a (load_prefix rdB (r_prefix b)) (fun bp =>
      let n := common_prefix ap bp in
      if n =? length bp then
        try a (if negb (n =? length ap) then split rdA a n else Ok a) (fun a1 =>
        match r_value_opt b with
        | Some bv =>
            match blob_opt (n_value a1) with
            | Some av =>
                try (set_value a1 bnone) (f av bv) (fun v => recurse kids (set_value a1 v) (r_load_children rdB b))
            | None =>
                try a1 (conv_value c bv) (fun v => recurse kids (set_value a1 v) (r_load_children rdB b))
            end
        | None => recurse kids a1 (r_load_children rdB b)
        end)
      else if n =? length ap then recurse kids a (shortened b n)
      else
        try a (split rdA a n) (fun a1 =>
        try a1 (load_children_mut rdA a1) (fun ac =>
        try (set_kids a1 (KArc ac)) (conv_node_shortened c fuel b n) (fun b' =>
        finish_in (set_kids a1 (KArc (match ac with
                                      | [x] => sort2 x b'
                                      | _ => ac ++ [b']
                                      end))))))))
  end.
End Values.

Section Prefixes.
Context (f : blob -> res bool).

(** [retain_prefix_with], src/node/mod.rs:2771-2819. *)
Fixpoint retain_prefix_in (fuel : nat) (a : node) (b : noderef) : left_in node :=
  match fuel with
  | 0 => (a, Fuel)
  | S fuel =>
      let kids := inner_children_in (retain_prefix_in fuel) fuel in
      try a (load_prefix rdA (n_prefix a)) (fun ap =>
      try a (load_prefix rdB (r_prefix b)) (fun bp =>
      let n := common_prefix ap bp in
      if (n =? length ap) && (n =? length bp) then
        try a (selected f (r_value_opt b)) (fun s =>
        if s then finish_in a else recurse kids (set_value a bnone) (r_load_children rdB b))
      else if n =? length bp then
        match r_value_opt b with
        | None => try a (split rdA a n) (fun a1 => recurse kids a1 (r_load_children rdB b))
        | Some bv =>
            try a (f bv) (fun s =>
            if s then finish_in a else finish_in (set_kids (set_value a bnone) (KId [])))
        end
      else if n =? length ap then recurse kids (set_value a bnone) (shortened b n)
      else finish_in (set_kids (set_value a bnone) (KId []))))
  end.

(** [remove_prefix_with], src/node/mod.rs:2870-2921. *)
Fixpoint remove_prefix_in (fuel : nat) (a : node) (b : noderef) : left_in node :=
  match fuel with
  | 0 => (a, Fuel)
  | S fuel =>
      let kids := left_children_in (remove_prefix_in fuel) fuel in
      try a (load_prefix rdA (n_prefix a)) (fun ap =>
      try a (load_prefix rdB (r_prefix b)) (fun bp =>
      let n := common_prefix ap bp in
      if (n =? length ap) && (n =? length bp) then
        try a (selected f (r_value_opt b)) (fun s =>
        if s then finish_in (set_kids (set_value a bnone) (KId []))
        else recurse kids a (r_load_children rdB b))
      else if n =? length bp then
        try a (selected f (r_value_opt b)) (fun s =>
        if s then finish_in (set_kids (set_value a bnone) (KId []))
        else try a (split rdA a n) (fun a1 => recurse kids a1 (r_load_children rdB b)))
      else if n =? length ap then recurse kids a (shortened b n)
      else finish_in a))
  end.
End Prefixes.

End InPlace.

Section Tree.
Context (keep dbg : bool) (rd : reader).
(** [try_insert], src/node/mod.rs:3518-3531. *)
Definition insert_in (t : node) (key value : bytes) (fuel : nat) : left_in node :=
  outer_combine_in keep dbg rd detached_read (fun _ replacement => Ok replacement) downcast_converter fuel t
    (ROwned (n_single key value)).
(** [try_remove], src/node/mod.rs:3534-3539. *)
Definition remove_in (t : node) (key : bytes) (fuel : nat) : left_in node :=
  left_combine_in keep dbg rd detached_read (fun _ _ => Ok bnone) fuel t (ROwned (n_single key [])).
(** [try_remove_prefix], src/node/mod.rs:3513-3515. *)
Definition remove_prefix_in1 (t : node) (prefix : bytes) (fuel : nat) : left_in node :=
  remove_prefix_in keep dbg rd detached_read (fun _ => Ok true) fuel t (ROwned (n_single prefix [])).
(** [try_outer_combine_with] etc., src/node/mod.rs:3606-3626, 3648-3668, 3722-3742. *)
Definition outer_with_in (rdB : reader) (c : converter) (t that : node) (f : blob -> blob -> res blob) (fuel : nat)
  : left_in node := outer_combine_in keep dbg rd rdB f c fuel t (ROwned that).
Definition inner_with_in (rdB : reader) (t that : node) (f : blob -> blob -> res blob) (fuel : nat)
  : left_in node := inner_combine_in keep dbg rd rdB f fuel t (ROwned that).
Definition left_with_in (rdB : reader) (t that : node) (f : blob -> blob -> res blob) (fuel : nat)
  : left_in node := left_combine_in keep dbg rd rdB f fuel t (ROwned that).
(** [try_remove_prefix_with] and [try_retain_prefix_with], src/node/mod.rs:3745-3774. *)
Definition remove_prefix_with_in (rdB : reader) (t that : node) (f : blob -> res bool) (fuel : nat)
  : left_in node := remove_prefix_in keep dbg rd rdB f fuel t (ROwned that).
Definition retain_prefix_with_in (rdB : reader) (t that : node) (f : blob -> res bool) (fuel : nat)
  : left_in node := retain_prefix_in keep dbg rd rdB f fuel t (ROwned that).
End Tree.

(** The outcome as in Combine.v: the new state if the operation succeeded. *)
Definition outcome {X} (x : left_in X) : res X :=
  match snd x with Ok _ => Ok (fst x) | Err => Err | Panic => Panic | Fuel => Fuel end.
