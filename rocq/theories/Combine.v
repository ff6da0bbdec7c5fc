(** The combine operations on nodes (src/node/mod.rs:1574-1755, 2011-2964).

    All children loops are written without an accumulator: the Rust code pushes
    each result to a vector before continuing, here the result is consed to what
    the rest of the loop returns; evaluation order (hence the first error or
    panic) is the same. *)
From Verif Require Import Base Header Node.

(** [NodeConverter], src/node/mod.rs:1576-1591.  The step bound is needed
    because detaching a node walks the store. *)
Record converter : Type := Converter {
  conv_node : nat -> noderef -> res node;
  conv_node_shortened : nat -> noderef -> nat -> res node;
  conv_value : blob -> res blob }.

(** [DowncastConverter] (from [Detached]), src/node/mod.rs:1600-1621 and
    [TreeNodeRef::downcast], 1349-1356. *)
Definition downcast_converter : converter :=
  Converter
    (fun _ r => match r with ROwned n => Ok n | RBorrowed _ => Panic end)
    (fun _ r k => r_clone_shortened detached_read r k)
    (fun v => Ok v).

(** [IdentityConverter], src/node/mod.rs:1628-1645. *)
Definition identity_converter (rdB : reader) : converter :=
  Converter (fun _ r => r_to_owned r) (fun _ r k => r_clone_shortened rdB r k) (fun v => Ok v).

(** [DetachConverter], src/node/mod.rs:1652-1668. *)
Definition detach_converter (rdB : reader) : converter :=
  Converter
    (fun fuel r => r_detached rdB fuel r)
    (fun fuel r k => n <- r_clone_shortened rdB r k ;; r_detached rdB fuel (ROwned n))
    v_detached.

(** [OuterJoin::next0], src/node/mod.rs:1690-1734. *)
Definition oj_next (a b : iter)
  : res (option (option noderef * option noderef * iter * iter)) :=
  let next_a := match it_next a with
                | Some (x, a') => Ok (Some (Some x, None, a', b))
                | None => Panic
                end in
  let next_b := match it_next b with
                | Some (y, b') => Ok (Some (None, Some y, a, b'))
                | None => Panic
                end in
  match it_first a, it_first b with
  | Some ak, Some bk =>
      match cmp_ob ak bk with
      | Lt => next_a
      | Gt => next_b
      | Eq =>
          match it_next a, it_next b with
          | Some (x, a'), Some (y, b') => Ok (Some (Some x, Some y, a', b'))
          | Some (x, a'), None => Ok (Some (Some x, None, a', b))
          | None, Some (y, b') => Ok (Some (None, Some y, a, b'))
          | None, None => Ok (Some (None, None, a, b))
          end
      end
  | _, _ =>
      match it_next a with
      | Some (x, a') => Ok (Some (Some x, None, a', b))
      | None =>
          match it_next b with
          | Some (y, b') => Ok (Some (None, Some y, a, b'))
          | None => Ok None
          end
      end
  end.

(** [cmp], src/node/mod.rs:1743-1755: source part of the in-place builder
    against the iterator. *)
Definition cmp_with (ac : list node) (bc : iter) : option comparison :=
  match ac, it_first bc with
  | x :: _, Some bp => Some (cmp_ob (n_first x) bp)
  | _ :: _, None => Some Lt
  | [], Some _ => Some Gt
  | [], None => None
  end.

Section Combine.
Context (dbg : bool) (rdA rdB : reader).

(** [if res.is_empty() { None } else { Some(Arc::new(res)) }] *)
Definition nonempty_vec (ns : list node) : option (list node) :=
  match ns with [] => None | _ => Some ns end.

(** Optional value turned into a detached one,
    [a.value_opt().map(|x| x.detached(&ab)).transpose()?]. *)
Definition opt_detached (v : option blob) : res (option blob) :=
  match v with
  | None => Ok None
  | Some x => y <- v_detached x ;; Ok (Some y)
  end.

(** The tail shared by the non in-place combines: new node from prefix, value
    and children, then canonicalize (e.g. src/node/mod.rs:2072-2077). *)
Definition finish (p : bytes) (value : option blob) (children : option (list node)) : res node :=
  canonicalize dbg (Node (Data p) (opt_value value) (kids_opt children)).

(** A one element slice as iterator, [TreeNodeIter::from_slice(&[n])]. *)
Definition it_single (n : node) : option iter := Some (IOwned [n]).

(* ------------------------------------------------------------------ *)
Section NonInPlace.
Context (f : blob -> blob -> res (option blob)).

(** The loop of [outer_combine_children], src/node/mod.rs:2095-2107. *)
Fixpoint outer_loop (rec : noderef -> noderef -> res node) (fuel : nat) (a b : iter)
  : res (list node) :=
  match fuel with
  | 0 => Fuel
  | S fuel' =>
      j <- oj_next a b ;;
      match j with
      | None => Ok []
      | Some (xa, xb, a', b') =>
          r <- (match xa, xb with
                | Some x, Some y => rec x y
                | Some x, None => r_detached rdA fuel' x
                | None, Some y => r_detached rdB fuel' y
                | None, None => Panic
                end) ;;
          rs <- outer_loop rec fuel' a' b' ;;
          Ok (if is_empty r then rs else r :: rs)
      end
  end.

(** [outer_combine_children], src/node/mod.rs:2080-2118. *)
Definition outer_children (rec : noderef -> noderef -> res node) (fuel : nat)
    (ac bc : option iter) : res (option (list node)) :=
  match ac, bc with
  | Some ac, Some bc => rs <- outer_loop rec fuel ac bc ;; Ok (nonempty_vec rs)
  | None, Some bc => it_detached rdB fuel bc
  | Some ac, None => it_detached rdA fuel ac
  | None, None => Ok None
  end.

(** [outer_combine], src/node/mod.rs:2012-2078. *)
Fixpoint outer_combine (fuel : nat) (a b : noderef) : res node :=
  match fuel with
  | 0 => Fuel
  | S fuel =>
      ap <- load_prefix rdA (r_prefix a) ;;
      bp <- load_prefix rdB (r_prefix b) ;;
      let n := common_prefix ap bp in
      let p := firstn n ap in
      if (n =? length ap) && (n =? length bp) then
        value <- (match r_value_opt b with
                  | Some bv =>
                      match r_value_opt a with
                      | Some av => f av bv
                      | None => x <- v_detached bv ;; Ok (Some x)
                      end
                  | None => opt_detached (r_value_opt a)
                  end) ;;
        ac <- r_load_children rdA a ;;
        bc <- r_load_children rdB b ;;
        children <- outer_children (outer_combine fuel) fuel ac bc ;;
        finish p value children
      else if n =? length ap then
        value <- opt_detached (r_value_opt a) ;;
        ac <- r_load_children rdA a ;;
        b' <- r_clone_shortened rdB b n ;;
        children <- outer_children (outer_combine fuel) fuel ac (it_single b') ;;
        finish p value children
      else if n =? length bp then
        value <- opt_detached (r_value_opt b) ;;
        a' <- r_clone_shortened rdA a n ;;
        bc <- r_load_children rdB b ;;
        children <- outer_children (outer_combine fuel) fuel (it_single a') bc ;;
        finish p value children
      else
        a' <- conv_node_shortened (detach_converter rdA) fuel a n ;;
        b' <- conv_node_shortened (detach_converter rdB) fuel b n ;;
        finish p None
          (Some (match cmp_ob (nth_error ap n) (nth_error bp n) with
                 | Gt => [b'; a']
                 | _ => [a'; b']
                 end))
  end.

(** The loop of [inner_combine_children], src/node/mod.rs:2301-2310. *)
Fixpoint inner_loop (rec : noderef -> noderef -> res node) (fuel : nat) (a b : iter)
  : res (list node) :=
  match fuel with
  | 0 => Fuel
  | S fuel =>
      j <- oj_next a b ;;
      match j with
      | None => Ok []
      | Some (Some x, Some y, a', b') =>
          r <- rec x y ;;
          rs <- inner_loop rec fuel a' b' ;;
          Ok (if is_empty r then rs else r :: rs)
      | Some (_, _, a', b') => inner_loop rec fuel a' b'
      end
  end.

(** [inner_combine_children], src/node/mod.rs:2286-2319. *)
Definition inner_children (rec : noderef -> noderef -> res node) (fuel : nat)
    (ac bc : option iter) : res (option (list node)) :=
  match ac, bc with
  | Some ac, Some bc => rs <- inner_loop rec fuel ac bc ;; Ok (nonempty_vec rs)
  | _, _ => Ok None
  end.

(** [inner_combine], src/node/mod.rs:2225-2284. *)
Fixpoint inner_combine (fuel : nat) (a b : noderef) : res node :=
  match fuel with
  | 0 => Fuel
  | S fuel =>
      ap <- load_prefix rdA (r_prefix a) ;;
      bp <- load_prefix rdB (r_prefix b) ;;
      let n := common_prefix ap bp in
      let p := firstn n ap in
      if (n =? length ap) && (n =? length bp) then
        value <- (match r_value_opt b with
                  | Some bv =>
                      match r_value_opt a with
                      | Some av => f av bv
                      | None => Ok None
                      end
                  | None => Ok None
                  end) ;;
        ac <- r_load_children rdA a ;;
        bc <- r_load_children rdB b ;;
        children <- inner_children (inner_combine fuel) fuel ac bc ;;
        finish p value children
      else if n =? length ap then
        ac <- r_load_children rdA a ;;
        b' <- r_clone_shortened rdB b n ;;
        children <- inner_children (inner_combine fuel) fuel ac (it_single b') ;;
        finish p None children
      else if n =? length bp then
        a' <- r_clone_shortened rdA a n ;;
        bc <- r_load_children rdB b ;;
        children <- inner_children (inner_combine fuel) fuel (it_single a') bc ;;
        finish p None children
      else finish p None None
  end.

(** The loop of [left_combine_children], src/node/mod.rs:2567-2582. *)
Fixpoint left_loop (rec : noderef -> noderef -> res node) (fuel : nat) (a b : iter)
  : res (list node) :=
  match fuel with
  | 0 => Fuel
  | S fuel' =>
      j <- oj_next a b ;;
      match j with
      | None => Ok []
      | Some (Some x, Some y, a', b') =>
          r <- rec x y ;;
          rs <- left_loop rec fuel' a' b' ;;
          Ok (if is_empty r then rs else r :: rs)
      | Some (Some x, None, a', b') =>
          r <- r_detached rdA fuel' x ;;
          rs <- left_loop rec fuel' a' b' ;;
          Ok (r :: rs)
      | Some (_, _, a', b') => left_loop rec fuel' a' b'
      end
  end.

(** [left_combine_children], src/node/mod.rs:2552-2592. *)
Definition left_children (rec : noderef -> noderef -> res node) (fuel : nat)
    (ac bc : option iter) : res (option (list node)) :=
  match ac, bc with
  | Some ac, Some bc => rs <- left_loop rec fuel ac bc ;; Ok (nonempty_vec rs)
  | Some ac, None => it_detached rdA fuel ac
  | _, _ => Ok None
  end.

(** [left_combine], src/node/mod.rs:2495-2550. *)
Fixpoint left_combine (fuel : nat) (a b : noderef) : res node :=
  match fuel with
  | 0 => Fuel
  | S fuel =>
      ap <- load_prefix rdA (r_prefix a) ;;
      bp <- load_prefix rdB (r_prefix b) ;;
      let n := common_prefix ap bp in
      let p := firstn n ap in
      if (n =? length ap) && (n =? length bp) then
        value <- (match r_value_opt a with
                  | Some av =>
                      match r_value_opt b with
                      | Some bv => f av bv
                      | None => x <- v_detached av ;; Ok (Some x)
                      end
                  | None => Ok None
                  end) ;;
        ac <- r_load_children rdA a ;;
        bc <- r_load_children rdB b ;;
        children <- left_children (left_combine fuel) fuel ac bc ;;
        finish p value children
      else if n =? length ap then
        value <- opt_detached (r_value_opt a) ;;
        ac <- r_load_children rdA a ;;
        b' <- r_clone_shortened rdB b n ;;
        children <- left_children (left_combine fuel) fuel ac (it_single b') ;;
        finish p value children
      else if n =? length bp then
        a' <- r_clone_shortened rdA a n ;;
        bc <- r_load_children rdB b ;;
        children <- left_children (left_combine fuel) fuel (it_single a') bc ;;
        finish p None children
      else r_detached rdA fuel a
  end.
End NonInPlace.

(* ------------------------------------------------------------------ *)
Section Predicates.
Context (f : blob -> blob -> res bool).

(** The loop over the children of one side against a fixed node,
    src/node/mod.rs:2350-2356 and 2360-2366. *)
Fixpoint any_loop (rec : noderef -> res bool) (fuel : nat) (it : iter) : res bool :=
  match fuel with
  | 0 => Fuel
  | S fuel =>
      match it_next it with
      | None => Ok false
      | Some (x, it') =>
          r <- rec x ;;
          if r then Ok true else any_loop rec fuel it'
      end
  end.

(** [inner_combine_children_pred], src/node/mod.rs:2371-2395. *)
Fixpoint inner_pred_loop (rec : noderef -> noderef -> res bool) (fuel : nat) (a b : iter)
  : res bool :=
  match fuel with
  | 0 => Fuel
  | S fuel =>
      j <- oj_next a b ;;
      match j with
      | None => Ok false
      | Some (Some x, Some y, a', b') =>
          r <- rec x y ;;
          if r then Ok true else inner_pred_loop rec fuel a' b'
      | Some (_, _, a', b') => inner_pred_loop rec fuel a' b'
      end
  end.

(** [inner_combine_children_pred], src/node/mod.rs:2371-2395: the case without children. *)
Definition inner_pred_children (rec : noderef -> noderef -> res bool) (fuel : nat)
    (ac bc : option iter) : res bool :=
  match ac, bc with
  | Some ac, Some bc => inner_pred_loop rec fuel ac bc
  | _, _ => Ok false
  end.

(** [inner_combine_pred], src/node/mod.rs:2322-2369. *)
Fixpoint inner_combine_pred (fuel : nat) (a b : noderef) : res bool :=
  match fuel with
  | 0 => Fuel
  | S fuel =>
      ap <- load_prefix rdA (r_prefix a) ;;
      bp <- load_prefix rdB (r_prefix b) ;;
      let n := common_prefix ap bp in
      if (n =? length ap) && (n =? length bp) then
        hit <- (match r_value_opt a, r_value_opt b with
                | Some av, Some bv => f av bv
                | _, _ => Ok false
                end) ;;
        if hit then Ok true
        else
          ac <- r_load_children rdA a ;;
          bc <- r_load_children rdB b ;;
          inner_pred_children (inner_combine_pred fuel) fuel ac bc
      else if n =? length ap then
        b' <- r_clone_shortened rdB b n ;;
        ac <- r_load_children rdA a ;;
        match ac with
        | Some it => any_loop (fun x => inner_combine_pred fuel x (ROwned b')) fuel it
        | None => Ok false
        end
      else if n =? length bp then
        a' <- r_clone_shortened rdA a n ;;
        bc <- r_load_children rdB b ;;
        match bc with
        | Some it => any_loop (fun y => inner_combine_pred fuel (ROwned a') y) fuel it
        | None => Ok false
        end
      else Ok false
  end.

(** [left_combine_children_pred], src/node/mod.rs:2640-2672. *)
Fixpoint left_pred_loop (rec : noderef -> noderef -> res bool) (fuel : nat) (a b : iter)
  : res bool :=
  match fuel with
  | 0 => Fuel
  | S fuel =>
      j <- oj_next a b ;;
      match j with
      | None => Ok false
      | Some (Some x, Some y, a', b') =>
          r <- rec x y ;;
          if r then Ok true else left_pred_loop rec fuel a' b'
      | Some (Some _, None, _, _) => Ok true
      | Some (_, _, a', b') => left_pred_loop rec fuel a' b'
      end
  end.

(** [left_combine_children_pred], src/node/mod.rs:2640-2672: the cases without children. *)
Definition left_pred_children (rec : noderef -> noderef -> res bool) (fuel : nat)
    (ac bc : option iter) : res bool :=
  match ac, bc with
  | Some ac, Some bc => left_pred_loop rec fuel ac bc
  | Some _, None => Ok true
  | _, _ => Ok false
  end.

(** [left_combine_pred], src/node/mod.rs:2595-2638. *)
Fixpoint left_combine_pred (fuel : nat) (a b : noderef) : res bool :=
  match fuel with
  | 0 => Fuel
  | S fuel =>
      ap <- load_prefix rdA (r_prefix a) ;;
      bp <- load_prefix rdB (r_prefix b) ;;
      let n := common_prefix ap bp in
      if (n =? length ap) && (n =? length bp) then
        hit <- (match r_value_opt a, r_value_opt b with
                | Some av, Some bv => f av bv
                | Some _, None => Ok true
                | _, _ => Ok false
                end) ;;
        if hit then Ok true
        else
          ac <- r_load_children rdA a ;;
          bc <- r_load_children rdB b ;;
          left_pred_children (left_combine_pred fuel) fuel ac bc
      else if n =? length ap then
        match r_value_opt a with
        | Some _ => Ok true
        | None =>
            ac <- r_load_children rdA a ;;
            b' <- r_clone_shortened rdB b n ;;
            left_pred_children (left_combine_pred fuel) fuel ac (it_single b')
        end
      else if n =? length bp then
        a' <- r_clone_shortened rdA a n ;;
        bc <- r_load_children rdB b ;;
        left_pred_children (left_combine_pred fuel) fuel (it_single a') bc
      else Ok true
  end.
End Predicates.

(* ------------------------------------------------------------------ *)
(** In-place operations.  The model returns the mutated node.  When an operation
    returns an error the state of the mutated tree is not modelled. *)
Section InPlace.
Context (c : converter) (f : blob -> blob -> res blob).

(** The [ac.is_empty()] loop of [outer_combine_children_with],
    src/node/mod.rs:2190-2195. *)
Fixpoint convert_loop (fuel : nat) (bc : iter) : res (list node) :=
  match fuel with
  | 0 => Fuel
  | S fuel' =>
      match it_next bc with
      | None => Ok []
      | Some (y, bc') =>
          x <- conv_node c fuel' y ;;
          xs <- convert_loop fuel' bc' ;;
          Ok (x :: xs)
      end
  end.

(** The merge loop of [outer_combine_children_with], src/node/mod.rs:2196-2219.
    The in-place builder is a source list and a target list; [consume(1, true)]
    moves one element over, [consume(1, false)] drops it, [push] appends to the
    target (inplace-vec-builder crate).  The loop ends when both sides are used
    up, so the final vector is the target. *)
Fixpoint outer_with_loop (rec : node -> noderef -> res node) (fuel : nat)
    (ac : list node) (bc : iter) : res (list node) :=
  match fuel with
  | 0 => Fuel
  | S fuel' =>
      match cmp_with ac bc with
      | None => Ok []
      | Some Lt =>
          match ac with
          | x :: ac' => rs <- outer_with_loop rec fuel' ac' bc ;; Ok (x :: rs)
          | [] => Panic
          end
      | Some Eq =>
          match ac, it_next bc with
          | x :: ac', Some (y, bc') =>
              r <- rec x y ;;
              rs <- outer_with_loop rec fuel' ac' bc' ;;
              Ok (if is_empty r then rs else r :: rs)
          | _, _ => Panic
          end
      | Some Gt =>
          match it_next bc with
          | Some (y, bc') =>
              x <- conv_node c fuel' y ;;
              rs <- outer_with_loop rec fuel' ac bc' ;;
              Ok (x :: rs)
          | None => Panic
          end
      end
  end.

(** [outer_combine_children_with], src/node/mod.rs:2174-2222. *)
Definition outer_children_with (rec : node -> noderef -> res node) (fuel : nat)
    (ac : list node) (bc : option iter) : res (list node) :=
  match bc with
  | None => Ok ac
  | Some bc =>
      match ac with
      | [] => convert_loop fuel bc
      | _ => outer_with_loop rec fuel ac bc
      end
  end.

(** [sort_by_key(first_prefix_byte)] on the two element vector built in the
    disjoint case, src/node/mod.rs:2166-2168 (stable). *)
Definition sort2 (x y : node) : list node :=
  match cmp_ob (n_first x) (n_first y) with
  | Gt => [y; x]
  | _ => [x; y]
  end.

(** [outer_combine_with], src/node/mod.rs:2121-2172. *)
Fixpoint outer_combine_with (fuel : nat) (a : node) (b : noderef) : res node :=
  match fuel with
  | 0 => Fuel
  | S fuel =>
      ap <- load_prefix rdA (n_prefix a) ;;
      bp <- load_prefix rdB (r_prefix b) ;;
      let n := common_prefix ap bp in
      if n =? length bp then
        a1 <- (if negb (n =? length ap) then split rdA a n else Ok a) ;;
        a2 <- (match r_value_opt b with
               | Some bv =>
                   match blob_opt (n_value a1) with
                   | Some av => v <- f av bv ;; Ok (set_value a1 v)
                   | None => v <- conv_value c bv ;; Ok (set_value a1 v)
                   end
               | None => Ok a1
               end) ;;
        ac <- load_children_mut rdA a2 ;;
        bc <- r_load_children rdB b ;;
        ac' <- outer_children_with (outer_combine_with fuel) fuel ac bc ;;
        canonicalize dbg (set_kids a2 (KArc ac'))
      else if n =? length ap then
        ac <- load_children_mut rdA a ;;
        b' <- r_clone_shortened rdB b n ;;
        ac' <- outer_children_with (outer_combine_with fuel) fuel ac (it_single b') ;;
        canonicalize dbg (set_kids a (KArc ac'))
      else
        a1 <- split rdA a n ;;
        ac <- load_children_mut rdA a1 ;;
        b' <- conv_node_shortened c fuel b n ;;
        canonicalize dbg
          (set_kids a1 (KArc (match ac with
                              | [x] => sort2 x b'
                              | _ => ac ++ [b']
                              end)))
  end.

(** The merge loop of [inner_combine_children_with], src/node/mod.rs:2466-2487. *)
Fixpoint inner_with_loop (rec : node -> noderef -> res node) (fuel : nat)
    (ac : list node) (bc : iter) : res (list node) :=
  match fuel with
  | 0 => Fuel
  | S fuel' =>
      match cmp_with ac bc with
      | None => Ok []
      | Some Lt =>
          match ac with
          | _ :: ac' => inner_with_loop rec fuel' ac' bc
          | [] => Panic
          end
      | Some Eq =>
          match ac, it_next bc with
          | x :: ac', Some (y, bc') =>
              r <- rec x y ;;
              rs <- inner_with_loop rec fuel' ac' bc' ;;
              Ok (if is_empty r then rs else r :: rs)
          | _, _ => Panic
          end
      | Some Gt =>
          match it_next bc with
          | Some (_, bc') => inner_with_loop rec fuel' ac bc'
          | None => Panic
          end
      end
  end.

(** [inner_combine_children_with], src/node/mod.rs:2447-2492, and
    [retain_prefix_children_with], 2821-2864 (same text up to the recursive call). *)
Definition inner_children_with (rec : node -> noderef -> res node) (fuel : nat)
    (ac : list node) (bc : option iter) : res (list node) :=
  match bc with
  | None => Ok []
  | Some bc =>
      match ac with
      | [] => Ok []
      | _ => inner_with_loop rec fuel ac bc
      end
  end.

(** [inner_combine_with], src/node/mod.rs:2398-2445.  [take_value_opt] removes
    the value of [a] also when [b] has none. *)
Fixpoint inner_combine_with (fuel : nat) (a : node) (b : noderef) : res node :=
  match fuel with
  | 0 => Fuel
  | S fuel =>
      ap <- load_prefix rdA (n_prefix a) ;;
      bp <- load_prefix rdB (r_prefix b) ;;
      let n := common_prefix ap bp in
      if (n =? length ap) && (n =? length bp) then
        a1 <- (match blob_opt (n_value a), r_value_opt b with
               | Some av, Some bv => v <- f av bv ;; Ok (set_value a v)
               | _, _ => Ok (set_value a bnone)
               end) ;;
        ac <- load_children_mut rdA a1 ;;
        bc <- r_load_children rdB b ;;
        ac' <- inner_children_with (inner_combine_with fuel) fuel ac bc ;;
        canonicalize dbg (set_kids a1 (KArc ac'))
      else if n =? length ap then
        let a1 := set_value a bnone in
        ac <- load_children_mut rdA a1 ;;
        b' <- r_clone_shortened rdB b n ;;
        ac' <- inner_children_with (inner_combine_with fuel) fuel ac (it_single b') ;;
        canonicalize dbg (set_kids a1 (KArc ac'))
      else if n =? length bp then
        a1 <- split rdA a n ;;
        ac <- load_children_mut rdA a1 ;;
        bc <- r_load_children rdB b ;;
        ac' <- inner_children_with (inner_combine_with fuel) fuel ac bc ;;
        canonicalize dbg (set_kids a1 (KArc ac'))
      else canonicalize dbg (set_kids (set_value a bnone) (KId []))
  end.

(** The merge loop of [left_combine_children_with], src/node/mod.rs:2741-2762,
    and of [remove_prefix_children_with], 2940-2961 (same text up to the
    recursive call). *)
Fixpoint left_with_loop (rec : node -> noderef -> res node) (fuel : nat)
    (ac : list node) (bc : iter) : res (list node) :=
  match fuel with
  | 0 => Fuel
  | S fuel' =>
      match cmp_with ac bc with
      | None => Ok []
      | Some Lt =>
          match ac with
          | x :: ac' => rs <- left_with_loop rec fuel' ac' bc ;; Ok (x :: rs)
          | [] => Panic
          end
      | Some Eq =>
          match ac, it_next bc with
          | x :: ac', Some (y, bc') =>
              r <- rec x y ;;
              rs <- left_with_loop rec fuel' ac' bc' ;;
              Ok (if is_empty r then rs else r :: rs)
          | _, _ => Panic
          end
      | Some Gt =>
          match it_next bc with
          | Some (_, bc') => left_with_loop rec fuel' ac bc'
          | None => Panic
          end
      end
  end.

(** [left_combine_children_with], src/node/mod.rs:2722-2765, and
    [remove_prefix_children_with], 2923-2964. *)
Definition left_children_with (rec : node -> noderef -> res node) (fuel : nat)
    (ac : list node) (bc : option iter) : res (list node) :=
  match bc with
  | None => Ok ac
  | Some bc =>
      match ac with
      | [] => Ok []
      | _ => left_with_loop rec fuel ac bc
      end
  end.

(** [left_combine_with], src/node/mod.rs:2675-2720. *)
Fixpoint left_combine_with (fuel : nat) (a : node) (b : noderef) : res node :=
  match fuel with
  | 0 => Fuel
  | S fuel =>
      ap <- load_prefix rdA (n_prefix a) ;;
      bp <- load_prefix rdB (r_prefix b) ;;
      let n := common_prefix ap bp in
      if (n =? length ap) && (n =? length bp) then
        a1 <- (match r_value_opt b with
               | Some bv =>
                   match blob_opt (n_value a) with
                   | Some av => v <- f av bv ;; Ok (set_value a v)
                   | None => Ok a
                   end
               | None => Ok a
               end) ;;
        ac <- load_children_mut rdA a1 ;;
        bc <- r_load_children rdB b ;;
        ac' <- left_children_with (left_combine_with fuel) fuel ac bc ;;
        canonicalize dbg (set_kids a1 (KArc ac'))
      else if n =? length ap then
        ac <- load_children_mut rdA a ;;
        b' <- r_clone_shortened rdB b n ;;
        ac' <- left_children_with (left_combine_with fuel) fuel ac (it_single b') ;;
        canonicalize dbg (set_kids a (KArc ac'))
      else if n =? length bp then
        a1 <- split rdA a n ;;
        ac <- load_children_mut rdA a1 ;;
        bc <- r_load_children rdB b ;;
        ac' <- left_children_with (left_combine_with fuel) fuel ac bc ;;
        canonicalize dbg (set_kids a1 (KArc ac'))
      else canonicalize dbg a
  end.
End InPlace.

Section Prefixes.
Context (f : blob -> res bool).

(** [b.value_opt().is_some() && f(&b.value_opt().unwrap())?] *)
Definition selected (v : option blob) : res bool :=
  match v with Some x => f x | None => Ok false end.

(** [retain_prefix_with], src/node/mod.rs:2771-2819. *)
Fixpoint retain_prefix_with (fuel : nat) (a : node) (b : noderef) : res node :=
  match fuel with
  | 0 => Fuel
  | S fuel =>
      ap <- load_prefix rdA (n_prefix a) ;;
      bp <- load_prefix rdB (r_prefix b) ;;
      let n := common_prefix ap bp in
      if (n =? length ap) && (n =? length bp) then
        s <- selected (r_value_opt b) ;;
        if s then canonicalize dbg a
        else
          let a1 := set_value a bnone in
          ac <- load_children_mut rdA a1 ;;
          bc <- r_load_children rdB b ;;
          ac' <- inner_children_with (retain_prefix_with fuel) fuel ac bc ;;
          canonicalize dbg (set_kids a1 (KArc ac'))
      else if n =? length bp then
        match r_value_opt b with
        | None =>
            a1 <- split rdA a n ;;
            ac <- load_children_mut rdA a1 ;;
            bc <- r_load_children rdB b ;;
            ac' <- inner_children_with (retain_prefix_with fuel) fuel ac bc ;;
            canonicalize dbg (set_kids a1 (KArc ac'))
        | Some bv =>
            s <- f bv ;;
            if s then canonicalize dbg a
            else canonicalize dbg (set_kids (set_value a bnone) (KId []))
        end
      else if n =? length ap then
        let a1 := set_value a bnone in
        ac <- load_children_mut rdA a1 ;;
        b' <- r_clone_shortened rdB b n ;;
        ac' <- inner_children_with (retain_prefix_with fuel) fuel ac (it_single b') ;;
        canonicalize dbg (set_kids a1 (KArc ac'))
      else canonicalize dbg (set_kids (set_value a bnone) (KId []))
  end.

(** [remove_prefix_with], src/node/mod.rs:2870-2921. *)
Fixpoint remove_prefix_with (fuel : nat) (a : node) (b : noderef) : res node :=
  match fuel with
  | 0 => Fuel
  | S fuel =>
      ap <- load_prefix rdA (n_prefix a) ;;
      bp <- load_prefix rdB (r_prefix b) ;;
      let n := common_prefix ap bp in
      if (n =? length ap) && (n =? length bp) then
        s <- selected (r_value_opt b) ;;
        if s then canonicalize dbg (set_kids (set_value a bnone) (KId []))
        else
          ac <- load_children_mut rdA a ;;
          bc <- r_load_children rdB b ;;
          ac' <- left_children_with (remove_prefix_with fuel) fuel ac bc ;;
          canonicalize dbg (set_kids a (KArc ac'))
      else if n =? length bp then
        s <- selected (r_value_opt b) ;;
        if s then canonicalize dbg (set_kids (set_value a bnone) (KId []))
        else
          a1 <- split rdA a n ;;
          ac <- load_children_mut rdA a1 ;;
          bc <- r_load_children rdB b ;;
          ac' <- left_children_with (remove_prefix_with fuel) fuel ac bc ;;
          canonicalize dbg (set_kids a1 (KArc ac'))
      else if n =? length ap then
        ac <- load_children_mut rdA a ;;
        b' <- r_clone_shortened rdB b n ;;
        ac' <- left_children_with (remove_prefix_with fuel) fuel ac (it_single b') ;;
        canonicalize dbg (set_kids a (KArc ac'))
      else canonicalize dbg a
  end.
End Prefixes.

End Combine.
