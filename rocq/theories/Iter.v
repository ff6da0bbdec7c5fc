(** Searching and iterating (src/node/mod.rs:1431-1567, 1988-2009, 2966-3220). *)
From Verif Require Import Base Header Node.

(** [FindResult], src/node/mod.rs:1431-1443. *)
Inductive find_result : Type :=
| Found (r : noderef)
| Prefix (r : noderef) (matching : nat)
| NotFound.

(** What [Iterator::next] returns: nothing, an item, or an error item. *)
Inductive yielded (A : Type) : Type :=
| YDone
| YItem (a : A)
| YError.
Arguments YDone {A}.
Arguments YItem {A} a.
Arguments YError {A}.

Section WithReader.
Context (rd : reader).

(** [find], src/node/mod.rs:1449-1485; the continuation [f] is applied by the
    callers to the result. *)
Fixpoint find (fuel : nat) (t : noderef) (prefix : bytes) : res find_result :=
  match fuel with
  | 0 => Fuel
  | S fuel =>
      tp <- load_prefix rd (r_prefix t) ;;
      let n := common_prefix tp prefix in
      let rt := length tp - n in
      let rp := length prefix - n in
      if (rp =? 0) && (rt =? 0) then Ok (Found t)
      else if rp =? 0 then Ok (Prefix t n)
      else if rt =? 0 then
        match nth_error prefix n with
        | None => Panic
        | Some c =>
            ch <- r_load_children rd t ;;
            match ch with
            | None => Ok NotFound
            | Some it =>
                match it_find it c with
                | Some child => find fuel child (skipn n prefix)
                | None => Ok NotFound
                end
            end
        end
      else Ok NotFound
  end.

(** [TreeNode::contains_key], src/node/mod.rs:805-814. *)
Definition contains_key (fuel : nat) (n : node) (key : bytes) : res bool :=
  x <- find fuel (ROwned n) key ;;
  Ok (match x with
      | Found t => match r_value_opt t with Some _ => true | None => false end
      | _ => false
      end).

(** [TreeNode::has_prefix], src/node/mod.rs:817-826. *)
Definition has_prefix (fuel : nat) (n : node) (prefix : bytes) : res bool :=
  x <- find fuel (ROwned n) prefix ;;
  Ok (match x with
      | Found _ => true
      | Prefix _ _ => true
      | NotFound => false
      end).

(** [TreeNode::get], src/node/mod.rs:828-837. *)
Definition get (fuel : nat) (n : node) (key : bytes) : res (option blob) :=
  x <- find fuel (ROwned n) key ;;
  Ok (match x with
      | Found t => r_value_opt t
      | _ => None
      end).

(** [filter_prefix], src/node/mod.rs:1488-1513. *)
Definition filter_prefix (fuel : nat) (n : node) (prefix substitution : bytes) : res node :=
  x <- find fuel (ROwned n) prefix ;;
  match x with
  | Found t =>
      m <- r_to_owned t ;;
      Ok (set_prefix_slice m substitution)
  | Prefix t matching =>
      tp <- load_prefix rd (r_prefix t) ;;
      m <- r_to_owned t ;;
      rest <- slice_from matching tp ;;
      Ok (set_prefix_slice m (substitution ++ rest))
  | NotFound => Ok n_empty
  end.

(** [first_value], src/node/mod.rs:1516-1527. *)
Fixpoint first_value (fuel : nat) (t : noderef) : res (option blob) :=
  match fuel with
  | 0 => Fuel
  | S fuel =>
      match r_value_opt t with
      | Some v => Ok (Some v)
      | None =>
          ch <- r_load_children rd t ;;
          match ch with
          | None => Ok None
          | Some it =>
              match it_next it with
              | Some (c, _) => first_value fuel c
              | None => Panic
              end
          end
      end
  end.

(** [last_value], src/node/mod.rs:1530-1538. *)
Fixpoint last_value (fuel : nat) (t : noderef) : res (option blob) :=
  match fuel with
  | 0 => Fuel
  | S fuel =>
      ch <- r_load_children rd t ;;
      match ch with
      | None => Ok (r_value_opt t)
      | Some it =>
          match it_last it with
          | Some c => last_value fuel c
          | None => Panic
          end
      end
  end.

(** [first_entry], src/node/mod.rs:1541-1554. *)
Fixpoint first_entry (fuel : nat) (prefix : bytes) (t : noderef) : res (option (bytes * blob)) :=
  match fuel with
  | 0 => Fuel
  | S fuel =>
      tp <- load_prefix rd (r_prefix t) ;;
      let prefix := prefix ++ tp in
      match r_value_opt t with
      | Some v => Ok (Some (prefix, v))
      | None =>
          ch <- r_load_children rd t ;;
          match ch with
          | None => Ok None
          | Some it =>
              match it_next it with
              | Some (c, _) => first_entry fuel prefix c
              | None => Panic
              end
          end
      end
  end.

(** [last_entry], src/node/mod.rs:1557-1567. *)
Fixpoint last_entry (fuel : nat) (prefix : bytes) (t : noderef) : res (option (bytes * blob)) :=
  match fuel with
  | 0 => Fuel
  | S fuel =>
      tp <- load_prefix rd (r_prefix t) ;;
      let prefix := prefix ++ tp in
      ch <- r_load_children rd t ;;
      match ch with
      | None => Ok (option_map (fun v => (prefix, v)) (r_value_opt t))
      | Some it =>
          match it_last it with
          | Some c => last_entry fuel prefix c
          | None => Panic
          end
      end
  end.

(** [IterKey::pop], src/node/mod.rs:2985-2988. *)
Definition key_pop (k : bytes) (n : nat) : bytes := firstn (length k - n) k.

(** [ValueIter], src/node/mod.rs:3018-3021; the top of the stack is the head. *)
Definition value_iter := list iter.

(** [ValueIter::next0], src/node/mod.rs:3038-3053. *)
Fixpoint vi_next0 (fuel : nat) (stack : value_iter) : res (option blob * value_iter) :=
  match fuel with
  | 0 => Fuel
  | S fuel =>
      match stack with
      | [] => Ok (None, [])
      | it :: rest =>
          match it_next it with
          | Some (t, it') =>
              ch <- r_load_children_owned rd t ;;
              let stack' := match ch with
                            | Some c => c :: it' :: rest
                            | None => it' :: rest
                            end in
              match r_value_opt t with
              | Some v => Ok (Some v, stack')
              | None => vi_next0 fuel stack'
              end
          | None => vi_next0 fuel rest
          end
      end
  end.

(** [ValueIter::next], src/node/mod.rs:3059-3069: an error clears the stack. *)
Definition vi_next (fuel : nat) (stack : value_iter) : res (yielded blob * value_iter) :=
  match vi_next0 fuel stack with
  | Ok (Some v, s) => Ok (YItem v, s)
  | Ok (None, s) => Ok (YDone, s)
  | Err => Ok (YError, [])
  | Panic => Panic
  | Fuel => Fuel
  end.

(** [KeyValueIter], src/node/mod.rs:3076-3080. *)
Record kv_iter : Type := KV { kv_path : bytes; kv_stack : list (nat * option iter) }.

(** [KeyValueIter::next0], src/node/mod.rs:3099-3123. *)
Fixpoint kv_next0 (fuel : nat) (s : kv_iter) : res (option (bytes * blob) * kv_iter) :=
  match fuel with
  | 0 => Fuel
  | S fuel =>
      match kv_stack s with
      | [] => Ok (None, s)
      | (len, Some it) :: rest =>
          match it_next it with
          | Some (t, it') =>
              p <- load_prefix rd (r_prefix t) ;;
              ch <- r_load_children_owned rd t ;;
              let s' := KV (kv_path s ++ p) ((length p, ch) :: (len, Some it') :: rest) in
              match r_value_opt t with
              | Some v => Ok (Some (kv_path s', v), s')
              | None => kv_next0 fuel s'
              end
          | None => kv_next0 fuel (KV (kv_path s) ((len, None) :: rest))
          end
      | (len, None) :: rest => kv_next0 fuel (KV (key_pop (kv_path s) len) rest)
      end
  end.

(** [KeyValueIter::next], src/node/mod.rs:3129-3139. *)
Definition kv_next (fuel : nat) (s : kv_iter) : res (yielded (bytes * blob) * kv_iter) :=
  match kv_next0 fuel s with
  | Ok (Some x, s') => Ok (YItem x, s')
  | Ok (None, s') => Ok (YDone, s')
  | Err => Ok (YError, KV (kv_path s) [])
  | Panic => Panic
  | Fuel => Fuel
  end.

(** [GroupBy], src/node/mod.rs:3142-3147, has the same state as [KeyValueIter].
    [descend] is the user's predicate on the path and the node. *)
Context (descend : bytes -> noderef -> res bool).

(** [GroupBy::next0], src/node/mod.rs:3159-3201. *)
Fixpoint gb_next0 (fuel : nat) (s : kv_iter) : res (option node * kv_iter) :=
  match fuel with
  | 0 => Fuel
  | S fuel =>
      match kv_stack s with
      | [] => Ok (None, s)
      | (len, Some it) :: rest =>
          match it_next it with
          | Some (t, it') =>
              p <- load_prefix rd (r_prefix t) ;;
              let path := kv_path s ++ p in
              d <- descend path t ;;
              if d then
                ch <- r_load_children_owned rd t ;;
                let s' := KV path ((length p, ch) :: (len, Some it') :: rest) in
                match r_value_opt t with
                | Some _ =>
                    n <- r_to_owned t ;;
                    Ok (Some (set_kids (set_prefix_slice n path) (KId [])), s')
                | None => gb_next0 fuel s'
                end
              else
                n <- r_to_owned t ;;
                Ok (Some (set_prefix_slice n path),
                    KV (key_pop path (length p)) ((len, Some it') :: rest))
          | None => gb_next0 fuel (KV (kv_path s) ((len, None) :: rest))
          end
      | (len, None) :: rest => gb_next0 fuel (KV (key_pop (kv_path s) len) rest)
      end
  end.

(** [GroupBy::next], src/node/mod.rs:3209-3219. *)
Definition gb_next (fuel : nat) (s : kv_iter) : res (yielded node * kv_iter) :=
  match gb_next0 fuel s with
  | Ok (Some x, s') => Ok (YItem x, s')
  | Ok (None, s') => Ok (YDone, s')
  | Err => Ok (YError, KV (kv_path s) [])
  | Panic => Panic
  | Fuel => Fuel
  end.

End WithReader.

(** Drive an iterator to its end, collecting the items; an error item stops with
    [Err] (this is [collect::<Result<Vec<_>, _>>()]). *)
Fixpoint collect {S A : Type} (next : nat -> S -> res (yielded A * S)) (fuel : nat) (s : S)
  : res (list A) :=
  match fuel with
  | 0 => Fuel
  | S fuel' =>
      '(y, s') <- next fuel' s ;;
      match y with
      | YDone => Ok []
      | YItem a => l <- collect next fuel' s' ;; Ok (a :: l)
      | YError => Err
      end
  end.

(** [scan_prefix], src/node/mod.rs:1988-2009. *)
Definition scan_prefix (rd : reader) (fuel : nat) (n : node) (prefix : bytes) : res kv_iter :=
  x <- find rd fuel (ROwned n) prefix ;;
  match x with
  | Found t =>
      m <- r_to_owned t ;;
      Ok (KV prefix [(0, Some (IOwned [m]))])
  | Prefix t matching =>
      m <- r_to_owned t ;;
      p <- slice_to (length prefix - matching) prefix ;;
      Ok (KV p [(0, Some (IOwned [m]))])
  | NotFound => Ok (KV [] [])
  end.
