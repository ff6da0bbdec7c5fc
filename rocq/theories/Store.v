(** Blob stores and the writing of trees to them. *)
From Verif Require Import Base Header Node.

(** [BlobStore], src/store/blob_store.rs:11-30.  The methods take [&self] and use
    interior mutability; the state is explicit here.  [st_write] returns the
    outcome of the call (the id) and the state afterwards.  [sync] and
    [needs_deep_detach] are not part of the record. *)
Record store : Type := Store {
  st : Type;
  st_read : st -> reader;
  st_write : st -> bytes -> res bytes * st
}.

(** Computations that write to the store: outcome and new state.  After an error
    or a panic the state is the one reached so far. *)
Definition wm (X A : Type) : Type := X -> res A * X.
Definition wret {X A} (r : res A) : wm X A := fun s => (r, s).
Definition wbind {X A B} (m : wm X A) (k : A -> wm X B) : wm X B := fun s =>
  match m s with
  | (Ok a, s') => k a s'
  | (Err, s') => (Err, s')
  | (Panic, s') => (Panic, s')
  | (Fuel, s') => (Fuel, s')
  end.
Notation "x <~ e ;; k" := (wbind e (fun x => k))
  (at level 61, e at next level, right associativity).

(** The header byte of a blob field, as set by [set_prefix_slice],
    [set_value_slice], [set_children_id] and the borrowed setters,
    src/node/mod.rs:993-1068; see the comment at [blob]. *)
Definition blob_hdr (b : blob) : byte :=
  match b with
  | Data x => hdr_data (length x)
  | Id x => byte_of (N.lor (N.of_nat (length x)) 128)
  end.

(** [record_size.try_into().unwrap_or_default()], src/node/mod.rs:789: a [usize]
    that does not fit into a byte becomes 0. *)
Definition u8_or_0 (n : nat) : byte := if n <=? 255 then byte_of (N.of_nat n) else x00.

(** The record size kept by the loop at src/node/mod.rs:778-786 after seeing a
    record of length [len]; [None] stands for [usize::max_value()]. *)
Definition record_step (rs : option nat) (len : nat) : option nat :=
  match rs with
  | Some 0 => Some len
  | Some r => if r =? len then Some r else None
  | None => None
  end.
Definition record_byte (rs : option nat) : byte :=
  match rs with Some r => u8_or_0 r | None => x00 end.

Section Serialize.
Context (S : store).
Notation wm := (wm (st S)).

(** [BlobStore::write], src/store/blob_store.rs:22. *)
Definition w_write (d : bytes) : wm bytes := fun s => st_write S s d.

(** [OwnedBlobRef::serialize], src/node/mod.rs:363-381; gives the bytes that are
    appended to [target].  [n] is at most 1 and the slice is not empty. *)
Definition ser_blob (n : nat) (b : blob) : wm bytes :=
  let slice := blob_slice b in
  if blob_is_id b || (length slice <? 128) then wret (Ok (blob_hdr b :: slice))
  else
    id <~ w_write slice ;;
    h <~ wret (hdr_id (length id + n)) ;;
    wret (Ok (h :: firstn n slice ++ id)).

(** [TreeNode::serialize], src/node/mod.rs:770-802; gives the bytes that are
    appended to [target] ([try_attached] and [try_reattach] start with an empty
    one and drop it on errors).  The inner [sers] is the loop over the
    children, which also computes the record size. *)
Fixpoint serialize (n : node) : wm bytes :=
  match n with
  | Node p v k =>
      pb <~ ser_blob 1 p ;;
      vb <~ ser_blob 0 v ;;
      kb <~ (match k with
             | KArc (c :: cs) =>
                 x <~ (fix sers (rs : option nat) (l : list node) : wm (bytes * option nat) :=
                         match l with
                         | [] => wret (Ok ([], rs))
                         | c :: l' =>
                             b <~ serialize c ;;
                             r <~ sers (record_step rs (length b)) l' ;;
                             wret (Ok (b ++ fst r, snd r))
                         end) (Some 0) (c :: cs) ;;
                 id <~ w_write (fst x) ;;
                 h <~ wret (hdr_id (length id + 1)) ;;
                 wret (Ok (h :: record_byte (snd x) :: id))
             | KArc [] => wret (Ok [hdr_none])
             | KId id => wret (Ok (blob_hdr (Id id) :: id))
             end) ;;
      wret (Ok (pb ++ vb ++ kb))
  end.

(** [try_attached], src/node/mod.rs:691-695, 3404-3412: [unwrap] on the result of
    [deserialize]. *)
Definition t_attached (t : node) : wm node :=
  data <~ serialize t ;;
  wret (match deserialize data with Err => Panic | r => r end).

(** [try_reattach], src/node/mod.rs:3813-3819: the id and the new root node.  On
    an error the tree keeps its node (the assignment comes last). *)
Definition t_reattach (t : node) : wm (bytes * node) :=
  data <~ serialize t ;;
  id <~ w_write data ;;
  t' <~ wret (deserialize data) ;;
  wret (Ok (id, t')).

(** [try_load], src/node/mod.rs:3420-3428. *)
Definition t_load (s : st S) (id : option bytes) : res node :=
  match id with
  | Some id => data <- st_read S s id ;; deserialize data
  | None => Ok n_empty
  end.
End Serialize.
