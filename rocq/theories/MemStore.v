(** The in-memory store (src/store/mem_store.rs). *)
From Verif Require Import Base Header Node Store U64.

(** [BTreeMap<u64, Arc<Vec<u8>>>] (src/store/mem_store.rs:8-10) as its list of
    entries in ascending key order. *)
Definition mem_st : Type := list (N * bytes).

Fixpoint bt_insert (k : N) (v : bytes) (m : mem_st) : mem_st :=
  match m with
  | [] => [(k, v)]
  | (k', v') :: m' =>
      match N.compare k k' with
      | Lt => (k, v) :: m
      | Eq => (k, v) :: m'
      | Gt => (k', v') :: bt_insert k v m'
      end
  end.
(** [BTreeMap::get] (standard library). *)
Fixpoint bt_get (k : N) (m : mem_st) : option bytes :=
  match m with
  | [] => None
  | (k', v) :: m' => if N.eqb k k' then Some v else bt_get k m'
  end.
(** [keys().next_back()]. *)
Definition bt_last (m : mem_st) : option N := option_map fst (hd_error (rev m)).

(** [MemStore::read], src/store/mem_store.rs:29-36. *)
Definition mem_read (m : mem_st) (id : bytes) : res bytes :=
  if length id =? 8 then
    match bt_get (of_be id) m with Some v => Ok v | None => Err end
  else Err.

(** [MemStore::write], src/store/mem_store.rs:38-45.  [max + 1] overflows [u64]
    when key [2^64 - 1] is taken: a panic with overflow checks, 0 without. *)
Definition mem_write (dbg : bool) (m : mem_st) (d : bytes) : res bytes * mem_st :=
  let max := match bt_last m with Some k => k | None => 0%N end in
  if dbg && (max + 1 =? u64_max)%N then (Panic, m)
  else
    let id := ((max + 1) mod u64_max)%N in
    (Ok (to_be 8 id), bt_insert id d m).

(** [MemStore::count], src/store/mem_store.rs:12-14. *)
Definition mem_count (m : mem_st) : nat := length m.

(** The store as used in the theorems about trees.  Simplification: the write that
    would overflow the 64 bit counter (after 2^64 - 1 blobs, which no memory can
    hold) is refused. *)
Definition mem_store : store := {|
  st := mem_st;
  st_read := mem_read;
  st_write := fun m d =>
    if (match bt_last m with Some k => k | None => 0 end + 1 =? u64_max)%N then (Err, m)
    else mem_write false m d
|}.
