(** Blobs: slices of bytes that keep the memory below them alive.
    Models src/store/blob_store.rs:33-217. *)
From Verif Require Import Base BaseLemmas.
Local Open Scope N_scope.

(** The end of a call. *)
Inductive out (A : Type) : Type := Good (a : A) | Panics | Undefined.
Arguments Good {A}. Arguments Panics {A}. Arguments Undefined {A}.

(** A piece of memory at an address.  [r_refs]: how many [Arc]s own it, [Some 0] if it
    was freed; [None]: not owned, it lives as long as the blobs that point to it, which
    the borrow checker sees to. *)
Record region : Type := Region { r_base : N; r_data : bytes; r_refs : option nat }.
(** [Blob], blob_store.rs:37-40.  [b_at]: region, offset and length of the data; [None]
    is the empty static slice.  [b_owner]: the region that the [Arc] keeps alive.
    Simplified: only owners that are the memory itself, as the constructors of this
    file make them; [owned_new] with another owner is a promise by the caller. *)
Record blob : Type := Blob { b_at : option (nat * nat * nat); b_owner : option nat }.
Definition mem : Type := list region.

Definition region_of (m : mem) (r : nat) : out region :=
  match nth_error m r with
  | Some g => match r_refs g with Some O => Undefined | _ => Good g end
  | None => Undefined
  end.
(** [as_ref], blob_store.rs:45-49: reading memory that was freed is undefined. *)
Definition b_read (m : mem) (b : blob) : out bytes :=
  match b_at b with
  | None => Good []
  | Some (r, o, n) =>
      match region_of m r with
      | Good g => if (o + n <=? length (r_data g))%nat then Good (firstn n (skipn o (r_data g))) else Undefined
      | Panics => Panics
      | Undefined => Undefined
      end
  end.
(** [as_ptr]. *)
Definition b_ptr (m : mem) (b : blob) : out N :=
  match b_at b with
  | None => Good 1
  | Some (r, o, n) =>
      match region_of m r with
      | Good g => Good (r_base g + N.of_nat o)
      | Panics => Panics
      | Undefined => Undefined
      end
  end.
(** The length of a blob. *)
Definition b_length (b : blob) : nat := match b_at b with None => 0 | Some (_, _, n) => n end.

Fixpoint set_nth {A} (n : nat) (x : A) (l : list A) : list A :=
  match l, n with
  | [], _ => []
  | _ :: l, O => x :: l
  | y :: l, S n => y :: set_nth n x l
  end.
(** The region with another number of references; part of [own] and [disown] below. *)
Definition set_refs (g : region) (k : nat) : region := Region (r_base g) (r_data g) (Some k).
(** [Arc::clone] and dropping an [Arc], on the owner of a blob. *)
Definition own (m : mem) (o : option nat) : out mem :=
  match o with
  | None => Good m
  | Some r =>
      match nth_error m r with
      | Some g => match r_refs g with Some (S k) => Good (set_nth r (set_refs g (S (S k))) m) | _ => Undefined end
      | None => Undefined
      end
  end.
Definition disown (m : mem) (o : option nat) : out mem :=
  match o with
  | None => Good m
  | Some r =>
      match nth_error m r with
      | Some g => match r_refs g with Some (S k) => Good (set_nth r (set_refs g k) m) | _ => Undefined end
      | None => Undefined
      end
  end.

(** [Bound] and [usize], 64 bits. *)
Inductive bound : Type := Included (n : N) | Excluded (n : N) | Unbounded.
Definition usize_max : N := 18446744073709551615.

(** [slice], blob_store.rs:127-163.  In a debug build [n + 1] panics when it overflows,
    in a release build it wraps around. *)
Definition slice_begin (dbg : bool) (b : bound) : out N :=
  match b with
  | Included n => Good n
  | Excluded n => if n <? usize_max then Good (n + 1) else if dbg then Panics else Good 0
  | Unbounded => Good 0
  end.
Definition slice_end (len : N) (b : bound) : out N :=
  match b with
  | Included n => if n <? usize_max then Good (n + 1) else Panics
  | Excluded n => Good n
  | Unbounded => Good len
  end.
Definition b_slice (dbg : bool) (m : mem) (b : blob) (lo hi : bound) : out (blob * mem) :=
  let len := N.of_nat (b_length b) in
  match slice_begin dbg lo with
  | Good s =>
      match slice_end len hi with
      | Good e =>
          if negb (s <=? e) then Panics else
          if negb (e <=? len) then Panics else
          if e =? s then Good (Blob None None, m) else
          match b_at b with
          | None => Panics (* [data[s..e]] of an empty slice *)
          | Some (r, o, n) =>
              match own m (b_owner b) with
              | Good m => Good (Blob (Some (r, (o + N.to_nat s)%nat, N.to_nat (e - s))) (b_owner b), m)
              | Panics => Panics
              | Undefined => Undefined
              end
          end
      | Panics => Panics
      | Undefined => Undefined
      end
  | Panics => Panics
  | Undefined => Undefined
  end.
(** [slice_ref], blob_store.rs:166-197, for a subset of [n] bytes at the address [p].
    The sums of addresses can not overflow: memory ends below [2^64]. *)
Definition b_slice_ref (dbg : bool) (m : mem) (b : blob) (p : N) (n : nat) : out (blob * mem) :=
  if (n =? 0)%nat then Good (Blob None None, m) else
  match b_ptr m b with
  | Good q =>
      if negb (q <=? p) then Panics else
      if negb (p + N.of_nat n <=? q + N.of_nat (b_length b)) then Panics else
      b_slice dbg m b (Included (p - q)) (Excluded (p - q + N.of_nat n))
  | Panics => Panics
  | Undefined => Undefined
  end.

(** ** Programs

    The live blobs are numbered in the order they are made; [None]: dropped. *)
Inductive bcall : Type :=
| BVec (base : N) (d : bytes)        (* from_arc_vec, copy_from_slice and From, blob_store.rs:103-112, 200-217 *)
| BBorrow (base : N) (d : bytes)     (* new, blob_store.rs:99-101 *)
| BClone (i : nat)                   (* derive(Clone), blob_store.rs:36 *)
| BSlice (i : nat) (lo hi : bound)
| BSliceRef (i j a n : nat)          (* blob i, subset: the bytes [a..a+n] of blob j *)
| BOwned (i : nat) (base : N)        (* to_owned, blob_store.rs:114-123; consumes the blob *)
| BDrop (i : nat).
Record bstate : Type := BState { bs_mem : mem; bs_blobs : list (option blob) }.
(** The blob in a variable of a program. *)
Definition blob_no (s : bstate) (i : nat) : option blob :=
  match nth_error (bs_blobs s) i with Some (Some b) => Some b | _ => None end.
Definition push (r : out (blob * mem)) (s : bstate) : out unit * bstate :=
  match r with
  | Good (b, m) => (Good tt, BState m (bs_blobs s ++ [Some b]))
  | Panics => (Panics, s)
  | Undefined => (Undefined, s)
  end.
Definition alloc (base : N) (d : bytes) (refs : option nat) (s : bstate) : bstate :=
  let r := length (bs_mem s) in
  BState (bs_mem s ++ [Region base d refs])
    (bs_blobs s ++ [Some (Blob (Some (r, 0%nat, length d)) (match refs with Some _ => Some r | None => None end))]).
Definition b_drop (i : nat) (b : blob) (s : bstate) : out unit * bstate :=
  match disown (bs_mem s) (b_owner b) with
  | Good m => (Good tt, BState m (set_nth i None (bs_blobs s)))
  | Panics => (Panics, s)
  | Undefined => (Undefined, s)
  end.
(** A call on a blob that does not exist is not a program: it is undefined here. *)
Definition bstep (dbg : bool) (c : bcall) (s : bstate) : out unit * bstate :=
  match c with
  | BVec base d => (Good tt, alloc base d (Some 1%nat) s)
  | BBorrow base d => (Good tt, alloc base d None s)
  | BClone i =>
      match blob_no s i with
      | Some b => push (match own (bs_mem s) (b_owner b) with Good m => Good (b, m) | Panics => Panics | Undefined => Undefined end) s
      | None => (Undefined, s)
      end
  | BSlice i lo hi =>
      match blob_no s i with
      | Some b => push (b_slice dbg (bs_mem s) b lo hi) s
      | None => (Undefined, s)
      end
  | BSliceRef i j a n =>
      match blob_no s i, blob_no s j with
      | Some b, Some c =>
          (* the caller slices the bytes of blob j *)
          if (a + n <=? b_length c)%nat then
            match b_ptr (bs_mem s) c with
            | Good p => push (b_slice_ref dbg (bs_mem s) b (p + N.of_nat a) n) s
            | Panics => (Panics, s)
            | Undefined => (Undefined, s)
            end
          else (Panics, s)
      | _, _ => (Undefined, s)
      end
  | BOwned i base =>
      match blob_no s i with
      | Some b =>
          match b_owner b with
          | Some _ => (Good tt, BState (bs_mem s) (set_nth i None (bs_blobs s) ++ [Some b]))
          | None =>
              match b_read (bs_mem s) b with
              | Good d => (Good tt, alloc base d (Some 1%nat) (BState (bs_mem s) (set_nth i None (bs_blobs s))))
              | Panics => (Panics, s)
              | Undefined => (Undefined, s)
              end
          end
      | None => (Undefined, s)
      end
  | BDrop i =>
      match blob_no s i with
      | Some b => b_drop i b s
      | None => (Undefined, s)
      end
  end.
Fixpoint brun (dbg : bool) (cs : list bcall) (s : bstate) : list (out unit) * bstate :=
  match cs with
  | [] => ([], s)
  | c :: cs => let (r, s) := bstep dbg c s in
               let (rs, s) := brun dbg cs s in (r :: rs, s)
  end.
