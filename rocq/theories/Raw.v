(** Nodes in a buffer, at the level of addresses: borrowed nodes are raw pointers into the block they were read from
    (src/node/mod.rs:385-440, 1142-1331, 1836-1919).  Node.v has the same functions on byte strings. *)
From Verif Require Import Base Header Node.

(** Memory: the bytes at the addresses that may be read.  Reading anything else is undefined behaviour.  Addresses and
    sizes are natural numbers here (a block does not wrap around the address space). *)
Definition memory : Type := nat -> option byte.

(** Results: a value, undefined behaviour, or a panic. *)
Inductive raw (A : Type) : Type := Val (a : A) | Undef | Crash.
Arguments Val {A}. Arguments Undef {A}. Arguments Crash {A}.
(** Sequencing; plumbing. *)
Definition rbind {A B} (x : raw A) (f : A -> raw B) : raw B :=
  match x with Val a => f a | Undef => Undef | Crash => Crash end.
Notation "x <~ c ;; d" := (rbind c (fun x => d)) (at level 61, c at next level, right associativity).

(** Reading [n] bytes at [a]. *)
Fixpoint fetch (m : memory) (a n : nat) : raw bytes :=
  match n with
  | 0 => Val []
  | S n =>
      match m a with
      | None => Undef
      | Some b => rest <~ fetch m (S a) n ;; Val (b :: rest)
      end
  end.

(** [&[u8]]: address and length. *)
Record slice : Type := Slice { s_at : nat; s_len : nat }.
(** [s[n..]], panics if [n] is too large. *)
Definition s_from (s : slice) (n : nat) : raw slice :=
  if n <=? s_len s then Val (Slice (s_at s + n) (s_len s - n)) else Crash.
(** [s.first()]. *)
Definition s_first (m : memory) (s : slice) : raw (option byte) :=
  match s_len s with
  | 0 => Val None
  | S _ => match m (s_at s) with Some b => Val (Some b) | None => Undef end
  end.

(** [BorrowedBlobRef]: a header and the address of the header byte, src/node/mod.rs:384-388.  [bytes], 420-422, makes a
    slice from the address and the length in the header without any check. *)
Record rblob : Type := RBlob { rb_hdr : byte; rb_at : nat }.
Definition rb_bytes (m : memory) (b : rblob) : raw bytes := fetch m (rb_at b) (hdr_len (rb_hdr b) + 1).
(** [slice], src/node/mod.rs:424-426. *)
Definition rb_slice (m : memory) (b : rblob) : raw bytes :=
  x <~ rb_bytes m b ;; match x with [] => Crash | _ :: y => Val y end.
(** [read], src/node/mod.rs:429-435. *)
Definition rb_read (m : memory) (b : rblob) : raw blob :=
  x <~ rb_slice m b ;; Val (if hdr_is_id (rb_hdr b) then Id x else Data x).

(** [BorrowedTreeNode], src/node/mod.rs:1148-1160. *)
Record rnode : Type := RNode { rn_prefix : rblob; rn_value : rblob; rn_children : rblob }.
(** [bytes_len], src/node/mod.rs:1255-1257. *)
Definition rn_len (n : rnode) : nat :=
  hdr_len (rb_hdr (rn_prefix n)) + hdr_len (rb_hdr (rn_value n)) + hdr_len (rb_hdr (rn_children n)) + 3.
(** [first_prefix_byte], src/node/mod.rs:1239-1241. *)
Definition rn_first (m : memory) (n : rnode) : raw (option byte) :=
  x <~ rb_slice m (rn_prefix n) ;; Val (hd_error x).
(** Reading all of a borrowed node ([prefix_ref], [value_ref], [children_ref] and [read], 1243-1253). *)
Definition rn_read (m : memory) (n : rnode) : raw bnode :=
  p <~ rb_read m (rn_prefix n) ;; v <~ rb_read m (rn_value n) ;; c <~ rb_read m (rn_children n) ;; Val (BNode p v c).

(** One field in [read_one], src/node/mod.rs:1297-1302: header byte, length check, [&rest[0]] and [&rest[len..]]. *)
Definition raw_field (m : memory) (rest : slice) : raw (option (rblob * slice)) :=
  h <~ s_first m rest ;;
  match h with
  | None => Val None
  | Some h =>
      let len := hdr_len h + 1 in
      if s_len rest <? len then Val None
      else s <~ s_from rest len ;; Val (Some (RBlob h (s_at rest), s))
  end.
(** [read_one], src/node/mod.rs:1296-1331. *)
Definition raw_read_one (m : memory) (rest : slice) : raw (option (rnode * slice)) :=
  x <~ raw_field m rest ;;
  match x with
  | None => Val None
  | Some (p, rest) =>
      x <~ raw_field m rest ;;
      match x with
      | None => Val None
      | Some (v, rest) =>
          x <~ raw_field m rest ;;
          match x with
          | None => Val None
          | Some (c, rest) => Val (Some (RNode p v c, rest))
          end
      end
  end.

(** [BorrowedTreeNodeIter], src/node/mod.rs:1836-1841 (without the record size, which nothing depends on). *)
Record riter : Type := RIter { ri_data : slice; ri_off : nat }.
(** [next], src/node/mod.rs:1896-1903. *)
Definition ri_next (m : memory) (it : riter) : raw (option rnode * riter) :=
  s <~ s_from (ri_data it) (ri_off it) ;;
  x <~ raw_read_one m s ;;
  match x with
  | Some (n, _) => Val (Some n, RIter (ri_data it) (ri_off it + rn_len n))
  | None => Val (None, it)
  end.
(** [first_prefix_byte_opt], src/node/mod.rs:1892-1894. *)
Definition ri_first (m : memory) (it : riter) : raw (option (option byte)) :=
  s <~ s_from (ri_data it) (ri_off it) ;;
  x <~ raw_read_one m s ;;
  match x with
  | Some (n, _) => b <~ rn_first m n ;; Val (Some b)
  | None => Val None
  end.
(** [find], src/node/mod.rs:1875-1890.  Every round passes at least three bytes; the theorems exclude that the fuel runs
    out, which is counted as undefined. *)
Fixpoint ri_find (m : memory) (data : slice) (fuel off : nat) (c : byte) : raw (option rnode) :=
  match fuel with
  | 0 => Undef
  | S fuel =>
      s <~ s_from data off ;;
      x <~ raw_read_one m s ;;
      match x with
      | None => Val None
      | Some (n, _) =>
          b <~ rn_first m n ;;
          match cmp_ob b (Some c) with
          | Lt => ri_find m data fuel (off + rn_len n) c
          | Eq => Val (Some n)
          | Gt => Val None
          end
      end
  end.
(** [last], src/node/mod.rs:1905-1918. *)
Fixpoint ri_last (m : memory) (data : slice) (fuel off : nat) (last : option rnode) : raw (option rnode) :=
  match fuel with
  | 0 => Undef
  | S fuel =>
      if off <? s_len data then
        s <~ s_from data off ;;
        x <~ raw_read_one m s ;;
        match x with
        | Some (n, _) => ri_last m data fuel (off + rn_len n) (Some n)
        | None => Val last
        end
      else Val last
  end.

(** [TreeNode::deserialize], src/node/mod.rs:761-768, with [to_owned] of the node, 1206-1212: what is copied out of the
    block. *)
Definition raw_deserialize (m : memory) (s : slice) : raw (res node) :=
  x <~ raw_read_one m s ;;
  match x with
  | Some (n, rest) =>
      if s_len rest =? 0 then b <~ rn_read m n ;; Val (b_to_owned b) else Val Err
  | None => Val Err
  end.
