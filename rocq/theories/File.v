(** Files and [u64] arithmetic, as used by the paged file store.

    This models the operating system and the Rust standard library, not code in
    /repo: [std::fs::File] with its cursor, and I/O faults. *)
From Verif Require Import Base BaseLemmas Header Node Store U64.
Local Open Scope N_scope.

(** The contents of a file: its length and its bytes.  Bytes at or after the
    length are never looked at. *)
Record file : Type := File { f_len : N; f_at : N -> byte }.

(** The [n] bytes from [pos]. *)
Definition f_read (f : file) (pos : N) (n : nat) : bytes :=
  map (fun i => f_at f (pos + N.of_nat i)) (seq 0 n).
(** Overwrite from [pos]; a gap is filled with zeros. *)
Definition f_write (f : file) (pos : N) (d : bytes) : file :=
  File (N.max (f_len f) (pos + N.of_nat (length d)))
    (fun i => if (pos <=? i) && (i <? pos + N.of_nat (length d)) then nth (N.to_nat (i - pos)) d x00
              else if i <? f_len f then f_at f i else x00).
(** [set_len]: cut off, or extend with zeros. *)
Definition f_set_len (f : file) (n : N) : file :=
  File n (fun i => if i <? f_len f then f_at f i else x00).

(** An open file: contents and cursor.  [h_fault = Some (n, k)] means that the next
    [n] operations succeed, and the one after fails with an I/O error; if that one
    is a write, its first [k] bytes are written.  [None]: no operation fails. *)
Record fh : Type := FH { h_file : file; h_pos : N; h_fault : option (nat * nat) }.

Definition tick (h : fh) : option nat * fh :=
  match h_fault h with
  | None => (None, h)
  | Some (0%nat, k) => (Some k, h)
  | Some (S n, k) => (None, FH (h_file h) (h_pos h) (Some (n, k)))
  end.
Definition with_tick {A} (bad : nat -> fh -> fh) (m : wm fh A) : wm fh A := fun h =>
  match tick h with
  | (None, h') => m h'
  | (Some k, h') => (Err, bad k h')
  end.
Definition no_change (k : nat) (h : fh) : fh := h.

(** Files are smaller than this. *)
Definition max_file : N := 9223372036854775808. (* 2^63 *)
(** [seek(SeekFrom::Start(n))]; offsets from [2^63] on are refused. *)
Definition h_seek (n : N) : wm fh unit := with_tick no_change (fun h =>
  if n <? max_file then (Ok tt, FH (h_file h) n (h_fault h)) else (Err, h)).
(** [seek(SeekFrom::End(0))]: returns the new position. *)
Definition h_seek_end : wm fh N := with_tick no_change (fun h =>
  (Ok (f_len (h_file h)), FH (h_file h) (f_len (h_file h)) (h_fault h))).
(** [stream_position()]. *)
Definition h_position : wm fh N := with_tick no_change (fun h => (Ok (h_pos h), h)).
(** [read_exact] into a buffer of [n] bytes: fails at the end of the file. *)
Definition h_read (n : nat) : wm fh bytes := with_tick no_change (fun h =>
  if h_pos h + N.of_nat n <=? f_len (h_file h)
  then (Ok (f_read (h_file h) (h_pos h) n), FH (h_file h) (h_pos h + N.of_nat n) (h_fault h))
  else (Err, h)).
Definition put (d : bytes) (h : fh) : fh :=
  FH (f_write (h_file h) (h_pos h) d) (h_pos h + N.of_nat (length d)) (h_fault h).
(** [write_all]; when it fails a part may have been written.  At the maximal file
    size it fails as well. *)
Definition h_write (d : bytes) : wm fh unit :=
  let part k h := put (firstn (N.to_nat (N.min (N.of_nat k) (max_file - 1 - h_pos h))) d) h in
  with_tick part (fun h =>
    if h_pos h + N.of_nat (length d) <? max_file then (Ok tt, put d h) else (Err, part (length d) h)).
(** [write_all] of a few bytes inside one disk block: all or nothing. *)
Definition h_write_atomic (d : bytes) : wm fh unit :=
  with_tick (fun k h => if (length d <=? k)%nat then put d h else h) (fun h => (Ok tt, put d h)).
(** [set_len]: all or nothing, the cursor stays. *)
Definition h_set_len (n : N) : wm fh unit := fun h =>
  if n <? max_file then
    with_tick (fun k h => if (1 <=? k)%nat then FH (f_set_len (h_file h) n) (h_pos h) (h_fault h) else h)
      (fun h => (Ok tt, FH (f_set_len (h_file h) n) (h_pos h) (h_fault h))) h
  else (Err, h).
(** An operation without effect on the contents that can fail: [flush], [mmap]. *)
Definition h_nop : wm fh unit := with_tick no_change (fun h => (Ok tt, h)).

(** [u64] arithmetic: overflow panics in a debug build and wraps in a release
    build; division by zero panics. *)
Section U64.
Context (dbg : bool).
Definition u_add (a b : N) : res N :=
  if a + b <? u64_max then Ok (a + b) else if dbg then Panic else Ok ((a + b) mod u64_max).
Definition u_sub (a b : N) : res N :=
  if b <=? a then Ok (a - b) else if dbg then Panic else Ok (a + u64_max - b).
Definition u_mul (a b : N) : res N :=
  if a * b <? u64_max then Ok (a * b) else if dbg then Panic else Ok ((a * b) mod u64_max).
Definition u_div (a b : N) : res N := if b =? 0 then Panic else Ok (a / b).
Definition u_mod (a b : N) : res N := if b =? 0 then Panic else Ok (a mod b).
End U64.
