(** SQLite database files on the file system in the browser cache. *)
From Verif Require Import Base BaseLemmas Header Node Store U64 File Chunk WebFile WebFs WebFsSpec.
Local Open Scope N_scope.

(** [DatabaseFile::read], browser/src/vfs.rs:21-34: the bytes put into the buffer of
    [n] bytes.  [t1], [t2]: the faults of the two commands; [mid]: what other threads
    do between them.  The sum [start + n] panics when it overflows (debug builds). *)
Definition db_read (d f : bytes) (start n : N) (t1 : list bool) (mid : list event) (t2 : list bool) (s : fs)
    : res bytes * fs :=
  let (r1, s1) := fs_call (KLength d f) t1 s in
  let s2 := snd (fs_run mid s1) in
  match r1 with
  | Ok (RNum cur) =>
      if start + n <? u64_max then
        let e := N.min cur (start + n) in
        let (r2, s3) := fs_call (KRead d f start e) t2 s2 in
        (match r2 with
         | Ok (RBytes data) =>
             (* the copy of [data[..len]] *)
             if (N.to_nat (e - start) <=? length data)%nat then Ok (firstn (N.to_nat (e - start)) data) else Panic
         | Ok _ | Err => Err
         | Panic => Panic
         | Fuel => Fuel
         end, s3)
      else (Panic, s2)
  | Ok _ | Err => (Err, s2)
  | Panic => (Panic, s2)
  | Fuel => (Fuel, s2)
  end.
(** [write], [file_size], [truncate], [sync], [open], [delete], [exists],
    vfs.rs:36-55, 64-87: one command each, with an error for an error. *)
Definition db_write (d f : bytes) (start : N) (b : bytes) : cmd := KWrite d f start b.
Definition db_file_size (d f : bytes) : cmd := KLength d f.
Definition db_truncate (d f : bytes) (n : N) : cmd := KTruncate d f n.
Definition db_sync (d f : bytes) : cmd := KFlush d f.
Definition db_open (d f : bytes) : cmd := KOpenFile d f.
Definition db_delete (d f : bytes) : cmd := KDeleteFile d f.
Definition db_exists (d f : bytes) : cmd := KFileExists d f.
