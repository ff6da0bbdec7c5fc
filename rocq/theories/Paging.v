(** The paging file, which collects blobs in pages before it writes them to a file.
    Models browser/src/paging_file.rs. *)
From Verif Require Import Base BaseLemmas Header Node Store U64 File Chunk WebFile.
Local Open Scope N_scope.

(** The file below, [SyncFile], browser/src/sync_fs.rs:184-228: the operations a paging
    file uses, and opening the file again. *)
Record dev : Type := {
  dv : Type;
  dv_length : wm dv N;
  dv_read : N -> N -> wm dv bytes;
  dv_write : N -> bytes -> wm dv unit;
  dv_open : wm dv unit
}.

(** The fields of [PagingFileInner], paging_file.rs:15-26, that change; the file below
    is kept beside it.  The map from page numbers is an association list, the newest
    entry counts.  [Arc]s are plain values: [Arc::make_mut] copies a page that is
    still used by a blob. *)
Record pmem : Type := PMem { p_full : list (N * bytes); p_last : bytes; p_len : N }.
Fixpoint full_get (p : N) (m : list (N * bytes)) : option bytes :=
  match m with
  | [] => None
  | (q, d) :: m => if p =? q then Some d else full_get p m
  end.

Section Paging.
Context (D : dev) (ps : N).
(** [PagingFile]: the file and what is kept in memory, and operations on the file alone; plumbing. *)
Definition pst : Type := dv D * pmem.
Definition on_dev {A} (m : wm (dv D) A) : wm pst A := fun s =>
  let (r, d) := m (fst s) in (r, (d, snd s)).

(** [page_num], paging_file.rs:177-179: division by zero panics. *)
Definition page_num (o : N) : res N := if ps =? 0 then Panic else Ok (o / ps).
(** [page_range], paging_file.rs:182-187.  [sum_ok]: overflow panics; simplified: that
    it wraps around in a release build is not modelled. *)
Definition page_range (o : N) : res range :=
  p <- page_num o ;;
  _ <- sum_ok (p * ps) ps ;;
  Ok (p * ps, p * ps + ps).
(** [offset_within_page], paging_file.rs:189-192. *)
Definition offset_within_page (o : N) : res N :=
  r <- page_range o ;;
  if o - fst r <? usize_lim then Ok (o - fst r) else Panic.
(** [is_aligned] and [align(offset, ALIGNMENT).end], paging_file.rs:195-208. *)
Definition is_aligned (o : N) : bool := o mod 8 =? 0.
Definition align_end (o : N) : N := if is_aligned o then o else o / 8 * 8 + 8.

(** [PagingFileInner::new], paging_file.rs:29-43. *)
Definition p_new : wm (dv D) pmem :=
  n <~ dv_length D ;;
  r <~ wret (page_range n) ;;
  l <~ dv_read D (fst r) n ;;
  wret (Ok (PMem [] (l ++ repeat x00 (N.to_nat (snd r - n))) n)).

(** [close_page], paging_file.rs:48-62. *)
Definition p_close : wm pst unit := fun s =>
  let m := snd s in
  (p0 <~ wret (page_num (p_len m)) ;;
   r <~ wret (page_range (p_len m)) ;;
   _ <~ on_dev (dv_write D (fst r) (p_last m)) ;;
   p1 <~ wret (page_num (snd r)) ;;
   fun s' => (if p0 + 1 =? p1 then Ok tt else Panic,
              (fst s', PMem ((p0, p_last m) :: p_full m) (repeat x00 (length (p_last m))) (snd r)))) s.

(** [sync], paging_file.rs:64-74. *)
Definition p_sync : wm pst unit := fun s =>
  let m := snd s in
  (r <~ wret (page_range (p_len m)) ;;
   o <~ wret (offset_within_page (p_len m)) ;;
   d <~ wret (slice_to (N.to_nat o) (p_last m)) ;;
   on_dev (dv_write D (fst r) d)) s.

(** [remaining], paging_file.rs:76-78. *)
Definition p_remaining (m : pmem) : res N :=
  r <- page_range (p_len m) ;; Ok (snd r - p_len m).

(** The second half of [append], paging_file.rs:86-98. *)
Definition p_put (d : bytes) : wm pst N := fun s =>
  let m := snd s in
  (_ <~ wret (sum_ok (p_len m) 12) ;;
   let n := if is_aligned (p_len m + 4) then p_len m else align_end (p_len m + 4) - 4 in
   o <~ wret (offset_within_page n) ;;
   l <~ wret (copy_to d (p_last m) (o, o + N.of_nat (length d))) ;;
   _ <~ wret (sum_ok n (N.of_nat (length d))) ;;
   fun s' => (Ok n, (fst s', PMem (p_full m) l (n + N.of_nat (length d))))) s.

(** [append], paging_file.rs:80-99. *)
Definition p_append (d : bytes) : wm pst N := fun s =>
  let n := N.of_nat (length d) in
  (_ <~ wret (if n <=? ps then Ok tt else Err) ;;
   rem <~ wret (p_remaining (snd s)) ;;
   _ <~ (if rem <? n + 8 then p_close else wret (Ok tt)) ;;
   p_put d) s.

(** [append_length_prefixed], paging_file.rs:101-108. *)
Definition p_append_lp (d : bytes) : wm pst N :=
  if N.of_nat (length d) <? usize_lim then p_append (to_be 4 (N.of_nat (length d)) ++ d)
  else wret Panic.

(** The end of [load_length_prefixed], paging_file.rs:133-136.  The sum in the second
    check is a [usize]: its overflow panics, in a release build when the bytes are
    sliced.  Simplified: in a release build it can also be an error. *)
Definition p_frame (page : bytes) (o : N) : res bytes :=
  let len := N.of_nat (length page) in
  if negb (o + 4 <=? len) then Err else
  let n := of_be (firstn 4 (skipn (N.to_nat o) page)) in
  if usize_lim <=? o + 4 + n then Panic else
  if negb (o + 4 + n <=? len) then Err else
  Ok (firstn (N.to_nat n) (skipn (N.to_nat (o + 4)) page)).

(** [load_length_prefixed], paging_file.rs:110-137. *)
Definition p_load (start : N) : wm pst bytes := fun s =>
  let m := snd s in
  (last <~ wret (page_num (p_len m)) ;;
   p <~ wret (page_num start) ;;
   o <~ wret (offset_within_page start) ;;
   page <~ (if p =? last then
              e <~ wret (offset_within_page (p_len m)) ;;
              wret (slice_to (N.to_nat e) (p_last m))
            else match full_get p (p_full m) with
                 | Some page => wret (Ok page)
                 | None =>
                     _ <~ wret (if p <? last then Ok tt else Err) ;;
                     r <~ wret (page_range start) ;;
                     page <~ on_dev (dv_read D (fst r) (snd r)) ;;
                     fun s' => (Ok page, (fst s', PMem ((p, page) :: p_full m) (p_last m) (p_len m)))
                 end) ;;
   wret (p_frame page o)) s.
End Paging.

(** A file in the browser cache.  Simplified: no file reaches [2^63] bytes, a write
    there counts as refused. *)
Definition web_dev : dev := {|
  dv := wfile;
  dv_length := wf_length;
  dv_read := fun s e => wf_read (s, e);
  dv_write := fun o d => if o + N.of_nat (length d) <? i64_lim then wf_write o d else wret Err;
  dv_open := wf_open
|}.
