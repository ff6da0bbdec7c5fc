(** The paged file store (src/store/paged_file_store.rs).

    Not modelled: the [Debug] implementations.  All calls take the mutex for their
    whole duration (lines 263, 278, 282), so they are atomic here.  [usize] is 64
    bits.  An [OwnedBlob] is its bytes.  A memory map of a page is a view of the
    file, so only the numbers of the mapped pages are kept; reading beyond the end
    of the file through a map kills the process, which is [Panic] here. *)
From Verif Require Import Base BaseLemmas Header Node Store U64 File.
Local Open Scope N_scope.

(** [Inner], src/store/paged_file_store.rs:30-36.  The maps are association lists
    (the first entry counts); the page size is a parameter. *)
Record inner : Type := Inner { i_fh : fh; i_pages : list N; i_recent : list (N * bytes); i_last : N }.

Definition HEADER : N := 4096. (* line 39 *)

Section PagedFile.
Context (dbg : bool) (ps : N).

(** Operations on the file inside the store, and results without effect; plumbing. *)
Definition lift {A} (m : wm fh A) : wm inner A := fun s =>
  let (r, h) := m (i_fh s) in (r, Inner h (i_pages s) (i_recent s) (i_last s)).
Definition pure {X A} (r : res A) : wm X A := wret r.

(** [page], [offset_within_page], [offset_of_page], lines 94-104. *)
Definition page (offset : N) : res N := u_div offset ps.
Definition offset_within_page (offset : N) : res N := u_mod offset ps.
Definition offset_of_page (p : N) : res N := x <- u_mul dbg p ps ;; u_add dbg x HEADER.

(** [read_size], lines 106-112. *)
Definition read_size : wm fh N :=
  _ <~ h_seek 16 ;; b <~ h_read 8 ;; _ <~ h_seek_end ;; wret (Ok (of_be b)).
(** [write_size], lines 114-119.  The eight bytes are inside one disk block. *)
Definition write_size (n : N) : wm fh unit :=
  _ <~ h_seek 16 ;; _ <~ h_write_atomic (to_be 8 n) ;; _ <~ h_seek_end ;; wret (Ok tt).

(** [Inner::new], lines 122-143. *)
Definition open : wm fh inner :=
  if negb (ps mod 8 =? 0) then wret Err
  else
    end_ <~ h_seek_end ;;
    _ <~ (if end_ =? 0 then _ <~ h_set_len HEADER ;; h_seek_end
          else if end_ <? HEADER then wret Err else wret (Ok 0)) ;;
    size <~ read_size ;;
    n <~ pure (u_add dbg size HEADER) ;;
    _ <~ h_set_len n ;;
    _ <~ h_seek_end ;;
    fun h => (Ok (Inner h [] [] size), h).

(** [load_page], lines 145-156: [mmap] of a range that need not exist yet. *)
Definition load_page (p : N) : wm inner unit :=
  _ <~ pure (offset_of_page p) ;;
  _ <~ lift h_nop ;;
  fun s => (Ok tt, Inner (i_fh s) (p :: i_pages s) (i_recent s) (i_last s)).

(** [load_recent], lines 158-173. *)
Definition load_recent (id : N) : wm inner unit :=
  if id <? 4 then wret Err
  else
    a <~ pure (x <- u_add dbg id HEADER ;; u_sub dbg x 4) ;;
    _ <~ lift (h_seek a) ;;
    b <~ lift (h_read 4) ;;
    let size := of_be b in
    if id <? 4 + size then wret Err
    else
      c <~ pure (x <- u_add dbg id HEADER ;; y <- u_sub dbg x 4 ;; u_sub dbg y size) ;;
      _ <~ lift (h_seek c) ;;
      buf <~ lift (h_read (N.to_nat size)) ;;
      _ <~ lift h_seek_end ;;
      fun s => (Ok tt, Inner (i_fh s) (i_pages s) ((id, buf) :: i_recent s) (i_last s)).

(** [pad_to], lines 186-198.  Each round of the loop writes at most 1024 zeros. *)
Fixpoint pad_loop (fuel : nat) (offset : N) : wm inner unit :=
  match fuel with
  | O => wret Fuel
  | S fuel =>
      pos <~ lift h_position ;;
      if pos <? offset then
        _ <~ lift (h_write (repeat x00 (N.to_nat (N.min (offset - pos) 1024)))) ;;
        pad_loop fuel offset
      else wret (Ok tt)
  end.
(** The loop with enough steps for it to end. *)
Definition pad_to (offset : N) : wm inner unit := fun s =>
  pad_loop (S (N.to_nat (offset - h_pos (i_fh s)))) offset s.

(** [commit], lines 219-224. *)
Definition commit : wm inner N :=
  e <~ lift h_seek_end ;;
  id <~ pure (u_sub dbg e HEADER) ;;
  _ <~ lift (write_size id) ;;
  _ <~ lift h_nop ;;
  wret (Ok id).

(** [close_page], lines 175-184. *)
Definition close_page (current : N) : wm inner unit :=
  start <~ pure (offset_of_page current) ;;
  target <~ pure (u_add dbg start ps) ;;
  _ <~ pad_to target ;;
  _ <~ commit ;;
  _ <~ load_page current ;;
  fun s => (Ok tt, Inner (i_fh s) (i_pages s)
    (filter (fun e => negb (fst e / ps =? current)) (i_recent s)) (i_last s)).

(** [append], lines 226-255. *)
Definition append (d : bytes) : wm inner N :=
  max <~ pure (u_sub dbg ps 8) ;;
  if max <? N.of_nat (length d) then wret Err
  else
    len <~ pure (u_add dbg (N.of_nat (length d)) 4) ;;
    position <~ lift h_seek_end ;;
    if position <? HEADER then wret Panic
    else
      let offset := position - HEADER in
      end_ <~ pure (u_add dbg offset len) ;;
      current <~ pure (page offset) ;;
      end_page <~ pure (page end_) ;;
      _ <~ (if end_page =? current then wret (Ok tt) else close_page current) ;;
      _ <~ lift (h_write d) ;;
      _ <~ lift (h_write (to_be 4 (N.of_nat (length d)))) ;;
      id <~ commit ;;
      _ <~ (fun s => (Ok tt, Inner (i_fh s) (i_pages s) ((id, d) :: i_recent s) id)) ;;
      m <~ pure (u_mod id ps) ;;
      if (m <? 4) && negb (4 <? id mod 1024) then wret Panic else wret (Ok id).

(** [Page::bytes], lines 72-80, on the view of page [p]. *)
Definition page_bytes (p offset : N) : wm inner bytes := fun s =>
  let f := h_file (i_fh s) in
  let base := p * ps + HEADER in
  if offset <? 4 then (Err, s)
  else if f_len f <? base + ps then (Panic, s)
  else
    let length := of_be (f_read f (base + offset - 4) 4) in
    if offset <? length + 4 then (Err, s)
    else (Ok (f_read f (base + offset - 4 - length) (N.to_nat length)), s).

(** [FnvHashMap::get] of [recent] (a dependency). *)
Fixpoint assoc (id : N) (l : list (N * bytes)) : option bytes :=
  match l with
  | [] => None
  | (i, d) :: l => if i =? id then Some d else assoc id l
  end.

(** [bytes], lines 200-217. *)
Definition bytes_at (offset : N) : wm inner bytes := fun s =>
  (last_page <~ pure (page (i_last s)) ;;
   p <~ pure (x <- u_sub dbg offset 1 ;; page x) ;;
   page_offset <~ pure (offset_within_page offset) ;;
   if p <? last_page then
     _ <~ (if existsb (N.eqb p) (i_pages s) then wret (Ok tt) else load_page p) ;;
     page_bytes p page_offset
   else
     _ <~ (match assoc offset (i_recent s) with Some _ => wret (Ok tt) | None => load_recent offset end) ;;
     fun s' => (match assoc offset (i_recent s') with Some d => Ok d | None => Panic end, s')) s.

(** [PagedFileStore::read] and [write], lines 276-284. *)
Definition pf_read (id : bytes) : wm inner bytes :=
  if (length id =? 8)%nat then bytes_at (of_be id) else wret Panic.
Definition pf_write (d : bytes) : wm inner bytes :=
  id <~ append d ;; wret (Ok (to_be 8 id)).
(** [PagedFileStore::last_id], lines 263-270. *)
Definition pf_last_id (s : inner) : option bytes :=
  if i_last s =? 0 then None else Some (to_be 8 (i_last s)).
End PagedFile.
