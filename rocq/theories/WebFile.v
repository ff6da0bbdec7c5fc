(** Files in the browser cache.
    Models browser/src/web_cache_fs.rs:298-556 and 665-752. *)
From Verif Require Import Base BaseLemmas Header Node Store U64 Chunk.
Local Open Scope N_scope.

(** ** The browser's [Cache] for one file (not code in /repo)

    The responses stored for the requests of this file; requests of different
    chunks and files differ by [C43_distinct].  The newest entry of a request
    counts. *)
Definition cache : Type := list (chunk * bytes).
Fixpoint cache_match (c : chunk) (m : cache) : option bytes :=
  match m with
  | [] => None
  | (c', d) :: m => if chunk_eqb c c' then Some d else cache_match c m
  end.
Definition cache_delete (c : chunk) (m : cache) : cache :=
  filter (fun e => negb (chunk_eqb c (fst e))) m.
Definition cache_put (c : chunk) (d : bytes) (m : cache) : cache :=
  (c, d) :: cache_delete c m.

(** The bytes stored, and a bound that no browser exceeds. *)
Definition cache_size (m : cache) : N := fold_right (fun e n => N.of_nat (length (snd e)) + n) 0 m.
Definition quota : N := 9223372036854775808. (* 2^63 *)

(** [BTreeSet<ChunkMeta>] (standard library): a sorted list. *)
Fixpoint set_insert (c : chunk) (s : list chunk) : list chunk :=
  match s with
  | [] => [c]
  | c' :: r => if chunk_ltb c c' then c :: s
               else if chunk_eqb c c' then s
               else c' :: set_insert c r
  end.
Definition set_remove (c : chunk) (s : list chunk) : list chunk :=
  filter (fun c' => negb (chunk_eqb c c')) s.

(** [WebCacheFile], web_cache_fs.rs:298-307, and its cache.  [faults] says for each
    of the coming cache operations whether it fails; when the list is used up they
    succeed.  An operation that fails has no effect.  The page being closed in the
    middle of a call is a fault at this point, followed by opening the file
    again. *)
Record wfile : Type := WFile { w_chunks : list chunk; w_cache : cache; w_faults : list bool }.

(** One operation on the cache, [js_async], browser/src/lib.rs:41-44: a rejected
    promise is an error. *)
Definition js {A} (m : wm wfile A) : wm wfile A := fun f =>
  match w_faults f with
  | true :: t => (Err, WFile (w_chunks f) (w_cache f) t)
  | b => m (WFile (w_chunks f) (w_cache f) (tl b))
  end.

(** [JS Blob.slice]: clamped to the data. *)
Definition js_slice (d : bytes) (a b : N) : bytes :=
  firstn (N.to_nat (b - a)) (skipn (N.to_nat a) d).

(** [load_range], web_cache_fs.rs:489-521.  A missing entry gives [undefined], on
    which the calls that follow fail.  Simplified: one fault for the three
    promises. *)
Definition load_range (c : chunk) (r : range) : wm wfile bytes := js (fun f =>
  (match cache_match c (w_cache f) with
   | None => Err
   | Some d => a <- to_i32 (fst r) ;; b <- to_i32 (snd r) ;; Ok (js_slice d a b)
   end, f)).

(** [data.copy_to(&mut res[tr])]: panics when the range is not inside [res] or has
    another length than [data]. *)
Definition copy_to (d : bytes) (buf : bytes) (tr : range) : res bytes :=
  if (fst tr <=? snd tr) && (snd tr <=? N.of_nat (length buf)) && (N.of_nat (length d) =? snd tr - fst tr)
  then Ok (firstn (N.to_nat (fst tr)) buf ++ d ++ skipn (N.to_nat (snd tr)) buf)
  else Panic.

(** [intersecting_chunks], web_cache_fs.rs:434-441. *)
Definition intersecting (cs : list chunk) (r : range) : list chunk :=
  filter (fun c => overlap (crange c) r) cs.

(** The loop in [load_chunks], [WebCacheFile::read] and [read],
    web_cache_fs.rs:354-360, 386-390 and 481-485. *)
Fixpoint load_loop (r : range) (cs : list chunk) (buf : bytes) : wm wfile bytes :=
  match cs with
  | [] => wret (Ok buf)
  | c :: cs =>
      x <~ wret (ranges (crange c) r) ;;
      d <~ load_range c (fst x) ;;
      buf <~ wret (copy_to d buf (snd x)) ;;
      load_loop r cs buf
  end.
(** [load_chunks], web_cache_fs.rs:346-363. *)
Definition load_chunks (r : range) (cs : list chunk) : wm wfile bytes :=
  n <~ wret (to_usize (snd r - fst r)) ;;
  load_loop r cs (repeat x00 (N.to_nat n)).
(** The free function [read], web_cache_fs.rs:472-487. *)
Definition read_raw (r : range) : wm wfile bytes := fun f =>
  load_chunks r (intersecting (w_chunks f) r) f.

(** [prev], web_cache_fs.rs:321-323. *)
Definition prev (cs : list chunk) : chunk := last cs default_chunk.
(** [length], web_cache_fs.rs:400-402. *)
Definition wf_length : wm wfile N := fun f => (Ok (snd (crange (prev (w_chunks f)))), f).
(** [WebCacheFile::read], web_cache_fs.rs:378-392. *)
Definition wf_read (r : range) : wm wfile bytes := fun f =>
  (_ <~ wret (to_usize (snd r - fst r)) ;;
   _ <~ wret (if snd r <=? snd (crange (prev (w_chunks f))) then Ok tt else Err) ;;
   read_raw r) f.

(** ** Changes *)

(** [Op], web_cache_fs.rs:665-673. *)
Inductive wop : Type :=
| WRewrite (c : chunk)
| WDelete (c : chunk)
| WWrite (c : chunk) (d : bytes).

(** [write_chunk] and [chunks.insert], web_cache_fs.rs:535-545, 458-459.  The browser
    refuses to store more than some quota. *)
Definition write_chunk (c : chunk) (d : bytes) : wm wfile unit := js (fun f =>
  if cache_size (w_cache f) + N.of_nat (length d) <? quota
  then (Ok tt, WFile (set_insert c (w_chunks f)) (cache_put c d (w_cache f)) (w_faults f))
  else (Err, f)).
(** The body of the loop in [execute_plan], web_cache_fs.rs:451-467. *)
Definition exec_op (o : wop) : wm wfile unit :=
  match o with
  | WDelete c => js (fun f =>
      (Ok tt, WFile (set_remove c (w_chunks f)) (cache_delete c (w_cache f)) (w_faults f)))
  | WWrite c d => write_chunk c d
  | WRewrite c => d <~ read_raw (crange c) ;; write_chunk c d
  end.
(** [execute_plan], web_cache_fs.rs:444-470. *)
Fixpoint execute_plan (p : list wop) : wm wfile unit :=
  match p with
  | [] => wret (Ok tt)
  | o :: p => _ <~ exec_op o ;; execute_plan p
  end.

(** [.map(|x| x.level).max().map(|x| x + 1).unwrap_or_default()],
    web_cache_fs.rs:699-704 and 736-741.  Simplified: [u64] overflow of the level
    (after [2^64] overwrites) is not modelled. *)
Definition next_level (cs : list chunk) : N :=
  match cs with
  | [] => 0
  | _ => fold_left (fun m c => N.max m (level c)) cs 0 + 1
  end.

(** The part of the loop for one partially overwritten chunk,
    web_cache_fs.rs:713-722. *)
Definition rewrite_ops (r : range) (l : N) (c : chunk) : list wop :=
  (if fst (crange c) <? fst r then [WRewrite (chunk_new (fst (crange c), fst r) l)] else []) ++
  (if snd r <? snd (crange c) then [WRewrite (chunk_new (snd r, snd (crange c)) l)] else []) ++
  [WDelete c].
(** [add], web_cache_fs.rs:690-725. *)
Definition add (cs : list chunk) (o : N) (d : bytes) : list wop :=
  let r := (o, o + N.of_nat (length d)) in
  let relevant := filter (fun c => overlap (crange c) r) cs in
  let l := next_level relevant in
  let rewrite := filter (fun c => negb (contains r (crange c))) relevant in
  let delete := filter (fun c => negb (negb (contains r (crange c)))) relevant in
  WWrite (chunk_new r l) d :: map WDelete delete ++ flat_map (rewrite_ops r l) rewrite.

(** [truncate], web_cache_fs.rs:728-752. *)
Definition truncate (cs : list chunk) (o : N) : list wop :=
  let relevant := filter (fun c => o <? snd (crange c)) cs in
  let l := next_level relevant in
  (match relevant with
   | [] => []
   | c :: r =>
       let start := fold_left (fun m c => N.min m (fst (crange c))) r (fst (crange c)) in
       if start <? o then [WRewrite (chunk_new (start, o) l)] else []
   end) ++ map WDelete relevant.

(** The sum [a + b] of [u64]s: overflow panics in a debug build.  Simplified: that it
    wraps around in a release build is not modelled. *)
Definition sum_ok (a b : N) : res unit := if a + b <? u64_max then Ok tt else Panic.

(** [WebCacheFile::write], web_cache_fs.rs:394-398. *)
Definition wf_write (o : N) (d : bytes) : wm wfile unit := fun f =>
  (_ <~ wret (sum_ok o (N.of_nat (length d))) ;;
   execute_plan (add (w_chunks f) o d)) f.
(** [WebCacheFile::truncate], web_cache_fs.rs:404-408. *)
Definition wf_truncate (o : N) : wm wfile unit := fun f =>
  execute_plan (truncate (w_chunks f) o) f.
(** [WebCacheFile::append], web_cache_fs.rs:330-336. *)
Definition wf_append (d : bytes) : wm wfile N := fun f =>
  let o := snd (crange (prev (w_chunks f))) in
  (_ <~ wret (sum_ok o (N.of_nat (length d))) ;;
   _ <~ execute_plan (add (w_chunks f) o d) ;; wret (Ok o)) f.
(** [append_length_prefixed], web_cache_fs.rs:338-344. *)
Definition wf_append_lp (d : bytes) : wm wfile N :=
  if N.of_nat (length d) <? usize_lim then wf_append (to_be 4 (N.of_nat (length d)) ++ d)
  else wret Panic.
(** [load_length_prefixed], web_cache_fs.rs:365-376. *)
Definition wf_load_lp (start : N) : wm wfile bytes := fun f =>
  let cs := intersecting (w_chunks f) (start, start + 4) in
  let e := match cs with
           | [] => start
           | c :: r => fold_left (fun m c => N.max m (snd (crange c))) r (snd (crange c))
           end in
  (_ <~ wret (sum_ok start 4) ;;
   b <~ load_chunks (start, e) cs ;;
   h <~ wret (slice_to 4 b) ;;
   let n := of_be h in
   wret (if n + 4 <=? N.of_nat (length b) then Ok (firstn (N.to_nat n) (skipn 4 b)) else Err)) f.

(** [WebCacheFile::new] and [chunks], web_cache_fs.rs:310-319, 547-556: the chunks
    found in the cache (see [C43_found]). *)
Definition wf_open : wm wfile unit := js (fun f =>
  (Ok tt, WFile (fold_right set_insert [] (map fst (w_cache f))) (w_cache f) (w_faults f))).
