(** The file system in the browser cache: directories, files and commands.
    Models browser/src/web_cache_fs.rs:22-296, browser/src/sync_fs.rs:14-178.

    In WebFile.v the cache of one file is a map from chunks to bytes.  Here all files
    of a directory share one [Cache], a map from requests (strings) to bytes, and the
    functions of [WebCacheFile] are stated again over it. *)
From Verif Require Import Base BaseLemmas Header Node Store U64 Chunk WebFile.
Local Open Scope N_scope.

(** ** The browser (not code in /repo) *)

(** A [Cache]: the response for each request. *)
Definition jcache : Type := list (bytes * bytes).
Fixpoint j_match (q : bytes) (m : jcache) : option bytes :=
  match m with
  | [] => None
  | (q', d) :: m => if bytes_eqb q q' then Some d else j_match q m
  end.
Definition j_delete (q : bytes) (m : jcache) : jcache :=
  filter (fun e => negb (bytes_eqb q (fst e))) m.
Definition j_put (q d : bytes) (m : jcache) : jcache := (q, d) :: j_delete q m.
(** The option [ignoreSearch]: requests are compared without their query. *)
Definition same_path (q q' : bytes) : bool := bytes_eqb (fst (cut_query q)) (fst (cut_query q')).
Definition jcache_size (m : jcache) : N := fold_right (fun e n => N.of_nat (length (snd e)) + n) 0 m.

(** A [WebCacheFile] at work: its chunks, the [Cache] it uses, the number of bytes in
    the other caches (for the quota), and the faults to come as in [wfile]. *)
Record jfile : Type := JFile { j_chunks : list chunk; j_cache : jcache; j_other : N; j_faults : list bool }.

(** [js_async], browser/src/lib.rs:41-44; as [WebFile.js]. *)
Definition jjs {A} (m : wm jfile A) : wm jfile A := fun f =>
  match j_faults f with
  | true :: t => (Err, JFile (j_chunks f) (j_cache f) (j_other f) t)
  | b => m (JFile (j_chunks f) (j_cache f) (j_other f) (tl b))
  end.

Section File.
Variable name : bytes.

(** [load_range], web_cache_fs.rs:489-521; as [WebFile.load_range]. *)
Definition j_load_range (c : chunk) (r : range) : wm jfile bytes := jjs (fun f =>
  (match j_match (request_str name c) (j_cache f) with
   | None => Err
   | Some d => a <- to_i32 (fst r) ;; b <- to_i32 (snd r) ;; Ok (js_slice d a b)
   end, f)).
(** web_cache_fs.rs:354-360, 386-390 and 481-485; as [WebFile.load_loop]. *)
Fixpoint j_load_loop (r : range) (cs : list chunk) (buf : bytes) : wm jfile bytes :=
  match cs with
  | [] => wret (Ok buf)
  | c :: cs =>
      x <~ wret (ranges (crange c) r) ;;
      d <~ j_load_range c (fst x) ;;
      buf <~ wret (copy_to d buf (snd x)) ;;
      j_load_loop r cs buf
  end.
(** [load_chunks], web_cache_fs.rs:346-363. *)
Definition j_load_chunks (r : range) (cs : list chunk) : wm jfile bytes :=
  n <~ wret (to_usize (snd r - fst r)) ;;
  j_load_loop r cs (repeat x00 (N.to_nat n)).
(** The free function [read], web_cache_fs.rs:472-487. *)
Definition j_read_raw (r : range) : wm jfile bytes := fun f =>
  j_load_chunks r (intersecting (j_chunks f) r) f.
(** [length], web_cache_fs.rs:400-402. *)
Definition j_length : wm jfile N := fun f => (Ok (snd (crange (prev (j_chunks f)))), f).
(** [WebCacheFile::read], web_cache_fs.rs:378-392. *)
Definition j_read (r : range) : wm jfile bytes := fun f =>
  (_ <~ wret (to_usize (snd r - fst r)) ;;
   _ <~ wret (if snd r <=? snd (crange (prev (j_chunks f))) then Ok tt else Err) ;;
   j_read_raw r) f.

(** [write_chunk] and [chunks.insert], web_cache_fs.rs:535-545, 458-459; as
    [WebFile.write_chunk], the quota is for all caches together. *)
Definition j_write_chunk (c : chunk) (d : bytes) : wm jfile unit := jjs (fun f =>
  if j_other f + jcache_size (j_cache f) + N.of_nat (length d) <? quota
  then (Ok tt, JFile (set_insert c (j_chunks f)) (j_put (request_str name c) d (j_cache f)) (j_other f) (j_faults f))
  else (Err, f)).
(** The body of the loop in [execute_plan], web_cache_fs.rs:451-467. *)
Definition j_exec_op (o : wop) : wm jfile unit :=
  match o with
  | WDelete c => jjs (fun f =>
      (Ok tt, JFile (set_remove c (j_chunks f)) (j_delete (request_str name c) (j_cache f)) (j_other f) (j_faults f)))
  | WWrite c d => j_write_chunk c d
  | WRewrite c => d <~ j_read_raw (crange c) ;; j_write_chunk c d
  end.
(** [execute_plan], web_cache_fs.rs:444-470. *)
Fixpoint j_execute (p : list wop) : wm jfile unit :=
  match p with
  | [] => wret (Ok tt)
  | o :: p => _ <~ j_exec_op o ;; j_execute p
  end.

(** The sum [x + 1] of levels in [add] and [truncate], web_cache_fs.rs:699-704 and
    736-741: overflow panics in a debug build (that it wraps around in a release build
    is not modelled, as in [sum_ok]). *)
Definition level_ok (cs : list chunk) : res unit := if next_level cs <? u64_max then Ok tt else Panic.

(** [WebCacheFile::write] with [add], web_cache_fs.rs:394-398, 690-725. *)
Definition j_write (o : N) (d : bytes) : wm jfile unit := fun f =>
  (_ <~ wret (sum_ok o (N.of_nat (length d))) ;;
   _ <~ wret (level_ok (intersecting (j_chunks f) (o, o + N.of_nat (length d)))) ;;
   j_execute (add (j_chunks f) o d)) f.
(** [WebCacheFile::truncate] with [truncate], web_cache_fs.rs:404-408, 728-752. *)
Definition j_truncate (o : N) : wm jfile unit := fun f =>
  (_ <~ wret (level_ok (filter (fun c => o <? snd (crange c)) (j_chunks f))) ;;
   j_execute (truncate (j_chunks f) o)) f.
(** [WebCacheFile::append], web_cache_fs.rs:330-336. *)
Definition j_append (d : bytes) : wm jfile N := fun f =>
  let o := snd (crange (prev (j_chunks f))) in
  (_ <~ j_write o d ;; wret (Ok o)) f.
(** [append_length_prefixed], web_cache_fs.rs:338-344. *)
Definition j_append_lp (d : bytes) : wm jfile N :=
  if N.of_nat (length d) <? usize_lim then j_append (to_be 4 (N.of_nat (length d)) ++ d)
  else wret Panic.
(** [load_length_prefixed], web_cache_fs.rs:365-376. *)
Definition j_load_lp (start : N) : wm jfile bytes := fun f =>
  let cs := intersecting (j_chunks f) (start, start + 4) in
  let e := match cs with
           | [] => start
           | c :: r => fold_left (fun m c => N.max m (snd (crange c))) r (snd (crange c))
           end in
  (_ <~ wret (sum_ok start 4) ;;
   b <~ j_load_chunks (start, e) cs ;;
   h <~ wret (slice_to 4 b) ;;
   let n := of_be h in
   wret (if n + 4 <=? N.of_nat (length b) then Ok (firstn (N.to_nat n) (skipn 4 b)) else Err)) f.

(** The iterator chain in [chunks], web_cache_fs.rs:550-554: requests that do not
    parse are skipped. *)
Fixpoint parse_keys (qs : list bytes) : res (list chunk) :=
  match qs with
  | [] => Ok []
  | q :: qs =>
      match parse_and_filter q name with
      | Panic => Panic
      | Ok (Some c) => cs <- parse_keys qs ;; Ok (set_insert c cs)
      | _ => parse_keys qs
      end
  end.
(** [chunks], web_cache_fs.rs:547-556. *)
Definition j_find : wm jfile (list chunk) := jjs (fun f => (parse_keys (map fst (j_cache f)), f)).
End File.

(** ** The file system *)

(** [BTreeMap] with strings as keys (standard library). *)
Section Map.
Context {A : Type}.
Fixpoint get (k : bytes) (m : list (bytes * A)) : option A :=
  match m with
  | [] => None
  | (k', a) :: m => if bytes_eqb k k' then Some a else get k m
  end.
Definition del (k : bytes) (m : list (bytes * A)) : list (bytes * A) :=
  filter (fun e => negb (bytes_eqb k (fst e))) m.
Definition set (k : bytes) (a : A) (m : list (bytes * A)) : list (bytes * A) := (k, a) :: del k m.
End Map.

(** The browser's [CacheStorage] and the [WebCacheFs], web_cache_fs.rs:22-25.

    [fs_objs]: the [Cache] objects ever created; [fs_names]: the ones found by their
    name.  An object that was deleted keeps its entries for those that still hold it.
    [fs_dirs]: the open directories, each with its [Cache] and the open files
    ([WebCacheDir], [WebCacheFile], web_cache_fs.rs:262-266, 298-307).
    [fs_up]: the loop that executes commands is running. *)
Record fs : Type := Fs {
  fs_objs : list jcache;
  fs_names : list (bytes * nat);
  fs_dirs : list (bytes * (nat * list (bytes * list chunk)));
  fs_up : bool
}.

(** [Command], browser/src/sync_fs.rs:14-80. *)
Inductive cmd : Type :=
| KOpenDir (d : bytes)
| KDeleteDir (d : bytes)
| KOpenFile (d f : bytes)
| KFileExists (d f : bytes)
| KDeleteFile (d f : bytes)
| KFlush (d f : bytes)
| KWrite (d f : bytes) (o : N) (b : bytes)
| KRead (d f : bytes) (s e : N)
| KLength (d f : bytes)
| KTruncate (d f : bytes) (n : N)
| KAppend (d f : bytes) (b : bytes)   (* AppendFileLengthPrefixed *)
| KLoad (d f : bytes) (o : N)         (* ReadFileLengthPrefixed *)
| KShutdown.
(** What is sent back. *)
Inductive reply : Type :=
| RUnit
| RBool (b : bool)
| RNum (n : N)
| RBytes (d : bytes).

(** The bytes in all caches, for the quota, and assignment to one cache; the browser's part. *)
Definition total (l : list jcache) : N := fold_right (fun m n => jcache_size m + n) 0 l.
Fixpoint replace (i : nat) (m : jcache) (l : list jcache) : list jcache :=
  match l, i with
  | [], _ => []
  | _ :: l, O => m :: l
  | x :: l, S i => x :: replace i m l
  end.
(** A [WebCacheFile] in the state of the file system. *)
Definition jfile_of (s : fs) (o : nat) (cs : list chunk) (t : list bool) : jfile :=
  JFile cs (nth o (fs_objs s) []) (total (replace o [] (fs_objs s))) t.

(** [self.dirs.get_mut(&dir)...files.get_mut(&file_name)...] and the operation on the
    file, web_cache_fs.rs:80-82, 86-88, 97-99, 125-127, 137-139, 143-145, 154-156. *)
Definition on_file {A} (d f : bytes) (m : wm jfile A) (k : A -> reply) (t : list bool) (s : fs) : res reply * fs :=
  match get d (fs_dirs s) with
  | None => (Err, s)
  | Some (o, files) =>
      match get f files with
      | None => (Err, s)
      | Some cs =>
          let (r, j) := m (jfile_of s o cs t) in
          (x <- r ;; Ok (k x),
           Fs (replace o (j_cache j) (fs_objs s)) (fs_names s)
              (set d (o, set f (j_chunks j) files) (fs_dirs s)) (fs_up s))
      end
  end.

(** One cache operation outside of a file. *)
Definition fs_js {A} (t : list bool) (s : fs) (m : res A * fs) : res A * fs :=
  match t with true :: _ => (Err, s) | _ => m end.

(** The execution of a command, web_cache_fs.rs:43-155; [t] says which cache
    operations fail.  Simplified: [open_dir] etc. of [CacheStorage] count as one
    operation; [as_bool] of what [delete] returns does not fail. *)
Definition fs_exec (c : cmd) (t : list bool) (s : fs) : res reply * fs :=
  match c with
  (* web_cache_fs.rs:43-50, 269-273 *)
  | KOpenDir d =>
      match get d (fs_dirs s) with
      | Some _ => (Ok RUnit, s)
      | None => fs_js t s
          match get d (fs_names s) with
          | Some o => (Ok RUnit, Fs (fs_objs s) (fs_names s) (set d (o, []) (fs_dirs s)) (fs_up s))
          | None => let o := length (fs_objs s) in
              (Ok RUnit, Fs (fs_objs s ++ [[]]) (set d o (fs_names s)) (set d (o, []) (fs_dirs s)) (fs_up s))
          end
      end
  (* web_cache_fs.rs:113-117 *)
  | KDeleteDir d => fs_js t s
      (Ok (RBool match get d (fs_names s) with Some _ => true | None => false end),
       Fs (fs_objs s) (del d (fs_names s)) (fs_dirs s) (fs_up s))
  (* web_cache_fs.rs:52-59, 275-277, 310-319 *)
  | KOpenFile d f =>
      match get d (fs_dirs s) with
      | None => (Err, s)
      | Some (o, files) =>
          match get f files with
          | Some _ => (Ok RUnit, s)
          | None =>
              match fst (j_find f (jfile_of s o [] t)) with
              | Ok cs => (Ok RUnit, Fs (fs_objs s) (fs_names s) (set d (o, set f cs files) (fs_dirs s)) (fs_up s))
              | Err => (Err, s) | Panic => (Panic, s) | Fuel => (Fuel, s)
              end
          end
      end
  (* web_cache_fs.rs:61-72, 279-282 *)
  | KFileExists d f =>
      match get d (fs_dirs s) with
      | None => (Err, s)
      | Some (o, files) =>
          match get f files with
          | Some _ => (Ok (RBool true), s)
          | None => (cs <- fst (j_find f (jfile_of s o [] t)) ;;
                     Ok (RBool match cs with [] => false | _ => true end), s)
          end
      end
  (* web_cache_fs.rs:102-111, 284-295 *)
  | KDeleteFile d f =>
      match get d (fs_dirs s) with
      | None => (Err, s)
      | Some (o, files) => fs_js t s
          (let m := nth o (fs_objs s) [] in
           (Ok (RBool (existsb (fun e => same_path (slash :: f) (fst e)) m)),
            Fs (replace o (filter (fun e => negb (same_path (slash :: f) (fst e))) m) (fs_objs s)) (fs_names s)
               (set d (o, del f files) (fs_dirs s)) (fs_up s)))
      end
  | KFlush d f => on_file d f (wret (Ok tt)) (fun _ => RUnit) t s
  | KWrite d f o b => on_file d f (j_write f o b) (fun _ => RUnit) t s
  | KRead d f a e => on_file d f (j_read f (a, e)) RBytes t s
  | KLength d f => on_file d f j_length RNum t s
  | KTruncate d f n => on_file d f (j_truncate f n) (fun _ => RUnit) t s
  | KAppend d f b => on_file d f (j_append_lp f b) RNum t s
  | KLoad d f o => on_file d f (j_load_lp f o) RBytes t s
  | KShutdown => (Ok RUnit, Fs (fs_objs s) (fs_names s) (fs_dirs s) false)
  end.

(** [run], web_cache_fs.rs:158-259, as seen through [SyncFs], [SyncDir] and [SyncFile],
    sync_fs.rs:83-228: when the loop has ended, every call fails.  A panic ends the
    loop.  Simplified: the call that is waiting when the loop panics returns the panic;
    in a browser it never returns. *)
Definition fs_call (c : cmd) (t : list bool) (s : fs) : res reply * fs :=
  if fs_up s then
    let (r, s') := fs_exec c t s in
    (r, match r with Panic => Fs (fs_objs s') (fs_names s') (fs_dirs s') false | _ => s' end)
  else (Err, s).
(** [WebCacheFs::new] after the page was closed, web_cache_fs.rs:30-41: only what the
    browser stores is left. *)
Definition fs_restart (s : fs) : fs := Fs (fs_objs s) (fs_names s) [] true.
Definition new_fs : fs := Fs [] [] [] true.
