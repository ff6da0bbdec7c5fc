(** The program of the browser crate that keeps a tree in a paging file in the browser
    cache, browser/src/browser.rs:95-160.  This file is part of the statements. *)
From Verif Require Import Base BaseLemmas Header Node Combine Iter Api Spec Store StoreSpec U64 File Chunk WebFile WebFs WebFsSpec
  Paging PagingSpec PagingStore SyncDev.
From Coq Require DecimalString String.

(** [for _ in iter { n += 1 }]: errors are counted as well. *)
Fixpoint count {X A : Type} (next : nat -> X -> res (yielded A * X)) (fuel : nat) (s : X) : res nat :=
  match fuel with
  | 0 => Fuel
  | S fuel' =>
      '(y, s') <- next fuel' s ;;
      match y with
      | YDone => Ok 0
      | _ => n <- count next fuel' s' ;; Ok (S n)
      end
  end.

(** [do_test], browser.rs:108-160, for any elements instead of the decimal numbers
    below two million: the four numbers that are logged, and the tree that is logged
    at the end.  [sync]: [BlobStore::sync].  Simplified: reading does not change the
    store. *)
Definition do_test (dbg : bool) (S : store) (sync : wm (st S) unit) (elems : list (bytes * bytes)) (fuel : nat)
  : wm (st S) (list nat * node) :=
  tree <~ wret (t_from_pairs dbg detached_read n_empty elems fuel) ;;
  n1 <~ wret (count (kv_next detached_read) fuel (kv_new tree)) ;;
  tree <~ t_attached S tree ;;
  _ <~ sync ;;
  fun s =>
    (n2 <~ wret (count (vi_next (st_read S s)) fuel [IOwned [tree]]) ;;
     n3 <~ wret (count (kv_next (st_read S s)) fuel (kv_new tree)) ;;
     tree <~ wret (t_detached (st_read S s) tree fuel) ;;
     n4 <~ wret (count (kv_next detached_read) fuel (kv_new tree)) ;;
     wret (Ok ([n1; n2; n3; n4], tree))) s.

(** [PagingFile::sync], paging_file.rs:171-173. *)
Definition paging_sync (D : dev) (ps : N) : wm (pfile D * paging_schedule) unit := fun s =>
  let (r, f) := pstep D ps PSync (fst s) in (_ <- r ;; Ok tt, (f, snd s)).

(** [tree_test_sync], browser.rs:95-106, for any directory [d], file [f] and page size.
    [SimpleWebCacheFs::new] starts a file system that nobody else uses; [PagingFile::new]
    is [p_new], paging_file.rs:143-148.  Simplified: file systems that were started
    before have ended. *)
Definition tree_test_sync (dbg : bool) (d f : bytes) (ps : N) (elems : list (bytes * bytes)) (fuel : nat) (s : sync_file)
  : res (list nat * node) * sync_file :=
  (_ <~ sf_call (KDeleteDir d) ;;
   _ <~ sf_call (KOpenDir d) ;;
   _ <~ sf_call (KDeleteFile d f) ;;
   _ <~ sf_call (KOpenFile d f) ;;
   m <~ p_new (sync_dev d f) ps ;;
   fun s => let (r, s') := do_test dbg (paging_store (sync_dev d f) ps) (paging_sync _ ps) elems fuel ((s, Some m), []) in
            (r, fst (fst s')))
    (SyncFile (fs_restart (sf_fs s)) (sf_todo s) (sf_left s)).

(** [sync] of [MemStore] and [PagedFileStore], src/store/mem_store.rs:47-49 and
    src/store/paged_file_store.rs:286-288. *)
Definition noop_sync {X : Type} : wm X unit := wret (Ok tt).

(** The number of different keys, and the value in the last pair with a key. *)
Definition different (elems : list (bytes * bytes)) : nat :=
  length (nodup (list_eq_dec Byte.byte_eq_dec) (map fst elems)).
Definition pairs_map (elems : list (bytes * bytes)) : kmap := fun k =>
  option_map snd (last_of (filter (fun e => beq (fst e) k) elems)).
(** [sync] does not panic, and what was written before can be read after it. *)
Definition keeping (S : store) (inv : st S -> Prop) (sync : wm (st S) unit) : Prop :=
  forall s, inv s -> exists r s', sync s = (r, s') /\
    (r = Err \/ r = Ok tt /\
     forall s0 d id s1 ds, inv s0 -> st_write S s0 d = (Ok id, s1) -> after S s1 ds = s -> st_read S s' id = Ok d).
(** The program ends in every fuel that is large enough. *)
Definition ends {X A : Type} (f : nat -> wm X A) (s : X) (r : res A) (s' : X) : Prop :=
  exists n0, forall n, n0 <= n -> f n s = (r, s').

(** [i.to_string().as_bytes().to_vec()], browser.rs:113-116, with the standard library's
    decimal numbers. *)
Definition decimal (i : nat) : bytes :=
  String.list_byte_of_string (DecimalString.NilZero.string_of_uint (N.to_uint (N.of_nat i))).
(** [elems], browser.rs:109-117: the decimal numbers below [n].  The program has two million. *)
Definition numbers (n : nat) : list (bytes * bytes) := map (fun i => (decimal i, decimal i)) (seq 0 n).
(** The names, "sync" and "test", browser.rs:97-100. *)
Definition b_sync : bytes := [x73; x79; x6e; x63].
Definition b_test : bytes := [x74; x65; x73; x74].
