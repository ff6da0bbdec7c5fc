(** Histories of commands to the file system in the browser cache, and what they
    should do.  This file is part of the statements. *)
From Verif Require Import Base BaseLemmas Header Node Store U64 File Chunk WebFile WebSpec WebFs.
Local Open Scope N_scope.

(** A call with the faults that happen during it, or the page is closed and a new
    [WebCacheFs] is made.  Closing the page in the middle of a call is a fault in it,
    followed by [Restart]. *)
Inductive event : Type :=
| Call (c : cmd) (t : list bool)
| Restart.
Fixpoint fs_run (l : list event) (s : fs) : list (res reply) * fs :=
  match l with
  | [] => ([], s)
  | Call c t :: l => let (r, s) := fs_call c t s in
                     let (rs, s) := fs_run l s in (r :: rs, s)
  | Restart :: l => let (rs, s) := fs_run l (fs_restart s) in (Ok RUnit :: rs, s)
  end.

(** ** The intended behaviour *)

(** What the user should see: each file of each directory has contents; some
    directories and files are open.  [touched]: there was a write to the file since it
    was created; [changes]: how many changes of files there were. *)
Record world : Type := World {
  contents : bytes -> bytes -> file;
  touched : bytes -> bytes -> bool;
  dir_open : bytes -> bool;
  file_open : bytes -> bytes -> bool;
  running : bool;
  changes : N
}.
Definition new_world : world :=
  World (fun _ _ => empty_file) (fun _ _ => false) (fun _ => false) (fun _ _ => false) true 0.

(** [m] with the value for one key changed. *)
Definition upd1 {A} (m : bytes -> A) (k : bytes) (a : A) : bytes -> A :=
  fun k' => if bytes_eqb k k' then a else m k'.
Definition upd2 {A} (m : bytes -> bytes -> A) (d f : bytes) (a : A) : bytes -> bytes -> A :=
  upd1 m d (upd1 (m d) f a).
Definition with_contents (W : world) (d f : bytes) (F : file) : world :=
  World (upd2 (contents W) d f F) (upd2 (touched W) d f true) (dir_open W) (file_open W) (running W) (changes W + 1).

(** The file holds nothing but zeros. *)
Definition blank (F : file) : Prop := forall x, x < f_len F -> f_at F x = x00.

(** The calls that change a file, with what they return. *)
Inductive change : cmd -> bytes -> bytes -> call -> (option N -> reply) -> Prop :=
| Ch_write d f o b : change (KWrite d f o b) d f (CWrite o b) (fun _ => RUnit)
| Ch_append d f b : N.of_nat (length b) < usize_lim ->
    change (KAppend d f b) d f (CAppend (to_be 4 (N.of_nat (length b)) ++ b))
      (fun o => match o with Some n => RNum n | None => RUnit end)
| Ch_truncate d f n : change (KTruncate d f n) d f (CTruncate n) (fun _ => RUnit).

(** [fs_effect e r W W']: the event [e] may have the result [r] and turn [W] into
    [W']. *)
Inductive fs_effect : event -> res reply -> world -> world -> Prop :=
| F_down W c t : running W = false -> fs_effect (Call c t) Err W W
| F_restart W : fs_effect Restart (Ok RUnit) W
    (World (contents W) (touched W) (fun _ => false) (fun _ _ => false) true (changes W))
| F_shutdown W t : fs_effect (Call KShutdown t) (Ok RUnit) W
    (World (contents W) (touched W) (dir_open W) (file_open W) false (changes W))
| F_open_dir W d t : fs_effect (Call (KOpenDir d) t) (Ok RUnit) W
    (World (contents W) (touched W) (upd1 (dir_open W) d true) (file_open W) (running W) (changes W))
| F_open_dir_failed W d t : dir_open W d = false -> fs_effect (Call (KOpenDir d) t) Err W W
| F_delete_dir W d t b : (b = false -> forall f, touched W d f = false) ->
    fs_effect (Call (KDeleteDir d) t) (Ok (RBool b)) W
    (World (upd1 (contents W) d (fun _ => empty_file)) (upd1 (touched W) d (fun _ => false))
       (dir_open W) (file_open W) (running W) (changes W))
| F_delete_dir_failed W d t : fs_effect (Call (KDeleteDir d) t) Err W W
| F_open_file W d f t : dir_open W d = true -> fs_effect (Call (KOpenFile d f) t) (Ok RUnit) W
    (World (contents W) (touched W) (dir_open W) (upd2 (file_open W) d f true) (running W) (changes W))
| F_open_file_failed W d f t : file_open W d f = false -> fs_effect (Call (KOpenFile d f) t) Err W W
| F_exists W d f t b : dir_open W d = true -> (file_open W d f = true -> b = true) ->
    (b = true -> file_open W d f = true \/ touched W d f = true) ->
    (b = false -> blank (contents W d f)) ->
    fs_effect (Call (KFileExists d f) t) (Ok (RBool b)) W W
| F_exists_failed W d f t : file_open W d f = false -> fs_effect (Call (KFileExists d f) t) Err W W
| F_delete_file W d f t b : dir_open W d = true ->
    (b = true -> touched W d f = true) -> (b = false -> blank (contents W d f)) ->
    fs_effect (Call (KDeleteFile d f) t) (Ok (RBool b)) W
    (World (upd2 (contents W) d f empty_file) (upd2 (touched W) d f false) (dir_open W)
       (upd2 (file_open W) d f false) (running W) (changes W))
| F_delete_file_failed W d f t : fs_effect (Call (KDeleteFile d f) t) Err W W
| F_change W c d f t k w r F' : change c d f k w -> file_open W d f = true ->
    effect k r (contents W d f) F' -> r <> Panic ->
    fs_effect (Call c t) (x <- r ;; Ok (w x)) W (with_contents W d f F')
| F_read W d f s e t : file_open W d f = true -> e <= f_len (contents W d f) ->
    fs_effect (Call (KRead d f s e) t) (Ok (RBytes (f_read (contents W d f) s (N.to_nat (e - s))))) W W
| F_length W d f t n : file_open W d f = true -> n <= f_len (contents W d f) ->
    fs_effect (Call (KLength d f) t) (Ok (RNum n)) W W
| F_flush W d f t : file_open W d f = true -> fs_effect (Call (KFlush d f) t) (Ok RUnit) W W
| F_load W d f o t b : file_open W d f = true -> fs_effect (Call (KLoad d f o) t) (Ok (RBytes b)) W W
| F_failed W c d f t :
    (exists o b, c = KWrite d f o b) \/ (exists n, c = KTruncate d f n) \/ (exists b, c = KAppend d f b) ->
    file_open W d f = false -> fs_effect (Call c t) Err W W
| F_refused W c d f t :
    (exists s e, c = KRead d f s e) \/ (exists o, c = KLoad d f o) -> fs_effect (Call c t) Err W W
| F_closed W c d f t : c = KLength d f \/ c = KFlush d f -> file_open W d f = false -> fs_effect (Call c t) Err W W
| F_panic W c d f t k w : change c d f k w -> file_open W d f = true ->
    effect k Panic (contents W d f) (contents W d f) \/ u64_max <= changes W + 1 ->
    fs_effect (Call c t) Panic W
    (World (contents W) (upd2 (touched W) d f true) (dir_open W) (file_open W) false (changes W + 1))
| F_load_panic W d f o t : file_open W d f = true -> fs_effect (Call (KLoad d f o) t) Panic W
    (World (contents W) (touched W) (dir_open W) (file_open W) false (changes W)).

Inductive fs_effects : list event -> list (res reply) -> world -> world -> Prop :=
| Fs_nil W : fs_effects [] [] W W
| Fs_cons e l r rs W W' W'' : fs_effect e r W W' -> fs_effects l rs W' W'' ->
    fs_effects (e :: l) (r :: rs) W W''.

(** The names of files have no question mark, and slices on wasm32 have less than
    [2^32] bytes. *)
Definition event_ok (e : event) : Prop :=
  match e with
  | Restart | Call KShutdown _ | Call (KOpenDir _) _ | Call (KDeleteDir _) _ => True
  | Call (KOpenFile _ f) _ | Call (KFileExists _ f) _ | Call (KDeleteFile _ f) _ | Call (KFlush _ f) _
  | Call (KLength _ f) _ => ~ In quest f
  | Call (KWrite _ f _ b) _ | Call (KAppend _ f b) _ => ~ In quest f /\ N.of_nat (length b) < usize_lim
  | Call (KRead _ f _ _) _ | Call (KTruncate _ f _) _ | Call (KLoad _ f _) _ => ~ In quest f
  end.
(** Directories are deleted only before they are opened: no [delete_dir] of a
    directory that was opened since the last restart. *)
Definition deletes_closed (l : list event) : Prop :=
  forall a b d t, l = a ++ Call (KDeleteDir d) t :: b ->
  forall a1 a2 t', a = a1 ++ Call (KOpenDir d) t' :: a2 -> In Restart a2.
(** The event may change the file [f] in the directory [d]. *)
Definition concerns (d f : bytes) (e : event) : Prop :=
  match e with
  | Call (KDeleteDir d') _ => d' = d
  | Call (KDeleteFile d' f') _ | Call (KWrite d' f' _ _) _ | Call (KTruncate d' f' _) _
  | Call (KAppend d' f' _) _ => d' = d /\ f' = f
  | _ => False
  end.
