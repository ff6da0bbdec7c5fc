(** [SyncFs]: commands to the file system in the browser cache from many threads. *)
From Verif Require Import Base BaseLemmas Header Node Store U64 File Chunk WebFile WebFs.

(** The loop [run] of [WebCacheFs] (web_cache_fs.rs:158-259) and the calls made on
    [SyncFs], [SyncDir] and [SyncFile] (sync_fs.rs:88-228).  Each call has a number; it
    stands for the oneshot channel the call makes.  [n_queue]: the [mpsc] queue
    (first in, first out); [n_busy]: the command the loop is executing; [n_sent]: what
    was sent on the oneshot channel of a call; [n_next]: the next number.  Which thread
    makes a call is left open: threads that wait for their call before they make the
    next give some of these executions. *)
Record net : Type := Net {
  n_fs : fs;
  n_queue : list (nat * cmd);
  n_busy : option (nat * cmd);
  n_sent : nat -> option (res reply);
  n_next : nat
}.
Definition net_start (s : fs) : net := Net s [] None (fun _ => None) 0.

(** What happens, in the order in which it happens. *)
Inductive label : Type :=
| Invoke (c : cmd)                  (* [unbounded_send] of a call *)
| Begin                             (* [self.queue.next()] *)
| Finish (t : list bool)            (* the command was executed; [cb.send] *)
| Return (k : nat) (r : res reply). (* [block_on(rx)] of call [k] has returned *)

Definition send (k : nat) (r : res reply) (sent : nat -> option (res reply)) : nat -> option (res reply) :=
  fun j => if Nat.eqb j k then Some r else sent j.
(** [Command::Shutdown] has no callback, sync_fs.rs:79, 124-126. *)
Definition has_callback (c : cmd) : bool := match c with KShutdown => false | _ => true end.

(** When the loop has ended (by [Shutdown], or by a panic in a command), the channels
    that were not used are dropped and their calls return an error; in a browser a
    panic only stops the worker, and calls may then also wait forever. *)
Inductive net_step : net -> label -> net -> Prop :=
| N_invoke s q b m k c : net_step (Net s q b m k) (Invoke c) (Net s (q ++ [(k, c)]) b m (S k))
| N_begin s x q m k : fs_up s = true -> net_step (Net s (x :: q) None m k) Begin (Net s q (Some x) m k)
| N_finish s q j c m k t r s' : fs_call c t s = (r, s') -> r <> Panic ->
    net_step (Net s q (Some (j, c)) m k) (Finish t)
      (Net s' q None (if has_callback c then send j r m else m) k)
| N_panic s q j c m k t s' : fs_call c t s = (Panic, s') ->
    net_step (Net s q (Some (j, c)) m k) (Finish t) (Net s' q None m k)
| N_return s q b m k j r : m j = Some r -> net_step (Net s q b m k) (Return j r) (Net s q b m k)
| N_dropped s q b m k j : fs_up s = false -> (j < k)%nat -> m j = None ->
    net_step (Net s q b m k) (Return j Err) (Net s q b m k).
Inductive net_run : net -> list label -> net -> Prop :=
| R_nil n : net_run n [] n
| R_snoc n tr l n' n'' : net_run n tr n' -> net_step n' l n'' -> net_run n (tr ++ [l]) n''.
