(** That trees can be stored in browser files (C76).

    The state [(f, [])] of the store made of a file, and [(s, [])] of the store made of
    a file of the file system: no operation of the browser fails from now on, and
    nobody else uses the file.  [cache_size], [total]: bytes the browser stores; it has
    room for [2^63].  [kids_max] = 98304, [writes_max n], [entries_within b l]: see
    AcceptSpec.v. *)
From Verif Require Import WebTakesExamples Base Header Node Combine Iter Api Spec Client Top Store StoreSpec World
  U64 File Chunk WebFile WebSpec WebStore WebFs WebFsSpec WebFsBlob AcceptSpec WebTakes.
Local Open Scope N_scope.

(** C76: attaching an in-memory tree to a file in the browser cache succeeds, after any history of appends with any faults, if keys and values have at most [b] bytes and the browser has room. *)
Theorem C76_file_attach :
  forall dbg f t m l b, web_inv (f, []) -> Client.reachable dbg t -> holds mem t m -> lists l m ->
  kids_max <= b -> b + 4 < 2147483648 -> entries_within b l ->
  cache_size (w_cache f) + N.of_nat (writes_max (length l)) * (b + 4) < 9223372036854775808 ->
  exists t' s', t_attached web_store t (f, []) = (Ok t', s') /\ web_inv s' /\ holds (st_read web_store s') t' m.
Proof. exact web_attach. Qed.
Print Assumptions C76_file_attach.
Example C76_file_attach_example : web_inv (app_file, []) /\ Client.reachable true wide_t /\ holds mem wide_t (meaning wide_p) /\
  lists wide_l (meaning wide_p) /\ length wide_l = 64%nat /\ entries_within kids_max wide_l /\
  cache_size (w_cache app_file) + N.of_nat (writes_max (length wide_l)) * (kids_max + 4) < 9223372036854775808.
Proof.
  split; [exact app_inv|]; split; [exact wide_reachable|]; split; [exact wide_holds|]; split; [exact wide_lists|];
  split; [reflexivity|]; split; [apply wide_within; discriminate|]. apply app_small. apply Nat.leb_le. reflexivity.
Qed.

(** C76: so does reattaching a tree there, whatever part of it is loaded or changed, and the id returned loads it. *)
Theorem C76_file_reattach :
  forall dbg f t m l b, attached dbg web_store web_inv (f, []) t m -> lists l m ->
  kids_max <= b -> b + 4 < 2147483648 -> entries_within b l ->
  cache_size (w_cache f) + N.of_nat (writes_max (length l)) * (b + 4) < 9223372036854775808 ->
  exists id t' s', t_reattach web_store t (f, []) = (Ok (id, t'), s') /\ web_inv s' /\
    t_load web_store s' (Some id) = Ok t' /\ holds (st_read web_store s') t' m.
Proof. exact web_reattach. Qed.
Print Assumptions C76_file_reattach.
Example C76_file_reattach_example : attached true web_store web_inv (app_file, []) mb_t mb_m /\ lists mb_l mb_m /\
  length mb_l = 65%nat /\ entries_within kids_max mb_l /\
  cache_size (w_cache app_file) + N.of_nat (writes_max (length mb_l)) * (kids_max + 4) < 9223372036854775808.
Proof.
  split; [exact (mb_on web_store web_inv _ app_inv)|]; split; [exact mb_lists|]; split; [reflexivity|];
  split; [apply mb_within; discriminate|]. apply app_small. apply Nat.leb_le. reflexivity.
Qed.

(** C76: the same in a file of the browser file system, next to other files, after any history with faults and restarts, if the file is open. *)
Theorem C76_attach :
  forall dbg d f s t m l b, fs_inv d f (s, []) -> fst (fs_call (KFlush d f) [] s) = Ok RUnit ->
  Client.reachable dbg t -> holds mem t m -> lists l m ->
  kids_max <= b -> b + 4 < 2147483648 -> entries_within b l ->
  total (fs_objs s) + N.of_nat (writes_max (length l)) * (b + 4) < 9223372036854775808 ->
  exists t' s', t_attached (fs_store d f) t (s, []) = (Ok t', s') /\ fs_inv d f s' /\ holds (st_read (fs_store d f) s') t' m.
Proof. exact fs_attach. Qed.
Print Assumptions C76_attach.
Example C76_attach_example : fs_inv (B"d") (B"blobs") (tk_fs, []) /\ fst (fs_call (KFlush (B"d") (B"blobs")) [] tk_fs) = Ok RUnit /\
  Client.reachable true wide_t /\ holds mem wide_t (meaning wide_p) /\ lists wide_l (meaning wide_p) /\
  entries_within kids_max wide_l /\
  total (fs_objs tk_fs) + N.of_nat (writes_max (length wide_l)) * (kids_max + 4) < 9223372036854775808.
Proof.
  split; [exact tk_inv|]; split; [exact tk_flush|]; split; [exact wide_reachable|]; split; [exact wide_holds|]; split; [exact wide_lists|];
  split; [apply wide_within; discriminate|]. apply tk_small. apply Nat.leb_le. reflexivity.
Qed.
Theorem C76_reattach :
  forall dbg d f s t m l b, attached dbg (fs_store d f) (fs_inv d f) (s, []) t m ->
  fst (fs_call (KFlush d f) [] s) = Ok RUnit -> lists l m ->
  kids_max <= b -> b + 4 < 2147483648 -> entries_within b l ->
  total (fs_objs s) + N.of_nat (writes_max (length l)) * (b + 4) < 9223372036854775808 ->
  exists id t' s', t_reattach (fs_store d f) t (s, []) = (Ok (id, t'), s') /\ fs_inv d f s' /\
    t_load (fs_store d f) s' (Some id) = Ok t' /\ holds (st_read (fs_store d f) s') t' m.
Proof. exact fs_reattach. Qed.
Print Assumptions C76_reattach.
Example C76_reattach_example : attached true (fs_store (B"d") (B"blobs")) (fs_inv (B"d") (B"blobs")) (tk_fs, []) mb_t mb_m /\
  fst (fs_call (KFlush (B"d") (B"blobs")) [] tk_fs) = Ok RUnit /\ lists mb_l mb_m /\
  entries_within kids_max mb_l /\
  total (fs_objs tk_fs) + N.of_nat (writes_max (length mb_l)) * (kids_max + 4) < 9223372036854775808.
Proof.
  split; [exact (mb_on _ _ _ tk_inv)|]; split; [exact tk_flush|]; split; [exact mb_lists|];
  split; [apply mb_within; discriminate|]. apply tk_small. apply Nat.leb_le. reflexivity.
Qed.
