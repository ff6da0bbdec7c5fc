(** Storing a tree succeeds (C68).

    [takes S b k s]: the store in state [s] accepts the next [k] writes of at most [b]
    bytes each.  [entries_within b l]: no key and no value in [l] has more than [b]
    bytes.  [room_for ps k cs]: after the calls [cs] the paged file has room for [k]
    more writes.  See AcceptSpec.v. *)
From Verif Require Import AcceptExamples Base Header Node Combine Iter Api Spec Client Top Store StoreSpec World
  U64 MemStore MemStoreProofs File PagedFile PagedSpec PagedStore PagedStoreProofs AcceptSpec AcceptTop.

(** C68: attaching an in-memory tree to a store that accepts blocks of 98304 bytes, and of the lengths of the keys and values, succeeds. *)
Theorem C68_attach :
  forall dbg S inv s t m l b, lawful S inv -> inv s -> reachable dbg t -> holds mem t m -> lists l m ->
  (kids_max <= b)%N -> entries_within b l -> takes S b (writes_max (length l)) s ->
  exists t' s', t_attached S t s = (Ok t', s') /\ inv s' /\ holds (st_read S s') t' m.
Proof. exact (fun dbg S inv s t m l b L I R H Hl Hb => acc_attached dbg S inv L b Hb s t m l I R H Hl). Qed.
Print Assumptions C68_attach.
Example C68_attach_example : lawful mem_store mem_inv /\ mem_inv ex_s /\ reachable true wide_t /\ holds mem wide_t (meaning wide_p) /\
  lists wide_l (meaning wide_p) /\ length wide_l = 64 /\ entries_within kids_max wide_l /\
  takes mem_store kids_max (writes_max (length wide_l)) ex_s.
Proof.
  split; [exact mem_lawful|]; split; [exact ex_inv|]; split; [exact wide_reachable|]; split; [exact wide_holds|];
  split; [exact wide_lists|]; split; [reflexivity|]; split; [apply wide_within; discriminate|].
  apply mem_takes; [exact ex_inv|]. reflexivity.
Qed.

(** C68: so does reattaching a tree on a store, whatever part of it is loaded or changed, and the id returned loads it. *)
Theorem C68_reattach :
  forall dbg S inv s t m l b, lawful S inv -> attached dbg S inv s t m -> lists l m ->
  (kids_max <= b)%N -> entries_within b l -> takes S b (writes_max (length l)) s ->
  exists id t' s', t_reattach S t s = (Ok (id, t'), s') /\ inv s' /\
    t_load S s' (Some id) = Ok t' /\ holds (st_read S s') t' m.
Proof. exact (fun dbg S inv s t m l b L A Hl Hb => acc_reattach dbg S inv L b Hb s t m l A Hl). Qed.
Print Assumptions C68_reattach.
Example C68_reattach_example : lawful (paged_store true mb) (paged_inv true mb) /\
  attached true (paged_store true mb) (paged_inv true mb) (fresh mb, []) mb_t mb_m /\ lists mb_l mb_m /\ length mb_l = 65 /\
  entries_within (mb - 8) mb_l /\ takes (paged_store true mb) (mb - 8) (writes_max (length mb_l)) (fresh mb, []).
Proof.
  split; [exact (paged_lawful true mb mb_page)|]; split; [exact mb_attached|]; split; [exact mb_lists|]; split; [reflexivity|];
  split; [apply mb_within; discriminate|].
  exact (paged_takes true mb (mb - 8) mb_page ltac:(discriminate) (writes_max (length mb_l)) mb_calls _ _ (mb_calls_ok true) mb_fresh eq_refl).
Qed.

(** C68: the in-memory store accepts everything until its counter overflows. *)
Theorem C68_mem_store :
  forall b k s, mem_inv s -> (top s + N.of_nat k < u64_max)%N -> takes mem_store b k s.
Proof. exact mem_takes. Qed.
Print Assumptions C68_mem_store.
Example C68_mem_store_example : mem_inv ex_s /\ (0 < top ex_s)%N /\ (top ex_s + N.of_nat 1000 < u64_max)%N.
Proof. split; [exact ex_inv|]; split; reflexivity. Qed.

(** C68: on a paged file store with pages of at least 98312 bytes, after any history of calls (with I/O errors and crashes), attaching succeeds if every key and value fits into a page and the file has room. *)
Theorem C68_paged_attach :
  forall dbg ps cs evs s t m l, page_size_ok ps -> (kids_max + 8 <= ps)%N -> history dbg cs ->
  PagedSpec.run dbg ps new_file cs = (evs, Opened s) -> reachable dbg t -> holds mem t m -> lists l m ->
  entries_within (ps - 8) l -> room_for ps (writes_max (length l)) cs ->
  exists t' s', t_attached (paged_store dbg ps) t (s, []) = (Ok t', s') /\ holds (st_read (paged_store dbg ps) s') t' m.
Proof. exact paged_attach. Qed.
Print Assumptions C68_paged_attach.
Example C68_paged_attach_example : page_size_ok mb /\ (kids_max + 8 <= mb)%N /\ history true mb_calls /\
  PagedSpec.run true mb new_file mb_calls = (fst (PagedSpec.run true mb new_file mb_calls), Opened (fresh mb)) /\
  reachable true wide_t /\ holds mem wide_t (meaning wide_p) /\ lists wide_l (meaning wide_p) /\
  entries_within (mb - 8) wide_l /\ room_for mb (writes_max (length wide_l)) mb_calls.
Proof.
  split; [exact mb_page|]; split; [discriminate|]; split; [exact (mb_calls_ok true)|]; split; [exact mb_fresh|];
  split; [exact wide_reachable|]; split; [exact wide_holds|]; split; [exact wide_lists|];
  split; [apply wide_within; discriminate|reflexivity].
Qed.
(** The bound on the page size matters: a tree with 64 keys of one byte and values of 100 bytes is refused with pages of 4096 bytes. *)
Example C68_small_page_example : page_size_ok 4096 /\ history true mb_calls /\
  PagedSpec.run true 4096 new_file mb_calls = (fst (PagedSpec.run true 4096 new_file mb_calls), Opened (fresh 4096)) /\
  reachable true wide_t /\ holds mem wide_t (meaning wide_p) /\ lists wide_l (meaning wide_p) /\
  entries_within 100 wide_l /\ room_for 4096 (writes_max (length wide_l)) mb_calls /\
  fst (t_attached (paged_store true 4096) wide_t (fresh 4096, [])) = Err.
Proof.
  split; [exact kb_page|]; split; [exact (mb_calls_ok true)|]; split; [exact kb_fresh|];
  split; [exact wide_reachable|]; split; [exact wide_holds|]; split; [exact wide_lists|];
  split; [apply wide_within; reflexivity || discriminate|]; split; [reflexivity|exact kb_refused].
Qed.

(** C68: the same for reattaching. *)
Theorem C68_paged_reattach :
  forall dbg ps cs evs s t m l, page_size_ok ps -> (kids_max + 8 <= ps)%N -> history dbg cs ->
  PagedSpec.run dbg ps new_file cs = (evs, Opened s) ->
  attached dbg (paged_store dbg ps) (paged_inv dbg ps) (s, []) t m -> lists l m ->
  entries_within (ps - 8) l -> room_for ps (writes_max (length l)) cs ->
  exists id t' s', t_reattach (paged_store dbg ps) t (s, []) = (Ok (id, t'), s') /\
    t_load (paged_store dbg ps) s' (Some id) = Ok t' /\ holds (st_read (paged_store dbg ps) s') t' m.
Proof. exact paged_reattach. Qed.
Print Assumptions C68_paged_reattach.
Example C68_paged_reattach_example : page_size_ok mb /\ (kids_max + 8 <= mb)%N /\ history true mb_calls /\
  PagedSpec.run true mb new_file mb_calls = (fst (PagedSpec.run true mb new_file mb_calls), Opened (fresh mb)) /\
  attached true (paged_store true mb) (paged_inv true mb) (fresh mb, []) mb_t mb_m /\ lists mb_l mb_m /\
  entries_within (mb - 8) mb_l /\ room_for mb (writes_max (length mb_l)) mb_calls.
Proof.
  split; [exact mb_page|]; split; [discriminate|]; split; [exact (mb_calls_ok true)|]; split; [exact mb_fresh|];
  split; [exact mb_attached|]; split; [exact mb_lists|]; split; [apply mb_within; discriminate|reflexivity].
Qed.
