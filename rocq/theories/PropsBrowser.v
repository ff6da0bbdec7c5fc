(** The properties of files in the browser cache (C43-C48, C59).

    [run cs new_web_file = (rs, f)]: the calls [cs] were made on a new file, with the
    results [rs]; each call comes with a list of faults that says which of its
    operations on the cache fail.  [effects cs rs empty_file F]: by what the calls
    are meant to do, a file that was empty now has the contents [F].  [shows f F]:
    what reads return agrees with [F].  See WebSpec.v. *)
From Verif Require Import WebTreeExamples Base BaseLemmas Header Node Combine Iter Api Spec Client Store StoreSpec World
  U64 File Chunk ChunkProofs WebFile WebSpec WebTop WebStore WebAppend WebDurable.
Local Open Scope N_scope.

(** C43: the name of a chunk can be parsed again. *)
Theorem C43_round_trip :
  forall l o n, l < u64_max -> o < u64_max -> n < u64_max ->
  parse_chunk (chunk_name (Chunk l o n)) = Ok (Chunk l o n).
Proof. exact (fun l o n Hl Ho Hn => parse_name (Chunk l o n) (conj Hl (conj Ho Hn))). Qed.
Print Assumptions C43_round_trip.
Example C43_round_trip_example : 18446744073709551615 < u64_max /\
  chunk_name (Chunk 1 18446744073709551615 65537) = B "0001-ffffffffffffffff-10001".
Proof. vm_compute; auto. Qed.

(** C43: two chunks never share a request, neither in one file nor in different files. *)
Theorem C43_distinct :
  forall f g c d, ~ In x3f f -> ~ In x3f g ->
  level c < u64_max -> offset c < u64_max -> len c < u64_max ->
  level d < u64_max -> offset d < u64_max -> len d < u64_max ->
  request_str f c = request_str g d -> f = g /\ c = d.
Proof. exact (fun f g c d Hf Hg A1 A2 A3 B1 B2 B3 => request_inj f g c d Hf Hg (conj A1 (conj A2 A3)) (conj B1 (conj B2 B3))). Qed.
Print Assumptions C43_distinct.
Example C43_distinct_example : ~ In x3f (B "db-1") /\ request_str (B "db-1") (Chunk 0 16 256) = B "/db-1?0000-00000010-0100".
Proof. split; [|vm_compute; reflexivity]. intros H. vm_compute in H. repeat (destruct H as [H|H]; [discriminate|]). exact H. Qed.

(** C43: opening a file finds exactly the chunks stored under its name. *)
Theorem C43_found :
  forall f g c, ~ In x3f f -> level c < u64_max -> offset c < u64_max -> len c < u64_max ->
  parse_and_filter (request_str f c) g = Ok (if bytes_eqb f g then Some c else None) /\
  (bytes_eqb f g = true <-> f = g).
Proof. exact (fun f g c Hf A1 A2 A3 => conj (parse_request f g c Hf (conj A1 (conj A2 A3))) (bytes_eqb_spec f g)). Qed.
Print Assumptions C43_found.
Example C43_found_example : parse_and_filter (B "/db-1?0000-00000010-0100") (B "db-1") = Ok (Some (Chunk 0 16 256)) /\
  parse_and_filter (B "/db-1?0000-00000010-0100") (B "db") = Ok None.
Proof. vm_compute; auto. Qed.

(** C44: for a stored range [a..b] and a requested range [c..d] that overlap, [ranges] gives the parts of the two buffers that hold the common positions, if they are addressable on wasm32. *)
Theorem C44_ranges :
  forall a b c d, a <= b -> c <= d -> b < i64_lim -> d < i64_lim -> b - a < usize_lim -> d - c < usize_lim ->
  overlap (a, b) (c, d) = true ->
  exists s1 e1 s2 e2, ranges (a, b) (c, d) = Ok ((s1, e1), (s2, e2)) /\
    s1 <= e1 /\ e1 <= b - a /\ s2 <= e2 /\ e2 <= d - c /\ e1 - s1 = e2 - s2 /\
    (forall i, s1 <= i < e1 -> a + i = c + (s2 + (i - s1))) /\
    (forall x, a <= x < b /\ c <= x < d <-> exists i, s1 <= i < e1 /\ x = a + i).
Proof. exact ranges_correct. Qed.
Print Assumptions C44_ranges.
Example C44_ranges_example : overlap (100, 200) (150, 1000) = true /\ ranges (100, 200) (150, 1000) = Ok ((50, 100), (0, 50)).
Proof. vm_compute; auto. Qed.

(** C44: whatever the numbers, [ranges] for overlapping ranges gives an error or the right result. *)
Theorem C44_ranges_or_error :
  forall a b c d, a <= b -> c <= d -> overlap (a, b) (c, d) = true ->
  ranges (a, b) (c, d) = Err \/
  exists s1 e1 s2 e2, ranges (a, b) (c, d) = Ok ((s1, e1), (s2, e2)) /\
    s1 <= e1 /\ e1 <= b - a /\ s2 <= e2 /\ e2 <= d - c /\ e1 - s1 = e2 - s2 /\
    (forall i, s1 <= i < e1 -> a + i = c + (s2 + (i - s1))) /\
    (forall x, a <= x < b /\ c <= x < d <-> exists i, s1 <= i < e1 /\ x = a + i).
Proof. exact ranges_correct_or_error. Qed.
Print Assumptions C44_ranges_or_error.
Example C44_ranges_or_error_example : overlap (0, 9223372036854775809) (9223372036854775808, 9223372036854775810) = true /\
  ranges (0, 9223372036854775809) (9223372036854775808, 9223372036854775810) = Err.
Proof. vm_compute; auto. Qed.

(** C44: [overlap] and [contains] say what they should about nonempty ranges. *)
Theorem C44_overlap :
  forall a b c d, a < b -> c < d ->
  (overlap (a, b) (c, d) = true <-> exists x, a <= x < b /\ c <= x < d) /\
  (contains (a, b) (c, d) = true <-> forall x, c <= x < d -> a <= x < b).
Proof. exact overlap_correct. Qed.
Print Assumptions C44_overlap.
Example C44_overlap_example : overlap (0, 10) (9, 12) = true /\ overlap (0, 10) (10, 12) = false /\
  contains (0, 10) (2, 10) = true /\ contains (0, 10) (2, 11) = false.
Proof. vm_compute; auto. Qed.

(** C45, partly: after any history with any faults, and after any further call, reads that succeed return the bytes that were written last.  Not proved, see C45_refuted: that reads inside the file succeed. *)
Theorem C45_contents_partial :
  forall cs rs f, run cs new_web_file = (rs, f) ->
  exists F, effects (map fst cs) rs empty_file F /\ shows f F /\
    forall c r f', step c f = (r, f') -> exists F', effect (fst c) r F F' /\ shows f' F'.
Proof. exact web_contents. Qed.
Print Assumptions C45_contents_partial.
Example C45_contents_example : run web_hist new_web_file = (web_results, web_file) /\
  web_results = [Ok None; Ok None; Err; Ok None; Ok None] /\ read_now web_file [] 0 5 = Ok (B "aaccc").
Proof. split; [exact web_run|]. vm_compute; auto. Qed.

(** C45, partly: in a file of less than 2^31 bytes, reads up to what [length] says succeed when the cache works. *)
Theorem C45_read_accepted_partial :
  forall cs rs f, run cs new_web_file = (rs, f) ->
  exists F, effects (map fst cs) rs empty_file F /\ shows f F /\
    (f_len F < i32_lim -> forall s e n, s <= e -> length_now f = Ok n -> e <= n ->
     read_now f [] s e = Ok (f_read F s (N.to_nat (e - s)))).
Proof. exact web_read_accepted. Qed.
Print Assumptions C45_read_accepted_partial.
Example C45_read_accepted_example : run web_hist new_web_file = (web_results, web_file) /\ length_now web_file = Ok 5 /\
  read_now web_file [] 1 4 = Ok (B "acc").
Proof. split; [exact web_run|]. vm_compute; auto. Qed.

(** C45 fails: after a write into the first of two chunks, the second can not be read any more. *)
Theorem C45_refuted :
  exists cs f F, run cs new_web_file = (map (fun _ => Ok None) cs, f) /\
  effects (map fst cs) (map (fun _ => Ok None) cs) empty_file F /\
  exists s e, s < e /\ e <= f_len F /\ read_now f [] s e = Err.
Proof. exact web_unreadable. Qed.
Print Assumptions C45_refuted.

(** C46: a write that is cut short at any point has all of its effect or none, and has all of it if it returned. *)
Theorem C46_atomic :
  forall cs rs f o d t r f1 t2 r2 f2, run cs new_web_file = (rs, f) ->
  step (CWrite o d, t) f = (r, f1) -> step (COpen, t2) f1 = (r2, f2) ->
  exists F, effects (map fst cs) rs empty_file F /\ shows f F /\
    (shows f2 F \/ shows f2 (f_write F o d)) /\ (r = Ok None -> shows f2 (f_write F o d)).
Proof. exact web_atomic. Qed.
Print Assumptions C46_atomic.
Example C46_atomic_example : run web_hist new_web_file = (web_results, web_file) /\
  let (r, f1) := step (CWrite 1 (B "xyz"), [false; true]) web_file in
  let (_, f2) := step (COpen, []) f1 in
  r = Err /\ read_now f2 [] 0 4 = Ok (B "axyz") /\
  fst (step (CWrite 1 (B "xyz"), [true]) web_file) = Err.
Proof. split; [exact web_run|]. vm_compute; auto. Qed.

(** C46: the same for [append]. *)
Theorem C46_append_atomic :
  forall cs rs f d t r f1 t2 r2 f2, run cs new_web_file = (rs, f) ->
  step (CAppend d, t) f = (r, f1) -> step (COpen, t2) f1 = (r2, f2) ->
  exists F o, effects (map fst cs) rs empty_file F /\ shows f F /\ o <= f_len F /\
    (shows f2 F \/ shows f2 (f_write F o d)) /\ (forall o', r = Ok (Some o') -> o' = o /\ shows f2 (f_write F o d)).
Proof. exact web_append_atomic. Qed.
Print Assumptions C46_append_atomic.
Example C46_append_atomic_example : run web_hist new_web_file = (web_results, web_file) /\
  let (r, f1) := step (CAppend (B "xyz"), []) web_file in
  let (_, f2) := step (COpen, []) f1 in r = Ok (Some 5) /\ read_now f2 [] 0 5 = Ok (B "aaccc").
Proof. split; [exact web_run|]. vm_compute; auto. Qed.

(** C47 fails: [length] can be less than the end of the file, and then [append] overwrites. *)
Theorem C47_length_refuted :
  exists cs f F n, run cs new_web_file = (map (fun _ => Ok None) cs, f) /\
  effects (map fst cs) (map (fun _ => Ok None) cs) empty_file F /\
  length_now f = Ok n /\ n < f_len F /\
  exists d f', d <> [] /\ step (CAppend d, []) f = (Ok (Some n), f') /\ n + N.of_nat (length d) <= f_len F.
Proof. exact web_length_short. Qed.
Print Assumptions C47_length_refuted.

(** C47 fails: after [truncate], the second [append] overwrites what the first one wrote. *)
Theorem C47_append_refuted :
  exists f, run [(CAppend (B "aaaaaaaa"), []); (CTruncate 4, []); (CAppend (B "bbbb"), []); (CAppend (B "cc"), [])] new_web_file
    = ([Ok (Some 0); Ok None; Ok (Some 4); Ok (Some 4)], f) /\
  read_now f [] 0 8 = Ok (B "aaaaccbb").
Proof. exact web_append_overwrites. Qed.
Print Assumptions C47_append_refuted.

(** C47, partly: it holds for files that are only appended to, with faults and reopenings in between. *)
Theorem C47_append_only_partial :
  forall cs rs f, Forall append_only cs -> run cs new_web_file = (rs, f) ->
  length_now f = Ok (N.of_nat (length (appended cs rs))) /\
  (forall t s e, s <= e -> read_now f t s e = Err \/
     e <= N.of_nat (length (appended cs rs)) /\
     read_now f t s e = Ok (firstn (N.to_nat (e - s)) (skipn (N.to_nat s) (appended cs rs)))) /\
  (forall d t r f', step (CAppend d, t) f = (r, f') ->
     r = Ok (Some (N.of_nat (length (appended cs rs)))) \/ r = Err \/
     r = Panic /\ u64_max <= N.of_nat (length (appended cs rs)) + N.of_nat (length d)).
Proof. exact append_only_file. Qed.
Print Assumptions C47_append_only_partial.
Example C47_append_only_example : Forall append_only web_appends /\ run web_appends new_web_file = (app_results, app_file) /\
  appended web_appends app_results = B "abcdef" /\ read_now app_file [] 1 6 = Ok (B "bcdef").
Proof. split; [exact web_appends_ok|]. split; [exact app_run|]. vm_compute; auto. Qed.

(** C48: [truncate] leaves the bytes before [n] and none after; when it fails half way, each byte from [n] on is unchanged or zero. *)
Theorem C48_truncate :
  forall cs rs f n t r f', run cs new_web_file = (rs, f) -> step (CTruncate n, t) f = (r, f') ->
  exists F, effects (map fst cs) rs empty_file F /\ shows f F /\
    (r = Ok None /\ shows f' (f_set_len F (N.min n (f_len F))) \/
     r = Err /\ exists F', f_len F' = f_len F /\
       (forall x, f_at F' x = f_at F x \/ n <= x /\ f_at F' x = x00) /\ shows f' F').
Proof. exact web_truncate. Qed.
Print Assumptions C48_truncate.
Example C48_truncate_example : run web_hist new_web_file = (web_results, web_file) /\
  let (r, f1) := step (CTruncate 3, []) web_file in
  r = Ok None /\ read_now f1 [] 0 3 = Ok (B "aac") /\ length_now f1 = Ok 3 /\ read_now f1 [] 0 4 = Err.
Proof. split; [exact web_run|]. vm_compute; auto. Qed.

(** C59: a browser file used as a blob store keeps the contract of a blob store through faults and reopening, so the theorems C25-C34 hold for trees on it. *)
Theorem C59_lawful : lawful web_store web_inv.
Proof. exact web_lawful. Qed.
Print Assumptions C59_lawful.
Example C59_lawful_example : web_inv (app_file, web_todo).
Proof. exact web_start_inv. Qed.

(** C59: any history of trees on a browser file, whatever faults happen: the trees have their contents; and after any further appends, faults and reopenings every id that a successful reattach returned loads the contents the tree had then. *)
Theorem C59_durable :
  forall dbg s h, web_inv s -> history_ok dbg h ->
  exists oks w, exec dbg web_store (start (S:=web_store) s) h ⇓ Ok (oks, w) /\ length oks = length h /\
    Forall2 (holds (st_read web_store (w_st w))) (w_trees w) (m_trees (model no_maps h oks)) /\
    forall cs rs f2, Forall append_only cs -> WebSpec.run cs (fst (w_st w)) = (rs, f2) ->
    Forall2 (fun id m => exists t, t_load web_store (f2, []) (Some id) = Ok t /\
                                   holds (st_read web_store (f2, [])) t m)
      (w_ids w) (m_saved (model no_maps h oks)).
Proof. exact web_durable. Qed.
Print Assumptions C59_durable.
Example C59_durable_example : web_inv (app_file, web_todo) /\ history_ok true wb_hist /\
  match wb_exec with Ok (oks, w) => oks = [true; true; false; true; true; true; true; true; true] /\
    length (w_ids w) = 3%nat /\ length (w_trees w) = 2%nat | _ => False end /\
  Forall append_only wb_later.
Proof. split; [exact web_start_inv|]; split; [exact wb_hist_ok|]; split; [exact wb_oks|repeat constructor]. Qed.
