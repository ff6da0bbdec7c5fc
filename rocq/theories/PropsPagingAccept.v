(** That calls on paging files succeed (C75).

    [usable D inv good L], PagingUsable.v: what it means that the file below works.
    [p_len m]: the position in the file after the last blob.  See PagingSpec.v for the
    rest. *)
From Verif Require Import PagingAcceptExamples Base BaseLemmas Header Node Store U64 File Chunk WebFile WebSpec Paging PagingSpec
  PagingUsable PagingWeb PagingAccept.
Local Open Scope N_scope.

(** C75: after any history over any file that keeps what was written, with any faults: if the file works now, then opening succeeds, and if the paging file is open and one more page ends before the limit, sync succeeds and so does appending every blob of at most [ps - 12] bytes ([ps - 9] if 8 divides [ps]). *)
Theorem C75_paging :
  forall D ex inv ps good L, file_dev D true inv -> (ex = true -> exact_length D inv) -> page_size_ok ps -> usable D inv good L ->
  forall s F cs rs s', inv s F -> Forall (size_ok ps) cs -> prun D ps cs (s, None) = (rs, s') -> good (fst s') ->
  fst (pstep D ps POpen s') = Ok ODone /\
  forall m, snd s' = Some m -> p_len m + ps < L ->
    fst (pstep D ps PSync s') = Ok ODone /\
    forall d, N.of_nat (length d) + 12 <= ps \/ ps mod 8 = 0 /\ N.of_nat (length d) + 9 <= ps ->
      exists n, fst (pstep D ps (PAppend d) s') = Ok (OId n).
Proof. exact paging_accepts. Qed.
Print Assumptions C75_paging.
Example C75_paging_example : file_dev plain_dev true plain_inv /\ exact_length plain_dev plain_inv /\ page_size_ok 64 /\
  usable plain_dev plain_inv plain_good i64_lim /\ plain_inv (plain_new pg_faults) empty_file /\ Forall (size_ok 64) pg_hist /\
  prun plain_dev 64 pg_hist (plain_new pg_faults, None) = (pg_results, pg_end) /\ plain_good (fst pg_end) /\
  snd pg_end = Some (mem_of pg_end) /\ p_len (mem_of pg_end) = 75 /\
  fst (pstep plain_dev 64 (PAppend (B"more")) pg_end) = Ok (OId 76).
Proof.
  split; [exact plain_file_dev|]. split; [exact plain_exact|]. split; [split; reflexivity|]. split; [exact plain_usable|].
  split; [apply plain_new_inv|]. split; [exact pg_sizes|]. split; [exact pg_run|]. split; [apply pg_good|]. exact pg_more.
Qed.

(** C75: the same over a new file in the browser cache, when the browser works and all data of the file ends before [2^31]. *)
Theorem C75_web :
  forall ps, page_size_ok ps ->
  forall t cs rs s', Forall (size_ok ps) cs -> prun web_dev ps cs (with_faults t new_web_file, None) = (rs, s') ->
  browser_works (fst s') ->
  fst (pstep web_dev ps POpen s') = Ok ODone /\
  forall m, snd s' = Some m -> p_len m + ps < 2147483648 ->
    fst (pstep web_dev ps PSync s') = Ok ODone /\
    forall d, N.of_nat (length d) + 12 <= ps \/ ps mod 8 = 0 /\ N.of_nat (length d) + 9 <= ps ->
      exists n, fst (pstep web_dev ps (PAppend d) s') = Ok (OId n).
Proof. exact paging_web_accepts. Qed.
Print Assumptions C75_web.
Example C75_web_example : page_size_ok 64 /\ Forall (size_ok 64) pw_hist /\
  prun web_dev 64 pw_hist (with_faults pw_faults new_web_file, None) = (pw_results, pw_end) /\
  pw_results = [Err; Ok ODone; Ok (OId 4); Err; Ok (OId 68); Ok (OData (long 50 x01))] /\ browser_works (fst pw_end) /\
  snd pw_end = Some (mem_of pw_end) /\ p_len (mem_of pw_end) = 122 /\
  fst (pstep web_dev 64 (PAppend (B"more")) pw_end) = Ok (OId 132) /\ fst (pstep web_dev 64 PSync pw_end) = Ok ODone.
Proof.
  split; [split; reflexivity|]. split; [exact pw_sizes|]. split; [exact pw_run|]. split; [exact pw_shown|].
  split; [exact pw_works|]. exact pw_more.
Qed.
