(** The length of files in the browser cache that are written page by page (C47).

    [turns P calls results no_pages s]: by the calls and their results, page [i] is in
    the file if [s i] is [Some n], and was overwritten [n] times since it was put there.
    See WebPagesSpec.v. *)
From Verif Require Import PagesExamples BrowserExamples Base BaseLemmas Header Node Store U64 File Chunk WebFile WebSpec WebPagesSpec WebPages.
Local Open Scope N_scope.

(** C47, partly: in a file written page by page, the length is the end of the last of
    the pages that were overwritten most often; not, as it should be, of the last page. *)
Theorem C47_pages_partial :
  forall P, 0 < P -> forall cs rs f, Forall (fun c => page_call P (fst c)) cs -> run cs new_web_file = (rs, f) ->
  exists s n, turns P (map fst cs) rs no_pages s /\ busiest_end P s n /\ length_now f = Ok n.
Proof. exact pages_length. Qed.
Print Assumptions C47_pages_partial.
Example C47_pages_example : 0 < 2 /\ Forall (fun c => page_call 2 (fst c)) page_calls /\
  fst (run page_calls new_web_file) = [Ok None; Ok None; Ok None; Err; Ok None; Ok None; Err; Ok (Some 4)] /\
  length_now (snd (run page_calls new_web_file)) = Ok 4 /\
  read_now (snd (run page_calls new_web_file)) [] 4 6 = Err.
Proof. split; [reflexivity|]. split; [exact page_calls_ok|]. vm_compute; auto. Qed.

(** C47, partly: so the length of such a file is right exactly if no page was overwritten
    more often than the last one. *)
Theorem C47_last_page_partial :
  forall P cs rs f, 0 < P -> Forall (fun c => page_call P (fst c)) cs -> run cs new_web_file = (rs, f) ->
  exists s, turns P (map fst cs) rs no_pages s /\
  (forall i l, s i = Some l -> (forall j l', s j = Some l' -> j <= i) ->
     (length_now f = Ok ((i + 1) * P) <-> forall j l', s j = Some l' -> l' <= l)) /\
  ((forall i, s i = None) <-> length_now f = Ok 0).
Proof. exact pages_last. Qed.
Print Assumptions C47_last_page_partial.
Example C47_last_page_example : 0 < 2 /\ Forall (fun c => page_call 2 (fst c)) (firstn 6 page_calls) /\
  length_now (snd (run (firstn 6 page_calls) new_web_file)) = Ok 4.
Proof. split; [reflexivity|]. split; [|vm_compute; reflexivity].
  apply Forall_forall. intros c Hc. exact (proj1 (Forall_forall _ _) page_calls_ok c (in_or_app _ _ c (or_introl Hc))). Qed.
