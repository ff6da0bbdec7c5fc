(** Examples of files in the browser cache that are written page by page. *)
From Verif Require Import BrowserExamples Base BaseLemmas Header Node Store U64 File Chunk WebFile WebSpec WebPagesSpec.
Local Open Scope N_scope.

(** A file of three pages of two bytes; a failing write, a cut, a reopening, an append. *)
Definition page_calls : list (call * list bool) :=
  [(CWrite 0 (B "aa"), []); (CWrite 4 (B "cc"), []); (CWrite 2 (B "bb"), []); (CWrite 4 (B "dd"), [true]); (COpen, []);
   (CTruncate 4, []); (CWrite 2 (B "BB"), [false; true]); (CAppend (B "ee"), [])].
Lemma page_calls_ok : Forall (fun c => page_call 2 (fst c)) page_calls.
Proof.
  unfold page_calls.
  repeat constructor; cbn [fst page_call]; try reflexivity;
    first [now exists 0|now exists 1|now exists 2].
Qed.
