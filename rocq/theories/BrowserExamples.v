(** Examples for the browser files. *)
From Verif Require Export MemExamples.
From Verif Require Import Base BaseLemmas Header Node Store U64 File Chunk WebFile WebSpec WebStore.
Local Open Scope N_scope.

(** Two chunks, then a write into the first that fails before its last operation, a
    truncation and a reopening. *)
Definition web_hist : list (call * list bool) :=
  [(CWrite 0 (B "aaaaaaaa"), []); (CWrite 8 (B "bbbbbbbb"), []);
   (CWrite 2 (B "cccc"), [false; false; false; false; true]); (COpen, []); (CTruncate 5, [])].
Definition web_file : wfile := snd (run web_hist new_web_file).
Definition web_results : list (res (option N)) := fst (run web_hist new_web_file).
Lemma web_run : run web_hist new_web_file = (web_results, web_file).
Proof. apply surjective_pairing. Qed.

(** A write into the first of two chunks. *)
Definition web_middle : list (call * list bool) :=
  [(CWrite 0 (B "aaaaaaaa"), []); (CWrite 8 (B "bbbbbbbb"), []); (CWrite 2 (B "cccc"), [])].
Definition middle_file : file :=
  f_write (f_write (f_write empty_file 0 (B "aaaaaaaa")) 8 (B "bbbbbbbb")) 2 (B "cccc").
Lemma middle_effects : effects (map fst web_middle) [Ok None; Ok None; Ok None] empty_file middle_file.
Proof.
  cbn [map fst web_middle]. econstructor; [constructor|]. econstructor; [constructor|]. econstructor; [constructor|]. constructor.
Qed.
(** Appending after a truncation. *)
Definition web_cut : list (call * list bool) :=
  [(CAppend (B "aaaaaaaa"), []); (CTruncate 4, []); (CAppend (B "bbbb"), []); (CAppend (B "cc"), [])].
Definition cut_file : file :=
  f_write (f_write (f_set_len (f_write empty_file 0 (B "aaaaaaaa")) 4) 4 (B "bbbb")) 4 (B "cc").
Lemma cut_effects : effects (map fst web_cut) [Ok (Some 0); Ok None; Ok (Some 4); Ok (Some 4)] empty_file cut_file.
Proof.
  cbn [map fst web_cut].
  econstructor; [constructor; apply N.le_refl|].
  econstructor; [apply E_truncate|].
  econstructor; [constructor; apply N.leb_le; vm_compute; reflexivity|].
  econstructor; [constructor; apply N.leb_le; vm_compute; reflexivity|].
  constructor.
Qed.

(** Appends, one of which fails, and a reopening. *)
Definition web_appends : list (call * list bool) :=
  [(CAppend (B "abc"), []); (CAppend (B "lost"), [true]); (COpen, []); (CAppend [], []); (CAppend (B "def"), [])].
Definition app_file : wfile := snd (run web_appends new_web_file).
Definition app_results : list (res (option N)) := fst (run web_appends new_web_file).
Lemma app_run : run web_appends new_web_file = (app_results, app_file).
Proof. apply surjective_pairing. Qed.
Lemma web_appends_ok : Forall append_only web_appends.
Proof. repeat constructor. Qed.

(** A tree on a browser file: the fourth write fails, after the fifth the page is
    closed and another user appends. *)
Definition web_todo : web_schedule := [([], []); ([], []); ([], []); ([true], []); ([], [(COpen, []); (CAppend (B "other"), [])])].
Lemma web_start_inv : web_inv (app_file, web_todo).
Proof.
  split.
  - exists web_appends, app_results. split; [exact web_appends_ok|exact app_run].
  - repeat constructor.
Qed.

(** ** Counterexamples *)
Lemma web_unreadable : exists cs f F, run cs new_web_file = (map (fun _ => Ok None) cs, f) /\
  effects (map fst cs) (map (fun _ => Ok None) cs) empty_file F /\
  exists s e, s < e /\ e <= f_len F /\ read_now f [] s e = Err.
Proof.
  exists web_middle, (snd (run web_middle new_web_file)), middle_file. split; [vm_compute; reflexivity|].
  split; [exact middle_effects|]. exists 8, 16. split; [reflexivity|]. split; [discriminate|]. vm_compute. reflexivity.
Qed.
Lemma web_length_short : exists cs f F n, run cs new_web_file = (map (fun _ => Ok None) cs, f) /\
  effects (map fst cs) (map (fun _ => Ok None) cs) empty_file F /\
  length_now f = Ok n /\ n < f_len F /\
  exists d f', d <> [] /\ step (CAppend d, []) f = (Ok (Some n), f') /\ n + N.of_nat (length d) <= f_len F.
Proof.
  exists web_middle, (snd (run web_middle new_web_file)), middle_file, 8. split; [vm_compute; reflexivity|].
  split; [exact middle_effects|]. split; [vm_compute; reflexivity|]. split; [reflexivity|].
  exists (B "dd"). eexists. split; [discriminate|]. split; [vm_compute; reflexivity|discriminate].
Qed.
Lemma web_append_overwrites : exists f,
  run [(CAppend (B "aaaaaaaa"), []); (CTruncate 4, []); (CAppend (B "bbbb"), []); (CAppend (B "cc"), [])] new_web_file
    = ([Ok (Some 0); Ok None; Ok (Some 4); Ok (Some 4)], f) /\
  read_now f [] 0 8 = Ok (B "aaaaccbb").
Proof. eexists. split; [vm_compute; reflexivity|]. vm_compute. reflexivity. Qed.
