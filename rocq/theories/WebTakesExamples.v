(** Examples of trees that are stored in browser files. *)
From Verif Require Export AcceptExamples WebFsBlobExamples.
From Verif Require Import Base BaseLemmas Header Node Combine Iter Api Spec Client Top Store StoreSpec World StoreLemmas U64 File Chunk
  WebFile WebSpec WebStore WebFs WebFsSpec WebFsSim WebFsProofs WebFsBlob AcceptSpec.
Local Open Scope N_scope.

Lemma app_inv : web_inv (app_file, []).
Proof. split; [|constructor]. exact (proj1 web_start_inv). Qed.
Lemma app_small k : (k <= 1000)%nat -> cache_size (w_cache app_file) + N.of_nat k * (kids_max + 4) < 9223372036854775808.
Proof.
  intros H. assert (cache_size (w_cache app_file) < 1000) by (vm_compute; reflexivity). unfold kids_max. lia.
Qed.
Lemma mb_on (S : store) (inv : st S -> Prop) s : inv s -> attached true S inv s mb_t mb_m.
Proof.
  intros I. exact (attached_eval (history_ok true) true S inv s mb_hist 400 _ _ 0 mb_t mb_m I
    ltac:(left; unfold mb_hist; repeat (apply Forall_cons; [cbn; try tauto|]); apply Forall_nil) (mb_exec S s) eq_refl eq_refl).
Qed.

(** A file system with some blobs, another file, and a fault. *)
Definition tk_hist : list event :=
  ft_open ++ ft_log ++ [Call (KAppend (B"d") (B"blobs") (B"first")) []; Call (KAppend (B"d") (B"blobs") (B"lost")) [true]; Restart] ++ ft_open.
Definition tk_fs : fs := snd (fs_run tk_hist new_fs).
Lemma tk_inv : fs_inv (B"d") (B"blobs") (tk_fs, []).
Proof.
  split; [apply quest_free_ok; vm_compute; reflexivity|]. split; [|constructor].
  exists tk_hist, (fst (fs_run tk_hist new_fs)). split; [apply besideb_ok; vm_compute; reflexivity|]. apply surjective_pairing.
Qed.
Lemma tk_flush : fst (fs_call (KFlush (B"d") (B"blobs")) [] tk_fs) = Ok RUnit.
Proof. vm_compute. reflexivity. Qed.
Lemma tk_small k : (k <= 1000)%nat -> total (fs_objs tk_fs) + N.of_nat k * (kids_max + 4) < 9223372036854775808.
Proof.
  intros H. assert (total (fs_objs tk_fs) < 1000) by (vm_compute; reflexivity). unfold kids_max. lia.
Qed.
