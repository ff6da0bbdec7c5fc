(** Examples for calls on paging files that succeed. *)
From Verif Require Export PagingExamples.
From Verif Require Import Base BaseLemmas Header Node Store U64 File Chunk WebFile WebSpec Paging PagingSpec PagingUsable PagingWeb PagingAccept.
Local Open Scope N_scope.

Lemma plain_usable : usable plain_dev plain_inv plain_good i64_lim.
Proof.
  constructor.
  - intros s F [<- H] G. unfold plain_good in G. cbn [dv_length plain_dev]. unfold next_fault. rewrite G. cbn [hd fst].
    eexists _, _. split; [reflexivity|]. intros a b Hab Hb. cbn [dv_read plain_dev]. unfold next_fault, drop_fault. cbn [snd fst]. rewrite G.
    cbn [tl hd fst]. apply N.leb_le in Hb. rewrite Hb. eauto.
  - intros s F o d [<- H] G Ho. unfold plain_good in G. cbn [dv_write plain_dev]. unfold plain_write, next_fault. rewrite G. cbn [hd fst].
    assert (f_len (f_write (fst s) o d) <? i64_lim = true) as ->; [|eauto].
    apply N.ltb_lt. unfold f_write. cbn [f_len]. destruct d; cbn [length] in *; lia.
  - intros s F [<- H] G. unfold plain_good in *. cbn [dv_open plain_dev]. unfold next_fault, drop_fault. rewrite G. cbn [hd fst]. 
    eexists. split; [reflexivity|]. reflexivity.
Qed.
Definition mem_of {D} (s : pfile D) : pmem := match snd s with Some m => m | None => PMem [] [] 0 end.
Lemma pg_more : snd pg_end = Some (mem_of pg_end) /\ p_len (mem_of pg_end) = 75 /\
  fst (pstep plain_dev 64 (PAppend (B"more")) pg_end) = Ok (OId 76).
Proof. vm_compute. auto. Qed.

(** Over a file in the browser cache where the first operations failed. *)
Definition pw_hist : list pcall := [POpen; POpen; PAppend (B"first"); PSync; PAppend (long 50 x01); PLoad 68].
Definition pw_faults : list bool := [true; false; true].
Definition pw_results : list (res pout) := fst (prun web_dev 64 pw_hist (with_faults pw_faults new_web_file, None)).
Definition pw_end : pfile web_dev := snd (prun web_dev 64 pw_hist (with_faults pw_faults new_web_file, None)).
Lemma pw_run : prun web_dev 64 pw_hist (with_faults pw_faults new_web_file, None) = (pw_results, pw_end).
Proof. unfold pw_results, pw_end. now destruct (prun web_dev 64 pw_hist (with_faults pw_faults new_web_file, None)). Qed.
Lemma pw_sizes : Forall (size_ok 64) pw_hist.
Proof. unfold pw_hist. repeat (apply Forall_cons; [cbn; intuition (try reflexivity; try lia)|]). all: try (apply Forall_nil). Qed.
Lemma pw_shown : pw_results = [Err; Ok ODone; Ok (OId 4); Err; Ok (OId 68); Ok (OData (long 50 x01))].
Proof. vm_compute. reflexivity. Qed.
Lemma pw_works : browser_works (fst pw_end).
Proof.
  split; [vm_compute; reflexivity|]. split; [vm_compute; reflexivity|].
  intros c Hc. assert (w_chunks (fst pw_end) = [Chunk 0 0 64]) as E by (vm_compute; reflexivity).
  rewrite E in Hc. destruct Hc as [<-|[]]. reflexivity.
Qed.
Lemma pw_more : snd pw_end = Some (mem_of pw_end) /\ p_len (mem_of pw_end) = 122 /\
  fst (pstep web_dev 64 (PAppend (B"more")) pw_end) = Ok (OId 132) /\ fst (pstep web_dev 64 PSync pw_end) = Ok ODone.
Proof. vm_compute. auto. Qed.
