(** Power failures on small files. *)
From Verif Require Import Base BaseLemmas Header Node Store U64 File PagedFile PagedSpec PowerSpec MemExamples.
Local Open Scope N_scope.

Definition then_ (c : op) (p : phase) : phase := snd (step true 64 p (c, None)).
Definition pw_open : phase := then_ OReopen new_file.
Definition pw_hello : phase := then_ (OWrite (B "hello")) pw_open.
Definition pw_world : phase := then_ (OWrite (B "world")) pw_hello.

(** The first 4096 bytes and the length of [new], and the rest of [old]. *)
Definition first_page_only (old new : file) : file :=
  File (f_len new) (fun i => if i <? 4096 then byte_at new i else byte_at old i).

Lemma first_page_remains (seen : file -> Prop) old new : seen old -> seen new -> remains seen (first_page_only old new).
Proof.
  intros So Sn. split; [exists new; auto|]. split.
  - exists new. split; [exact Sn|]. intros i Hi _. unfold first_page_only. cbn [f_at].
    destruct (N.ltb_spec i 4096); [reflexivity|lia].
  - intros i Hi. unfold first_page_only. cbn [f_at]. destruct (i <? 4096); eauto.
Qed.

Definition pw_lost : phase := then_ OReopen (Closed (first_page_only (contents pw_open) (contents pw_hello))).
Definition pw_lost_l : list happening :=
  [HCall (OReopen, None) (Ok []); HCall (OWrite (B "hello"), None) (Ok (to_be 8 9)); HSync (Ok tt); HPower;
   HCall (OReopen, None) (Ok [])].
Lemma pw_step c p r : fst (step true 64 p (c, None)) = r -> step true 64 p (c, None) = (r, then_ c p).
Proof. intros <-. unfold then_. apply surjective_pairing. Qed.
Lemma pw_after c p : during true 64 p c (contents (then_ c p)).
Proof. exists None. reflexivity. Qed.
Lemma opened_phase p : is_open p -> exists s, p = Opened s.
Proof. destruct p as [f|s]; [intros []|eauto]. Qed.
Lemma pw_hello_open : exists s, pw_hello = Opened s.
Proof. apply opened_phase. vm_compute. exact Logic.I. Qed.
Lemma pw_lost_lives : exists seen, lives true 64 new_disk pw_lost_l (Disk pw_lost seen).
Proof.
  eexists. unfold pw_lost_l, new_disk.
  eapply lives_call; [apply pw_step; vm_compute; reflexivity|].
  eapply lives_call; [apply pw_step; vm_compute; reflexivity|]. cbn [fst].
  change (then_ (OWrite (B "hello")) (then_ OReopen new_file)) with pw_hello.
  destruct pw_hello_open as [s E].
  eapply (lives_sync _ _ _ s); [exact E|reflexivity|].
  eapply lives_power.
  { apply (first_page_remains _ (contents pw_open) (contents pw_hello)).
    - left. right. apply pw_after.
    - right. apply (pw_after (OWrite (B "hello"))). }
  eapply lives_call; [apply pw_step; vm_compute; reflexivity|].
  apply lives_nil.
Qed.
Lemma pw_sync_bad : exists ps id x l d x', page_size_ok ps /\ lives true ps new_disk l d /\
  l = [HCall (OReopen, None) (Ok []); HCall (OWrite x, None) (Ok id); HSync (Ok tt); HPower; HCall (OReopen, None) (Ok [])] /\
  is_open (d_now d) /\ read_now true ps (d_now d) id = Ok x' /\ x' <> x.
Proof.
  destruct pw_lost_lives as [seen L].
  exists 64, (to_be 8 9), (B "hello"), pw_lost_l, (Disk pw_lost seen), [].
  split; [repeat split; reflexivity || discriminate|]. split; [exact L|]. split; [reflexivity|]. cbn [d_now].
  split; [vm_compute; exact Logic.I|]. split; [vm_compute; reflexivity|discriminate].
Qed.

(** "hello" is flushed, "world" is not and is lost. *)
Definition pw_kept : phase := then_ OReopen (Closed (first_page_only (contents pw_hello) (contents pw_world))).
Definition pw_kept_l : list happening :=
  [HCall (OReopen, None) (Ok []); HCall (OWrite (B "hello"), None) (Ok (to_be 8 9)); HFlush;
   HCall (OWrite (B "world"), None) (Ok (to_be 8 18)); HPower; HCall (OReopen, None) (Ok [])].
Lemma pw_kept_lives : exists seen, lives true 64 new_disk pw_kept_l (Disk pw_kept seen).
Proof.
  eexists. unfold pw_kept_l, new_disk.
  eapply lives_call; [apply pw_step; vm_compute; reflexivity|].
  eapply lives_call; [apply pw_step; vm_compute; reflexivity|]. cbn [fst].
  change (then_ (OWrite (B "hello")) (then_ OReopen new_file)) with pw_hello.
  apply lives_flush.
  eapply lives_call; [apply pw_step; vm_compute; reflexivity|]. cbn [fst].
  eapply lives_power.
  { apply (first_page_remains _ (contents pw_hello) (contents pw_world)).
    - left. reflexivity.
    - right. apply (pw_after (OWrite (B "world"))). }
  eapply lives_call; [apply pw_step; vm_compute; reflexivity|].
  apply lives_nil.
Qed.
