(** Proofs about files of the browser file system that are written page by page. *)
From Verif Require Import FileProofs Base BaseLemmas Header Node Store U64 File Chunk ChunkProofs WebFile WebProofs WebPlans WebSpec WebTop
  WebPagesSpec WebPages WebFs WebFsSpec WebFsSim WebFsProofs WebFsStaleSpec WebFsStale WebFsLike
  WebFsFile WebFsPagesSpec WebVfs.
Local Open Scope N_scope.

Section Pages.
Context (P : N) (HP : 0 < P) (d f : bytes) (Hf : valid f).
Notation page_effect := (page_effect P d f).
Notation page_effects := (page_effects P d f).

Definition psnap (s : pages) (x : option (list chunk) * cache) : Prop :=
  match fst x with
  | Some cs => pinv P s (WFile cs (snd x) [])
  | None => exists cs, pinv P s (WFile cs (snd x) [])
  end.

Lemma pinv_none s : (forall j, s j = None) -> pinv P s (WFile [] [] []).
Proof. intros H. apply (pinv_ext P no_pages); [exact H|]. apply new_pages. Qed.

Lemma evolves_pages c t r x y s : evolves d f c r x y -> page_event P d f (Call c t) -> psnap s x ->
  exists s', page_effect (Call c t) r s s' /\ psnap s' y.
Proof.
  intros E Hp I. destruct E as [c r x Hc|r v|c b x Hc|c k w t0 q cs v cs' v' Hch Hk Es].
  - exists s. split; [|exact I].
    destruct c as [d0|d0|d0 f0|d0 f0|d0 f0|d0 f0|d0 f0 o b0|d0 f0 a e|d0 f0|d0 f0 n|d0 f0 b0|d0 f0 o|];
      try (apply PE_other; [cbn; tauto|reflexivity]); cbn [concerns] in Hc.
    + destruct (beq_dec d0 d) as [->|]; [apply PE_failed; auto|apply PE_other; auto].
    + destruct (beq_dec d0 d) as [->|]; [destruct (beq_dec f0 f) as [->|]|];
        [apply PE_failed; auto|apply PE_other; cbn; tauto..].
    + destruct (beq_dec d0 d) as [->|]; [destruct (beq_dec f0 f) as [->|]|];
        [apply PE_failed; auto|apply PE_other; cbn; tauto..].
    + destruct (beq_dec d0 d) as [->|]; [destruct (beq_dec f0 f) as [->|]|];
        [apply PE_failed; auto|apply PE_other; cbn; tauto..].
    + destruct (beq_dec d0 d) as [->|]; [destruct (beq_dec f0 f) as [->|]|];
        [apply PE_failed; auto|apply PE_other; cbn; tauto..].
  - exists s. split; [apply PE_other; [cbn; tauto|reflexivity]|]. destruct I as (cs & I). cbn [fst snd psnap] in *.
    eapply (step_pages P HP s (COpen, [])) in I as (s' & T & I'); [|exact Logic.I|reflexivity].
    cbn [fst] in T. inversion T; subst; exact I'.
  - exists no_pages. split; [|exists []; apply pinv_none; reflexivity].
    destruct Hc as [-> | ->]; [apply PE_delete_file|apply PE_delete_dir]; reflexivity.
  - cbn [psnap fst snd] in I. destruct Hch as [d f o b0|d f b0 Hb|d f n]; cbn [page_event] in Hp.
    + destruct (Hp eq_refl eq_refl) as [[i ->] Hb].
      destruct (step_pages P HP s (CWrite (i * P) b0, t0) _ q (WFile cs' v' []) I) as (s' & T & I'); [split; [now exists i|exact Hb]|exact Es|].
      exists s'. split; [|exact I']. cbn [fst] in T.
      inversion T as [? ? j ? HT Ej|? ? j ? HT Ej| | | | | |]; subst; cbn [bind].
      * apply N.mul_cancel_r in Ej; [|lia]. subst j. now apply PE_write.
      * apply N.mul_cancel_r in Ej; [|lia]. subst j. destruct HT as [HT|HT]; [apply PE_failed; auto|now apply PE_write_failed].
      * apply PE_failed; auto.
    + now destruct (Hp eq_refl).
    + destruct (Hp eq_refl eq_refl) as [i ->].
      destruct (step_pages P HP s (CTruncate (i * P), t0) _ q (WFile cs' v' []) I) as (s' & T & I'); [now exists i|exact Es|].
      exists s'. split; [|exact I']. cbn [fst] in T.
      inversion T as [| | | |? ? j HT Ej|? ? j HT Ej| |]; subst; cbn [bind]; try contradiction.
      * apply N.mul_cancel_r in Ej; [|lia]. subst j. now apply PE_truncate.
      * apply N.mul_cancel_r in Ej; [|lia]. subst j. now apply PE_truncate_failed.
Qed.

Lemma snap_like s s1 : like d s s1 -> snap s1 d f = snap s d f.
Proof. intros H. unfold snap. now rewrite (like_chunks _ f _ _ H), (like_obj _ _ _ H). Qed.
(** One event, when [d] is neither deleted and still open nor deleted now while it is open. *)
Lemma event_pages e s WD r s' p : Inv_any s WD -> event_ok e -> page_event P d f e -> snd WD d = false ->
  (forall t, e = Call (KDeleteDir d) t -> dir_open (fst WD) d = false) -> psnap p (snap s d f) ->
  fs_run [e] s = ([r], s') -> exists p', page_effect e r p p' /\ psnap p' (snap s' d f).
Proof.
  intros IA He Pe HD Hdel Hps E. destruct (any_like d s WD IA HD) as (s1 & I & LK). destruct e as [c t|]; cbn [fs_run] in E.
  2:{ injection E as <- <-. exists p. split; [apply PE_other; [cbn; tauto|reflexivity]|].
      change (snap (fs_restart s) d f) with (@None (list chunk), snd (snap s d f)).
      unfold psnap in *. cbn [fst snd]. destruct (fst (snap s d f)) as [cs|]; [now exists cs|exact Hps]. }
  destruct (fs_call c t s) as [r0 s0] eqn:Ec. injection E as -> ->.
  assert ((exists d', c = KDeleteDir d' /\ d' <> d) \/ forall d', c = KDeleteDir d' -> get d' (fs_dirs s) = None) as [(d' & -> & Hne)|Hc].
  { destruct c as [d'|d'|d' f'|d' f'|d' f'|d' f'|d' f' o b|d' f' a e|d' f'|d' f' n|d' f' b|d' f' o|]; try (right; discriminate).
    destruct (beq_dec d' d) as [->|Hne]; [right|left; eauto]. intros d2 Ed. injection Ed as <-.
    specialize (Hdel t eq_refl). rewrite (i_dir _ _ I) in Hdel. destruct LK as (D & l & A & _). rewrite (al_dirs _ _ _ A) in Hdel.
    destruct (get d (fs_dirs s)); [discriminate|reflexivity]. }
  - assert (Inv_but d s (fst WD)) as IB by now exists s1.
    destruct (but_delete d d' t s _ r s' IB Hne Ec) as (_ & _ & _ & B1 & B2).
    exists p. split; [apply PE_other; [exact Hne|reflexivity]|]. unfold snap. rewrite B1, B2. exact Hps.
  - destruct (like_call d c t s s1 r s' LK Ec Hc) as (s1' & E1 & LK').
    rewrite <- (snap_like _ _ LK) in Hps. rewrite <- (snap_like _ _ LK').
    assert (forall d', c = KDeleteDir d' -> get d' (fs_dirs s1) = None) as Hc1
      by (intros d' X; destruct LK as (D & l & A & _); rewrite (al_dirs _ _ _ A); now apply Hc).
    exact (evolves_pages c t r _ _ p (call_evolves s1 _ c t r s1' d f I Hf He Hc1 E1) Pe Hps).
Qed.
Lemma run_fs_pages l : forall a s WD rs s' p, Inv_any s WD -> Forall event_ok l -> deleted_closed d (a ++ l) ->
  Forall (page_event P d f) l -> psnap p (snap s d f) -> snd WD d = false -> (dir_open (fst WD) d = true -> opened a d) ->
  fs_run l s = (rs, s') -> exists WD' p', fs_effects_any l rs WD WD' /\ Inv_any s' WD' /\ snd WD' d = false /\
    page_effects l rs p p' /\ psnap p' (snap s' d f).
Proof.
  induction l as [|e l IH]; intros a s WD rs s' p I Hok Hdc Hpe Hps HD Hop E.
  { injection E as <- <-. exists WD, p. split; [constructor|]. split; [exact I|]. split; [exact HD|]. split; [constructor|exact Hps]. }
  inversion Hok as [|? ? He Hl]; subst. inversion Hpe as [|? ? Pe Pl]; subst.
  assert (a ++ e :: l = (a ++ [e]) ++ l) as Ea by (now rewrite <- app_assoc).
  assert (exists r s1 rs1, fs_run [e] s = ([r], s1) /\ fs_run l s1 = (rs1, s') /\ rs = r :: rs1) as (r & s1 & rs1 & E1 & E2 & ->).
  { destruct e as [c t|]; cbn [fs_run] in E |- *.
    - destruct (fs_call c t s) as [r s1]. destruct (fs_run l s1) as [rs1 s2] eqn:Er. injection E as <- <-. eexists _, _, _. eauto.
    - destruct (fs_run l (fs_restart s)) as [rs1 s2] eqn:Er. injection E as <- <-. eexists _, _, _. eauto. }
  destruct (event_any e s WD r s1 I He E1) as (WD1 & HE & I1).
  assert (fs_effects_any [e] [r] WD WD1) as HE1 by (econstructor; [exact HE|constructor]).
  destruct (event_pages e s WD r s1 p I He Pe HD) as (p1 & T1 & Hp1); auto.
  { intros t ->. destruct (dir_open (fst WD) d) eqn:Hd; [|reflexivity]. exfalso.
    destruct (Hop eq_refl) as (a1 & t1 & a2 & Ha & Hn). apply Hn. exact (Hdc a l t eq_refl a1 a2 t1 Ha). }
  rewrite Ea in Hdc.
  destruct (IH (a ++ [e]) s1 WD1 rs1 s' p1 I1 Hl Hdc Pl Hp1) as (WD2 & p2 & HE2 & I2 & HD2 & T2 & Hp2).
  - exact (not_doomed d [e] a _ _ _ (closed_front _ _ _ Hdc) HE1 Hop HD).
  - exact (opens_any d [e] a _ _ _ HE1 Hop).
  - exact E2.
  - exists WD2, p2. split; [econstructor; eassumption|]. split; [exact I2|]. split; [exact HD2|]. split; [econstructor; eassumption|exact Hp2].
Qed.

(** The length of the file, if it is open. *)
Lemma length_call s W p n : Inv s W -> psnap p (snap s d f) -> busiest_end P p n -> forall t,
  fst (fs_call (KLength d f) t s) = if running W && file_open W d f then Ok (RNum n) else Err.
Proof.
  intros I Hp Hb t. unfold fs_call. rewrite (i_run _ _ I). destruct (fs_up s) eqn:Hup; [|reflexivity]. cbn [andb fs_exec].
  rewrite (i_file _ _ I). unfold psnap, snap in Hp. cbn [fst snd] in Hp. unfold on_file, open_chunks in *.
  destruct (get d (fs_dirs s)) as [[o files]|]; [|reflexivity].
  destruct (get f files) as [cs|]; [|reflexivity]. cbn. do 2 f_equal.
  apply (pinv_length P HP) in Hp. cbn [w_chunks] in Hp.
  assert (forall m, busiest_end P p m -> m = n) as U.
  { intros m Hm. destruct Hm as [[-> A]|(i & l & -> & A1 & A2)], Hb as [[-> B]|(j & k & -> & B1 & B2)]; try congruence.
    destruct (A2 j k B1) as [L|[-> L]], (B2 i l A1) as [L'|[E L']]; try lia. assert (i = j) as -> by lia. reflexivity. }
  now apply U.
Qed.
End Pages.

Lemma busiest_exists P s x : 0 < P -> psnap P s x -> exists n, busiest_end P s n.
Proof.
  intros HP H. unfold psnap in H. destruct (fst x) as [cs|]; [|destruct H as (cs & H)];
    apply (pinv_length P HP) in H; eauto.
Qed.

(** Reading after [n] bytes gives nothing. *)
Lemma db_read_length d f n s : (forall t, fst (fs_call (KLength d f) t s) = Ok (RNum n)) \/ (forall t, fst (fs_call (KLength d f) t s) = Err) ->
  forall start k t1 t2 b, fst (db_read d f start k t1 [] t2 s) = Ok b ->
  N.of_nat (length b) = N.min n (start + k) - start.
Proof.
  intros H start k t1 t2 b. unfold db_read. destruct (fs_call (KLength d f) t1 s) as [r1 s1] eqn:E1. cbn [fs_run snd].
  destruct H as [H|H]; specialize (H t1); rewrite E1 in H; cbn [fst] in H; subst r1; [|discriminate].
  destruct (start + k <? u64_max); [|discriminate].
  destruct (fs_call _ t2 s1) as [r2 s3]. cbn [fst]. destruct r2 as [[| | |data]| | |]; try discriminate.
  destruct (Nat.leb_spec (N.to_nat (N.min n (start + k) - start)) (length data)) as [L|L]; [|discriminate].
  intros E. injection E as <-. unfold bytes in *. rewrite firstn_length. lia.
Qed.

Theorem vfs_pages P d f l rs s : 0 < P -> ~ In quest f -> Forall event_ok l -> deleted_closed d l ->
  Forall (page_event P d f) l -> fs_run l new_fs = (rs, s) ->
  exists W D p n, fs_effects_any l rs (new_world, fun _ => false) (W, D) /\ page_effects P d f l rs no_pages p /\ busiest_end P p n /\
    (forall t, fst (fs_call (db_file_size d f) t s) = if running W && file_open W d f then Ok (RNum n) else Err) /\
    (forall start k t1 t2 b, fst (db_read d f start k t1 [] t2 s) = Ok b ->
       N.of_nat (length b) = N.min n (start + k) - start).
Proof.
  intros HP Hf Hok Hdc Hpe E.
  destruct (run_fs_pages P HP d f Hf l [] new_fs (new_world, fun _ => false) rs s no_pages any_new Hok Hdc Hpe) as ([W D] & p & HE & I & HD & T & Hp);
    [exists []; apply pinv_none; reflexivity|reflexivity|discriminate|exact E|].
  destruct (busiest_exists P p _ HP Hp) as (n & Hn).
  assert (forall t, fst (fs_call (KLength d f) t s) = if running W && file_open W d f then Ok (RNum n) else Err) as HL.
  { intros t. destruct (any_like d s _ I HD) as (s1 & I1 & LK). rewrite <- (snap_like d f _ _ LK) in Hp.
    pose proof (length_call P HP d f s1 W p n I1 Hp Hn t) as X. destruct (fs_call (KLength d f) t s) as [r s'] eqn:Ec.
    destruct (like_call d _ _ _ _ _ _ LK Ec ltac:(discriminate)) as (s1' & E1 & _). now rewrite E1 in X. }
  exists W, D, p, n. split; [exact HE|]. split; [exact T|]. split; [exact Hn|]. split; [exact HL|].
  apply db_read_length. destruct (running W && file_open W d f); auto.
Qed.

Theorem vfs_last_page P d f l rs s : 0 < P -> ~ In quest f -> Forall event_ok l -> deleted_closed d l ->
  Forall (page_event P d f) l -> fs_run l new_fs = (rs, s) ->
  exists W D p, fs_effects_any l rs (new_world, fun _ => false) (W, D) /\ page_effects P d f l rs no_pages p /\
  (running W = true -> file_open W d f = true -> forall t i n, p i = Some n -> (forall j n', p j = Some n' -> j <= i) ->
     (fst (fs_call (db_file_size d f) t s) = Ok (RNum ((i + 1) * P)) <-> forall j n', p j = Some n' -> n' <= n)).
Proof.
  intros HP Hf Hok Hdc Hpe E. destruct (vfs_pages P d f l rs s HP Hf Hok Hdc Hpe E) as (W & D & p & n & HE & T & Hn & HL & _).
  exists W, D, p. split; [exact HE|]. split; [exact T|]. intros Hr Ho t i l0 Hi Hlast. rewrite HL, Hr, Ho. cbn [andb].
  destruct Hn as [[_ H]|(k & m & -> & Hk & Hmax)]; [congruence|]. split.
  - intros En. injection En as En. apply N.mul_cancel_r in En; [|lia]. assert (k = i) as -> by lia.
    intros j l' Hj. destruct (Hmax j l' Hj); rewrite Hi in Hk; injection Hk as ->; lia.
  - intros H. do 3 f_equal. destruct (Hmax i l0 Hi) as [L|[-> L]]; [specialize (H k m Hk); lia|]. specialize (Hlast k m Hk). lia.
Qed.
