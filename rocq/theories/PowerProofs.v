(** What survives power failures. *)
From Verif Require Import Base BaseLemmas Header Node Store U64 File FileProofs PagedFile PagedFileProofs PagedSpec PagedTop PowerSpec.
Local Open Scope N_scope.

Lemma f_read_iff f pos d :
  f_read f pos (length d) = d <-> forall j, (j < length d)%nat -> f_at f (pos + N.of_nat j) = nth j d x00.
Proof.
  split.
  - intros E j Hj. rewrite <- E at 1. unfold f_read.
    rewrite (nth_indep _ x00 (f_at f (pos + N.of_nat 0))) by (rewrite map_length, seq_length; exact Hj).
    rewrite (map_nth (fun i => f_at f (pos + N.of_nat i))), seq_nth by exact Hj. reflexivity.
  - intros H. apply (nth_ext _ _ x00 x00).
    + unfold f_read. now rewrite map_length, seq_length.
    + intros j Hj. unfold f_read in *. rewrite map_length, seq_length in Hj. rewrite <- H by exact Hj.
      rewrite (nth_indep _ x00 (f_at f (pos + N.of_nat 0))) by (rewrite map_length, seq_length; exact Hj).
      rewrite (map_nth (fun i => f_at f (pos + N.of_nat i))), seq_nth by exact Hj. reflexivity.
Qed.

Section Power.
Context (dbg : bool) (ps : N) (Hok : page_size_ok ps).
Let T : option bytes -> Prop := fun _ => True.
Notation step := (step dbg ps).
Notation cinv := (cinv ps T).
Notation winv := (winv ps T).
Notation pinv := (pinv ps T).

Lemma cinv_more w w' acks f : w <= w' -> cinv w acks f -> cinv w' acks f.
Proof. intros L [H|H]; [now left|right]. now apply (winv_more ps T w). Qed.
Lemma cinv_drop w a b f : cinv w (a ++ b) f -> cinv w b f.
Proof.
  intros [[H E]|(A & B & C & D & D' & F & G)].
  - left. split; [exact H|]. now apply app_eq_nil in E.
  - right. repeat (split; [assumption|]). now apply Forall_app in G.
Qed.
Lemma decr_drop a b : decr (a ++ b) -> decr b.
Proof. induction a as [|e a IH]; [auto|]. cbn. intros H. inversion H; subst. auto. Qed.

Lemma remains_cinv w acks (seen : file -> Prop) g : (forall v, seen v -> cinv w acks v) -> remains seen g -> cinv w acks g.
Proof.
  intros Hs ((v1 & S1 & L1) & (v0 & S0 & H0) & Hb).
  assert (HEADER = 4096) as Hh by reflexivity. assert (max_file = 9223372036854775808) as Hm by reflexivity.
  destruct (Hs _ S1) as [[Z1 E1]|W1]; [left; split; [congruence|exact E1]|right].
  pose proof W1 as (A1 & B1 & C1 & D1 & D1' & F1 & G1).
  assert (hdr g + HEADER < max_file /\ hdr g <= 2 * ps * w /\ (acks = [] \/ winv w acks v0 /\ hdr g = hdr v0)) as (X1 & X2 & X3).
  { destruct (Hs _ S0) as [[Z0 E0]|W0].
    - assert (hdr g = 0) as ->; [|split; [lia|split; [lia|now left]]].
      unfold hdr. rewrite (f_read_ext _ (File 0 (fun _ => x00))); [reflexivity|]. intros i Hi.
      rewrite H0 by lia. unfold byte_at. cbn [f_at]. destruct (N.ltb_spec i (f_len v0)); [lia|reflexivity].
    - pose proof W0 as (A0 & B0 & C0 & D0 & D0' & _).
      assert (hdr g = hdr v0) as E; [|rewrite E; split; [exact D0|split; [exact D0'|right; split; [exact W0|reflexivity]]]].
      unfold hdr. f_equal. apply f_read_ext. intros i Hi. rewrite H0 by lia. unfold byte_at.
      destruct (N.ltb_spec i (f_len v0)); [reflexivity|lia]. }
  split; [lia|]. split; [lia|]. split; [lia|]. split; [exact X1|]. split; [exact X2|].
  split; [right; left; exact Logic.I|].
  destruct X3 as [->|[W0 X3]]; [constructor|].
  apply Forall_forall. intros [id d] Hin. cbn [fst snd].
  assert (forall v, seen v -> vblob ps v id d /\ id <= hdr v) as Hv.
  { intros v Sv. destruct (Hs _ Sv) as [[_ E]|W]; [rewrite E in Hin; destruct Hin|].
    destruct W as (_ & _ & _ & _ & _ & _ & G). rewrite Forall_forall in G. exact (G _ Hin). }
  destruct (Hv _ S1) as [[(P1 & P2 & P3 & P4 & P5) P6] _]. destruct (Hv _ S0) as [_ P7].
  split; [|lia]. split; [|exact P6].
  assert (forall pos x, HEADER <= pos -> pos + len x <= f_len g ->
    (forall v, seen v -> pos + len x <= f_len v /\ f_read v pos (length x) = x) -> f_read g pos (length x) = x) as Hr.
  { intros pos x Q1 Q2 Q3. apply f_read_iff. intros j Hj. destruct (Hb (pos + N.of_nat j) ltac:(lia)) as (v & Sv & ->).
    destruct (Q3 _ Sv) as [Q4 Q5]. unfold byte_at. destruct (N.ltb_spec (pos + N.of_nat j) (f_len v)); [|lia].
    apply f_read_iff; assumption. }
  unfold blob_at. split; [exact P1|]. split; [lia|]. split; [exact P3|]. split.
  - apply Hr; [lia|lia|]. intros v Sv. destruct (Hv _ Sv) as [[(Y1 & Y2 & Y3 & Y4 & Y5) _] _]. split; [lia|exact Y4].
  - pose proof (Hr (id + HEADER - 4) (to_be 4 (len d))) as Hr'. rewrite to_be_length in Hr'. apply Hr'; [lia|lia|].
    intros v Sv. destruct (Hv _ Sv) as [[(Y1 & Y2 & Y3 & Y4 & Y5) _] _]. split; [lia|exact Y5].
Qed.

Definition num (l : list (bytes * bytes)) : list (N * bytes) := map (fun e => (of_be (fst e), snd e)) l.

Definition dinv (w : N) (pending safe : list (bytes * bytes)) (d : disk) : Prop :=
  pinv w (num (pending ++ safe)) (d_now d) /\ (forall v, d_seen d v -> cinv w (num safe) v) /\
  Forall (fun e => exists n, fst e = to_be 8 n) (pending ++ safe).

Lemma all_T c : in_K T c.
Proof. destruct c as [[d|id|] flt]; exact Logic.I. Qed.

Lemma lives_inv d l d' : lives dbg ps d l d' -> forall w pending safe,
  Forall (happening_ok dbg) l -> dinv w pending safe d ->
  exists pending' safe', dinv (w + tries l) pending' safe' d' /\ kept pending safe l = pending' ++ safe' /\
    Forall (fun h => match h with
      | HCall _ r => r = Err \/ exists a, r = Ok a
      | HSync r => r = Ok tt
      | _ => True end) l.
Proof.
  induction 1 as [d|p seen c r p' l d E _ IH|p s seen r s' l d Ep E _ IH|p seen l d _ IH|p seen g l d L _ IH]; intros w pending safe Ho I.
  - exists pending, safe. unfold tries. cbn [filter length kept]. change (N.of_nat 0) with 0. rewrite N.add_0_r. auto.
  - inversion Ho as [|? ? Ho1 Ho2]; subst. destruct I as (I1 & I2 & I3). cbn [d_now d_seen] in *.
    destruct (step_spec dbg ps Hok T w _ p c r p' I1 Ho1 (all_T c) E) as (A & B & _).
    assert (exists new, num new = ackl (fst c) r /\ Forall (fun e => exists n, fst e = to_be 8 n) new /\
      kept pending safe (HCall c r :: l) = kept (new ++ pending) safe l) as (new & N1 & N2 & N3).
    { destruct c as [[d0|i|] flt]; [destruct r as [a| | |]|destruct r|destruct r];
        try (exists []; split; [reflexivity|split; [constructor|reflexivity]]).
      exists [(a, d0)]. split; [reflexivity|]. split; [|reflexivity]. constructor; [|constructor].
      exact (step_id dbg ps p _ _ _ d0 E eq_refl a eq_refl). }
    destruct (IH (w + wr c) (new ++ pending) safe Ho2) as (pd & sf & J1 & J2 & J3).
    { split; [|split].
      - cbn [d_now]. rewrite <- app_assoc. unfold num in *. rewrite map_app, N1. exact A.
      - cbn [d_seen]. intros v [Hv|[flt ->]].
        + apply (cinv_more w); [lia|]. auto.
        + destruct (step p (fst c, flt)) as [r1 p1] eqn:E1. cbn [snd].
          assert (op_ok dbg (fst c, flt)) as Ho3 by exact Ho1.
          destruct (step_spec dbg ps Hok T w _ p (fst c, flt) r1 p1 I1 Ho3 (all_T _) E1) as (A1 & _).
          apply cinv_of_iinv in A1; [|exact Hok]. change (wr (fst c, flt)) with (wr c) in A1.
          apply cinv_drop in A1. unfold num in A1. rewrite map_app in A1. now apply cinv_drop in A1.
      - rewrite <- app_assoc. apply Forall_app. auto. }
    exists pd, sf. split; [|split; [rewrite N3; exact J2|]].
    + replace (w + tries (HCall c r :: l)) with (w + wr c + tries l); [exact J1|].
      unfold tries, wr. cbn [filter]. destruct (is_write c); cbn [length]; lia.
    + constructor; assumption.
  - inversion Ho as [|? ? Ho1 Ho2]; subst.
    unfold pf_sync, wret in E. injection E as <- <-.
    destruct (IH w pending safe Ho2 I) as (pd & sf & J1 & J2 & J3). exists pd, sf. split; [exact J1|]. split; [exact J2|].
    constructor; [reflexivity|assumption].
  - inversion Ho as [|? ? Ho1 Ho2]; subst. destruct I as (I1 & I2 & I3). cbn [d_now d_seen] in *.
    destruct (IH w [] (pending ++ safe) Ho2) as (pd & sf & J1 & J2 & J3).
    { split; [exact I1|]. split; [|exact I3]. cbn [d_seen]. intros v ->. now apply cinv_of_iinv. }
    exists pd, sf. split; [exact J1|]. split; [exact J2|]. constructor; [exact Logic.I|assumption].
  - inversion Ho as [|? ? Ho1 Ho2]; subst. destruct I as (I1 & I2 & I3). cbn [d_now d_seen] in *.
    assert (cinv w (num safe) g) as C by (eapply remains_cinv; eassumption).
    destruct (IH w [] safe Ho2) as (pd & sf & J1 & J2 & J3).
    { split; [|split].
      - cbn [d_now]. split; [|exact C]. destruct I1 as [I1 _]. unfold num in *. rewrite map_app in I1. now apply decr_drop in I1.
      - cbn [d_seen]. now intros v ->.
      - cbn [app]. now apply Forall_app in I3. }
    exists pd, sf. split; [exact J1|]. split; [exact J2|]. constructor; [exact Logic.I|assumption].
Qed.

Lemma new_dinv : dinv 0 [] [] new_disk.
Proof.
  split; [apply (proj1 (new_inv ps T))|]. split; [|constructor]. cbn [new_disk d_seen]. intros v ->.
  apply cinv_of_iinv; [exact Hok|]. apply (proj1 (new_inv ps T)).
Qed.

Lemma power_kept l d :
  lives dbg ps new_disk l d -> Forall (happening_ok dbg) l ->
  Forall (fun h => match h with
    | HCall _ r => r = Err \/ exists a, r = Ok a
    | HSync r => r = Ok tt
    | _ => True end) l /\
  (is_open (d_now d) -> forall id x, In (id, x) (kept [] [] l) -> read_now dbg ps (d_now d) id = Ok x) /\
  fst (step (d_now d) (OReopen, None)) = Ok [] /\ is_open (reopened dbg ps (d_now d)) /\
  (forall id x, In (id, x) (kept [] [] l) -> read_now dbg ps (reopened dbg ps (d_now d)) id = Ok x) /\
  (forall x, len x + 8 <= ps -> HEADER + 2 * ps * (tries l + 1) < max_file ->
     exists id, write_now dbg ps (reopened dbg ps (d_now d)) x = Ok id /\
       forall id' x', In (id', x') (kept [] [] l) -> of_be id' < of_be id).
Proof.
  intros L Ho. destruct (lives_inv _ _ _ L 0 [] [] Ho new_dinv) as (pd & sf & (I1 & I2 & I3) & -> & J).
  split; [exact J|]. rewrite N.add_0_l in *.
  assert (forall q, pinv (tries l) (num (pd ++ sf)) q -> is_open q -> forall id x, In (id, x) (pd ++ sf) -> read_now dbg ps q id = Ok x) as Hr.
  { intros q Iq Oq id x Hin. eapply (read_acked dbg ps Hok T); [exact Iq|exact Oq| |].
    - rewrite Forall_forall in I3. destruct (I3 _ Hin) as [n E]. cbn [fst] in E. rewrite E. apply to_be_length.
    - unfold num. apply in_map_iff. exists (id, x). auto. }
  split; [intros Op id x; apply Hr; assumption|].
  unfold reopened. destruct (step (d_now d) (OReopen, None)) as [r p'] eqn:E.
  destruct (step_spec dbg ps Hok T _ _ _ (OReopen, None) r p' I1 Logic.I Logic.I E) as (B & _ & _ & C & _).
  specialize (C eq_refl). cbn [fst] in C. destruct C as [-> [s ->]]. cbn [ackl app fst snd] in *.
  change (wr (OReopen, None)) with 0 in B. rewrite N.add_0_r in B.
  split; [reflexivity|]. split; [exact Logic.I|]. split; [apply Hr; [exact B|exact Logic.I]|].
  intros x Hx W. unfold write_now. destruct (step (Opened s) (OWrite x, None)) as [r1 p1] eqn:E1.
  destruct (step_spec dbg ps Hok T _ _ _ (OWrite x, None) r1 p1 B Logic.I Logic.I E1) as (B1 & _ & _ & C1 & _).
  specialize (C1 eq_refl). cbn [fst snd] in *. destruct C1 as [_ C1].
  assert (len x + 8 <=? ps = true) as X by (apply N.leb_le; exact Hx). rewrite X in C1.
  destruct (C1 W) as (n & -> & Hn). eexists. split; [reflexivity|]. intros id' x' Hin.
  destruct B1 as [B1 _]. cbn [ackl app] in B1. inversion B1 as [|? ? ? B2 B3]; subst.
  rewrite Forall_forall in B3. apply (B3 (of_be id', x')). unfold num. apply in_map_iff. exists (id', x'). auto.
Qed.
End Power.
