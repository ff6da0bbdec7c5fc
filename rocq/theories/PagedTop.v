(** The properties of the paged file store, as lemmas. *)
From Verif Require Import Base BaseLemmas Header Node Store U64 File FileProofs PagedFile PagedFileProofs PagedSpec.
Local Open Scope N_scope.

Definition ackl (o : op) (r : res bytes) : list (N * bytes) :=
  match o, r with OWrite d, Ok id => [(of_be id, d)] | _, _ => [] end.
Definition wr (c : op * fault) : N := if is_write c then 1 else 0.

Inductive decr : list (N * bytes) -> Prop :=
| decr_nil : decr []
| decr_cons id d l : decr l -> Forall (fun e => fst e < id) l -> decr ((id, d) :: l).

Section Top.
Context (dbg : bool) (ps : N) (Hok : page_size_ok ps) (K : option bytes -> Prop).
Notation step := (step dbg ps).
Notation run := (run dbg ps).

Definition pinv (w : N) (acks : list (N * bytes)) (p : phase) : Prop :=
  decr acks /\ match p with Closed f => cinv ps K w acks f | Opened s => iinv ps K w acks s end.
Definition pclean (acks : list (N * bytes)) (p : phase) : Prop :=
  match p with Closed f => f_len f = 0 /\ acks = [] | Opened s => clean acks s end.

Lemma iinv_plan w acks s flt : iinv ps K w acks s -> iinv ps K w acks (plan flt s).
Proof. intros H. exact H. Qed.
Lemma fok_plan flt s : fok (match flt with None => true | _ => false end) (i_fh (plan flt s)).
Proof. intros H. destruct flt; [discriminate|reflexivity]. Qed.

Lemma wp_elim {X A} (m : wm X A) (Q : A -> X -> Prop) (E : X -> Prop) s :
  wp m Q E s -> (exists a s', m s = (Ok a, s') /\ Q a s') \/ (exists s', m s = (Err, s') /\ E s').
Proof. unfold wp. destruct (m s) as [[a| | |] s']; intros H; try contradiction; [left|right]; eauto. Qed.

Lemma finv_more w w' acks f : w <= w' -> finv ps K w acks f -> finv ps K w' acks f.
Proof. intros L (A & M & B & C). unfold finv. split; [exact A|]. split; [exact M|]. split; [|exact C]. nia. Qed.

Lemma winv_more w w' acks f : w <= w' -> winv ps K w acks f -> winv ps K w' acks f.
Proof.
  intros L (A & M & B & C & C' & D). unfold winv. split; [exact A|]. split; [exact M|]. split; [nia|]. split; [exact C|]. split; [nia|exact D].
Qed.

Lemma cinv_of_iinv w acks p : pinv w acks p -> cinv ps K w acks (contents p).
Proof. destruct p as [f|s]; cbn [contents]; [intros H; apply H|]. intros [_ [H _]]. right. destruct Hok as (_ & Hps & H32). now apply (finv_winv ps Hps H32). Qed.

Lemma append_big d s : ps < len d + 8 -> append dbg ps d s = (Err, s).
Proof.
  intros H. destruct Hok as (_ & H8 & _). unfold append, pure, wbind, wret. rewrite u_sub_ok by exact H8.
  assert (ps - 8 <? len d = true) as -> by (apply N.ltb_lt; lia). reflexivity.
Qed.

Definition in_K (c : op * fault) : Prop := match fst c with OWrite d => K (Some d) | _ => True end.
Lemma step_spec w acks p c r p' :
  pinv w acks p -> op_ok dbg c -> in_K c -> step p c = (r, p') ->
  pinv (w + wr c) (ackl (fst c) r ++ acks) p' /\ (r = Err \/ exists a, r = Ok a) /\
  (snd c = None -> HEADER + 2 * ps * (w + 1) < max_file -> pclean acks p -> pclean (ackl (fst c) r ++ acks) p') /\
  (snd c = None -> match fst c, p with
     | OReopen, _ => r = Ok [] /\ exists s, p' = Opened s
     | _, Closed _ => r = Err /\ p' = p
     | OWrite d, Opened s => (exists s', p' = Opened s') /\
         if len d + 8 <=? ps then HEADER + 2 * ps * (w + 1) < max_file -> exists n, r = Ok (to_be 8 n) /\ n < u64_max else r = Err
     | ORead id, Opened s => (exists s', p' = Opened s') /\
         (forall d, vblob ps (h_file (i_fh s)) (of_be id) d -> r = Ok d)
     end) /\
  keeps (contents p) (contents p') /\
  (forall id d, fst c = ORead id -> r = Ok d -> of_be id + HEADER < u64_max -> blob_at (contents p) (of_be id) d) /\
  (forall d id, fst c = OWrite d -> r = Ok id -> hdr (contents p) < of_be id).
Proof.
  destruct Hok as (H8 & Hps & H32).
  intros [Hdec I] Hop Hk E. destruct c as [o flt]. set (nf := match flt with None => true | _ => false end).
  assert (w <= w + wr (o, flt)) as Hw by lia.
  unfold step in E. cbn [fst snd] in *. destruct o as [d|id|].
  - destruct p as [f|s].
    { injection E as <- <-. cbn [ackl app]. split; [split; [exact Hdec|]|split; [auto|split; [auto|split; [auto|split; [apply keeps_refl|split; intros; discriminate]]]]].
      destruct I as [I|I]; [now left|right]. now apply (winv_more w). }
    destruct (N.leb_spec (len d + 8) ps) as [Hd|Hd].
    + pose proof (append_spec dbg ps Hps H32 nf K w acks (plan flt s) d (fok_plan flt s) I Hd Hk) as A.
      unfold pf_write, wbind, wret in E. apply wp_elim in A. destruct A as [(n & s' & A & F & I' & B & C & D & G)|(s' & A & B & C & G)].
      * rewrite A in E. assert (r = Ok (to_be 8 n) /\ p' = Opened s') as [-> ->] by (split; congruence). clear E. cbn [ackl app].
        assert (of_be (to_be 8 n) = n) as Hn by (apply of_to_be; rewrite u64_pow; exact C). rewrite Hn.
        split; [|split; [eauto|split; [auto|split; [|split; [exact G|split; [discriminate|]]]]]].
        3:{ intros d0 id0 _ Ei. assert (id0 = to_be 8 n) as -> by congruence. rewrite Hn. exact B. }
        -- split; [|exact I']. constructor; [exact Hdec|]. destruct I as ((_ & _ & _ & _ & _ & I) & _).
           eapply Forall_impl; [|exact I]. cbn. intros e [_ He]. cbn in B. lia.
        -- intros _. eauto.
      * rewrite A in E. injection E as <- <-. cbn [ackl app].
        split; [split; assumption|]. split; [auto|]. split; [|split; [|split; [exact G|split; discriminate]]].
        -- intros -> L. destruct B; [discriminate|lia].
        -- intros ->. split; [eauto|]. intros L. destruct B; [discriminate|lia].
    + unfold pf_write, wbind, wret in E. rewrite (append_big d _ Hd) in E. injection E as <- <-. cbn [ackl app].
      split; [split; [exact Hdec|]|split; [auto|split; [auto|split; [eauto|split; [apply keeps_refl|split; discriminate]]]]].
      destruct I as [I I']. split; [|exact I']. now apply (finv_more w).
  - destruct p as [f|s].
    { injection E as <- <-. cbn [ackl app]. split; [split; [exact Hdec|]|split; [auto|split; [auto|split; [auto|split; [apply keeps_refl|split; intros; discriminate]]]]].
      destruct I as [I|I]; [now left|right]. now apply (winv_more w). }
    destruct Hop as [Hl Hr]. unfold pf_read in E. rewrite Hl in E. cbn [Nat.eqb] in E.
    assert (of_be id < u64_max) as Hid by (rewrite <- u64_pow, <- Hl; apply of_be_bound).
    pose proof (bytes_at_spec dbg ps Hps H32 nf K w acks (of_be id) (plan flt s) (fok_plan flt s) I Hid Hr) as A.
    change (w + wr (ORead id, flt)) with (w + 0). rewrite N.add_0_r.
    apply wp_elim in A. destruct A as [(d & s' & A & I' & [R1 R2] & B)|(s' & A & I' & [R1 R2] & B)]; rewrite A in E; injection E as <- <-; cbn [ackl app].
    + split; [split; assumption|]. split; [eauto|]. split; [|split; [|split; [cbn [contents]; rewrite R1; apply keeps_refl|]]].
      3:{ split; [|discriminate]. intros id' d' Ei Ed. injection Ei as <-. injection Ed as <-. exact B. }
      * intros _ _. unfold pclean, clean. rewrite R1, R2. auto.
      * intros _. split; [eauto|]. intros d' Hd'. f_equal. destruct Hd' as [Hd' _].
        eapply blob_unique; [|exact Hd']. apply B. destruct I as ((_ & I & _) & _). destruct Hd' as (_ & Hd' & _).
        cbn [plan i_fh h_file] in *. unfold u64_max, HEADER, max_file in *. lia.
    + split; [split; assumption|]. split; [auto|]. split; [|split; [|split; [cbn [contents]; rewrite R1; apply keeps_refl|split; discriminate]]].
      * intros _ _. unfold pclean, clean. rewrite R1, R2. auto.
      * intros ->. split; [eauto|]. intros d' Hd'. destruct (B eq_refl d' Hd').
  - pose proof (cinv_of_iinv w acks p (conj Hdec I)) as C.
    assert (fok nf (FH (contents p) 0 flt)) as F by (intros H; destruct flt; [discriminate|reflexivity]).
    pose proof (open_spec dbg ps Hps H32 nf K w acks (FH (contents p) 0 flt) H8 F C) as A.
    change (w + wr (OReopen, flt)) with (w + 0). rewrite N.add_0_r.
    apply wp_elim in A. destruct A as [(s & h & A & _ & I' & B1 & B2 & B3 & G)|(h & A & Hn & C' & G)]; rewrite A in E.
    + assert (r = Ok [] /\ p' = Opened s) as [-> ->] by (destruct p; injection E as <- <-; auto).
      cbn [ackl app]. split; [split; assumption|]. split; [eauto|]. split; [|split; [|split; [exact G|split; discriminate]]].
      * intros _ _ Hc. unfold pclean, clean. split; [exact B1|]. split; [exact B2|]. rewrite B3. cbn [h_file].
        destruct p as [f|s0]; cbn [contents pclean] in *.
        -- destruct Hc as [-> ->]. reflexivity.
        -- destruct Hc as (Hc1 & Hc2 & Hc3). destruct I as ((I & _) & _). unfold HEADER in *.
           destruct (N.eqb_spec (f_len (h_file (i_fh s0))) 0) as [H0|_]; [lia|]. congruence.
      * intros _. destruct p; eauto.
    + assert (r = Err /\ p' = Closed (h_file h)) as [-> ->] by (destruct p; injection E as <- <-; auto).
      cbn [ackl app]. split; [split; assumption|]. split; [auto|].
      split; [|split; [|split; [exact G|split; discriminate]]]; intros ->; discriminate Hn.
Qed.

Fixpoint acksof (evs : list (op * res bytes)) : list (N * bytes) :=
  match evs with [] => [] | e :: evs => acksof evs ++ ackl (fst e) (snd e) end.
Definition nwrites (cs : list (op * fault)) : N := N.of_nat (length (filter is_write cs)).
Lemma nwrites_cons c cs : nwrites (c :: cs) = wr c + nwrites cs.
Proof. unfold nwrites, wr. cbn [filter]. destruct (is_write c); cbn [length]; lia. Qed.

Lemma run_spec cs : forall w acks p evs p',
  pinv w acks p -> Forall (op_ok dbg) cs -> Forall in_K cs ->
  run p cs = (evs, p') ->
  pinv (w + nwrites cs) (acksof evs ++ acks) p' /\
  Forall (fun e => snd e = Err \/ exists a, snd e = Ok a) evs /\
  (no_faults cs -> HEADER + 2 * ps * (w + nwrites cs + 1) < max_file -> pclean acks p -> pclean (acksof evs ++ acks) p').
Proof.
  induction cs as [|c cs IH]; intros w acks p evs p' I Hop Hk E; cbn [PagedSpec.run] in E.
  - injection E as <- <-. cbn. rewrite N.add_0_r. auto.
  - destruct (step p c) as [r p1] eqn:E1. destruct (run p1 cs) as [evs1 p2] eqn:E2. injection E as <- <-.
    inversion Hop as [|? ? Hc Hcs]; subst. inversion Hk as [|? ? Kc Kcs]; subst. rewrite nwrites_cons in *.
    destruct (step_spec w acks p c r p1 I Hc Kc E1) as (A & B & C & _ & _).
    destruct (IH _ _ _ _ _ A Hcs Kcs E2) as (A' & B' & C').
    cbn [acksof fst snd]. rewrite <- app_assoc. rewrite N.add_assoc. split; [exact A'|]. split.
    + constructor; assumption.
    + intros Hn W Hp. inversion Hn; subst. apply C'; [assumption|nia|]. apply C; [assumption|nia|assumption].
Qed.

Lemma new_inv : pinv 0 [] new_file /\ pclean [] new_file.
Proof. split; [split; [constructor|left; split; reflexivity]|split; reflexivity]. Qed.

Lemma written_acks evs id d : In (id, d) (written evs) -> In (of_be id, d) (acksof evs).
Proof.
  induction evs as [|[o r] evs IH]; [intros []|]. cbn [written acksof fst snd]. intros H. apply in_or_app.
  destruct o as [d'|i|], r as [a| | |]; cbn [ackl]; try (left; now apply IH).
  destruct H as [H|H]; [injection H as -> ->; right; now left|left; now apply IH].
Qed.

(** The ids returned are eight bytes long. *)
Lemma step_id p c r p' d : step p c = (r, p') -> fst c = OWrite d ->
  forall id, r = Ok id -> exists n, id = to_be 8 n.
Proof.
  intros E Hc id ->. unfold PagedSpec.step in E. rewrite Hc in E. destruct p as [f|s]; [discriminate|].
  unfold pf_write, wbind, wret in E. destruct (append dbg ps d (plan (snd c) s)) as [[n| | |] s']; try discriminate.
  exists n. congruence.
Qed.
Lemma run_ids cs : forall p evs p' id d, run p cs = (evs, p') -> In (id, d) (written evs) -> exists n, id = to_be 8 n.
Proof.
  induction cs as [|c cs IH]; intros p evs p' id d E H; cbn [PagedSpec.run] in E.
  - injection E as <- <-. destruct H.
  - destruct (step p c) as [r p1] eqn:E1. destruct (run p1 cs) as [evs1 p2] eqn:E2. injection E as <- <-.
    destruct (fst c) as [d'|i|] eqn:Ec; cbn [written] in H.
    + destruct r as [a| | |]; try (eapply IH; eassumption).
      destruct H as [H|H]; [|eapply IH; eassumption]. injection H as -> ->. eapply step_id; eauto.
    + eapply IH; eassumption.
    + eapply IH; eassumption.
Qed.

Section History.
Context (cs : list (op * fault)) (evs : list (op * res bytes)) (p : phase).
Context (Hk : Forall in_K cs) (Hh : history dbg cs) (Hr : run new_file cs = (evs, p)).

Lemma hist_inv :
  pinv (nwrites cs) (acksof evs) p /\ Forall (fun e => snd e = Err \/ exists a, snd e = Ok a) evs /\
  (no_faults cs -> room ps cs -> pclean (acksof evs) p).
Proof.
  destruct new_inv as [A B].
  destruct (run_spec cs 0 [] new_file evs p A Hh Hk Hr) as (C & D & E).
  rewrite app_nil_r in *. rewrite N.add_0_l in *. auto.
Qed.

Lemma top_no_panic : forall o r, In (o, r) evs -> r = Err \/ exists a, r = Ok a.
Proof. intros o r H. destruct hist_inv as (_ & A & _). rewrite Forall_forall in A. exact (A _ H). Qed.

Lemma read_acked w acks q id d :
  pinv w acks q -> is_open q -> length id = 8%nat -> In (of_be id, d) acks -> read_now dbg ps q id = Ok d.
Proof.
  intros I Ho Hl Hin. destruct q as [f|s]; [destruct Ho|]. pose proof I as [_ ((I1 & M1 & I2 & I3 & I4 & I5) & _)].
  rewrite Forall_forall in I5. specialize (I5 _ Hin). cbn [fst snd] in I5. destruct I5 as [I5 _].
  assert (op_ok dbg (ORead id, None)) as Hop.
  { split; [exact Hl|]. intros _. destruct I5 as [(B1 & B2 & _) _]. unfold HEADER, u64_max, max_file in *. lia. }
  unfold read_now. destruct (step (Opened s) (ORead id, None)) as [r p'] eqn:E.
  destruct (step_spec w acks (Opened s) (ORead id, None) r p' I Hop Logic.I E) as (_ & _ & _ & A & _).
  specialize (A eq_refl). cbn [fst snd] in A. now apply A.
Qed.

Lemma reopened_ok : pinv (nwrites cs) (acksof evs) (reopened dbg ps p) /\ is_open (reopened dbg ps p) /\
  fst (step p (OReopen, None)) = Ok [].
Proof.
  destruct hist_inv as (A & _ & _).
  unfold reopened. destruct (step p (OReopen, None)) as [r p'] eqn:E.
  destruct (step_spec _ _ _ (OReopen, None) r p' A Logic.I Logic.I E) as (B & _ & _ & C & _).
  specialize (C eq_refl). destruct C as [-> [s ->]]. cbn in *. rewrite N.add_0_r in B. auto.
Qed.

Lemma top_read id d : In (id, d) (written evs) -> is_open p -> read_now dbg ps p id = Ok d.
Proof.
  intros H Ho. destruct hist_inv as (A & _ & _).
  apply (read_acked _ _ _ _ _ A Ho); [|now apply written_acks].
  destruct (run_ids _ _ _ _ _ _ Hr H) as [n ->]. apply to_be_length.
Qed.
Lemma top_read_reopened id d :
  In (id, d) (written evs) -> fst (step p (OReopen, None)) = Ok [] /\ read_now dbg ps (reopened dbg ps p) id = Ok d.
Proof.
  intros H. destruct reopened_ok as (A & Ho & B). split; [exact B|].
  apply (read_acked _ _ _ _ _ A Ho); [|now apply written_acks].
  destruct (run_ids _ _ _ _ _ _ Hr H) as [n ->]. apply to_be_length.
Qed.

(** A write is accepted exactly if it fits, and then its id is larger than all
    others. *)
Lemma top_write d : K (Some d) -> is_open p ->
  (len d + 8 <= ps -> room ps cs -> exists id, write_now dbg ps p d = Ok id /\
      (forall id' d', In (id', d') (written evs) -> of_be id' < of_be id)) /\
  (ps < len d + 8 -> write_now dbg ps p d = Err).
Proof.
  intros Hd Ho. destruct hist_inv as (A & _ & _). destruct p as [f|s]; [destruct Ho|].
  unfold write_now. destruct (step (Opened s) (OWrite d, None)) as [r p'] eqn:E.
  destruct (step_spec _ _ _ (OWrite d, None) r p' A Logic.I Hd E) as (B & _ & _ & C & _).
  specialize (C eq_refl). cbn [fst snd] in *. destruct C as [_ C].
  destruct (N.leb_spec (len d + 8) ps) as [L|L]; split; intros L'; try lia.
  - intros W. destruct (C W) as (n & -> & Hn). eexists. split; [reflexivity|]. intros id' d' H. apply written_acks in H.
    destruct B as [B _]. cbn [ackl app] in B. inversion B as [|? ? ? B1 B2]; subst.
    rewrite Forall_forall in B2. exact (B2 _ H).
  - exact C.
Qed.

Lemma top_last_clean : no_faults cs -> room ps cs -> is_open p ->
  last_id p = match rev (written evs) with [] => None | (id, _) :: _ => Some id end.
Proof.
  intros Hn W Ho. destruct hist_inv as ((A0 & A) & _ & C). specialize (C Hn W). destruct p as [f|s]; [destruct Ho|].
  cbn [pclean last_id] in *. destruct C as (_ & _ & C). unfold pf_last_id. rewrite C.
  assert (forall l, acksof l = map (fun e => (of_be (fst e), snd e)) (rev (written l))) as Hm.
  { clear. induction l as [|[o r] l IH]; [reflexivity|]. cbn [acksof written fst snd]. rewrite IH.
    destruct o as [d'|i|], r as [a| | |]; cbn [ackl]; rewrite ?app_nil_r; try reflexivity.
    cbn [rev]. now rewrite map_app. }
  assert (forall id d, In (id, d) (written evs) -> exists n, id = to_be 8 n) as Hi by (intros; eapply run_ids; eassumption).
  rewrite Hm in *. destruct (rev (written evs)) as [|[id d] l] eqn:Ew; [reflexivity|].
  cbn [map fst snd] in *. destruct (Hi id d) as [n ->].
  { apply in_rev. rewrite Ew. now left. }
  destruct A as ((_ & _ & _ & _ & _ & A) & _). apply Forall_inv in A. destruct A as [[(A & _) _] _]. cbn [fst snd] in A.
  assert (of_be (to_be 8 n) =? 0 = false) as -> by (apply N.eqb_neq; lia).
  f_equal. pose proof (to_of_be (to_be 8 n)) as Hb. rewrite to_be_length in Hb. exact Hb.
Qed.

(** With faults: [last_id] is none, or on a page boundary, or an id that can be
    read; and no returned id is larger. *)
Lemma top_last_any : ~ K None -> is_open p ->
  (forall id, last_id p = Some id -> of_be id mod ps = 0 \/ exists d, K (Some d) /\ read_now dbg ps p id = Ok d) /\
  (forall id d, In (id, d) (written evs) -> exists id', last_id p = Some id' /\ of_be id <= of_be id').
Proof.
  intros HK Ho. destruct hist_inv as (A & _ & _). destruct p as [f|s]; [destruct Ho|].
  pose proof A as [_ ((I1 & M1 & I2 & I3 & I4 & I5) & J1 & J2 & J3 & J4)]. cbn [last_id]. unfold pf_last_id.
  assert (i_last s < u64_max) as Hu by (unfold HEADER, u64_max, max_file in *; lia).
  assert (of_be (to_be 8 (i_last s)) = i_last s) as Ei by (apply of_to_be; rewrite u64_pow; exact Hu).
  split.
  - intros id E. destruct (N.eqb_spec (i_last s) 0) as [|H0]; [discriminate|]. assert (id = to_be 8 (i_last s)) as -> by congruence. clear E. rewrite Ei.
    destruct J2 as [J2|[J2|(d & Hd & J2)]]; [now left|destruct (HK J2)|right]. exists d. split; [exact Hd|].
    unfold read_now. destruct (step (Opened s) (ORead (to_be 8 (i_last s)), None)) as [r p'] eqn:E.
    assert (op_ok dbg (ORead (to_be 8 (i_last s)), None)) as Hop.
    { split; [apply to_be_length|]. rewrite Ei. intros _. unfold HEADER, u64_max, max_file in *. lia. }
    destruct (step_spec _ _ (Opened s) (ORead _, None) r p' A Hop Logic.I E) as (_ & _ & _ & B & _).
    specialize (B eq_refl). cbn [fst snd] in B. rewrite Ei in B. now apply B.
  - intros id d H. apply written_acks in H. rewrite Forall_forall in J4, I5. specialize (J4 _ H). specialize (I5 _ H).
    cbn [fst snd] in *. destruct I5 as [[(I5 & _) _] _].
    destruct (N.eqb_spec (i_last s) 0) as [|H0]; [lia|]. eexists. split; [reflexivity|]. rewrite Ei. exact J4.
Qed.

Lemma top_read_any id flt : is_open p -> readable dbg id ->
  (fst (step p (ORead id, flt)) = Err \/ exists d, fst (step p (ORead id, flt)) = Ok d) /\
  is_open (snd (step p (ORead id, flt))).
Proof.
  intros Ho Hid. destruct hist_inv as (A & _ & _).
  destruct (step p (ORead id, flt)) as [r p'] eqn:E.
  destruct (step_spec _ _ p (ORead id, flt) r p' A Hid Logic.I E) as (_ & B & _ & _). split; [exact B|].
  destruct p as [f|s]; [destruct Ho|]. cbn in E. destruct (pf_read dbg ps id (plan flt s)) as [r' s']. injection E as <- <-. exact Logic.I.
Qed.
End History.

Lemma top_read_bad id s : length id <> 8%nat -> pf_read dbg ps id s = (Panic, s).
Proof. intros H. unfold pf_read. apply Nat.eqb_neq in H. now rewrite H. Qed.
Lemma top_write_big d s : ps < len d + 8 -> pf_write dbg ps d s = (Err, s).
Proof. intros H. unfold pf_write, wbind. now rewrite (append_big d s H). Qed.
End Top.

Section Final.
Context (dbg : bool) (ps : N) (Hok : page_size_ok ps).
Notation step := (step dbg ps).
Notation run := (run dbg ps).
Context (cs : list (op * fault)) (evs : list (op * res bytes)) (p : phase).
Context (Hh : history dbg cs) (Hr : run new_file cs = (evs, p)).
Let T : option bytes -> Prop := fun _ => True.

Lemma all_K l : Forall (in_K T) l.
Proof. apply Forall_forall. intros [[d|id|] flt] _; exact Logic.I. Qed.
Let own (o : option bytes) : Prop := match o with Some d => exists flt, In (OWrite d, flt) cs | None => False end.
Lemma own_K : Forall (in_K own) cs.
Proof. apply Forall_forall. intros [[d|id|] flt] H; cbn; eauto. Qed.

Lemma pf_no_panic o r : In (o, r) evs -> r = Err \/ exists a, r = Ok a.
Proof. exact (top_no_panic dbg ps Hok T cs evs p (all_K cs) Hh Hr o r). Qed.
Lemma pf_read_back id d : In (id, d) (written evs) -> is_open p -> read_now dbg ps p id = Ok d.
Proof. exact (top_read dbg ps Hok T cs evs p (all_K cs) Hh Hr id d). Qed.
Lemma pf_read_reopened id d :
  In (id, d) (written evs) -> fst (step p (OReopen, None)) = Ok [] /\ read_now dbg ps (reopened dbg ps p) id = Ok d.
Proof. exact (top_read_reopened dbg ps Hok T cs evs p (all_K cs) Hh Hr id d). Qed.
Lemma pf_write_now d : is_open p ->
  (len d + 8 <= ps -> room ps cs -> exists id, write_now dbg ps p d = Ok id /\
      (forall id' d', In (id', d') (written evs) -> of_be id' < of_be id)) /\
  (ps < len d + 8 -> write_now dbg ps p d = Err).
Proof. exact (top_write dbg ps Hok T cs evs p (all_K cs) Hh Hr d Logic.I). Qed.
Lemma pf_last_clean : no_faults cs -> room ps cs -> is_open p ->
  last_id p = match rev (written evs) with [] => None | (id, _) :: _ => Some id end.
Proof. exact (top_last_clean dbg ps Hok T cs evs p (all_K cs) Hh Hr). Qed.
Lemma pf_last_any : is_open p ->
  (forall id, last_id p = Some id ->
     of_be id mod ps = 0 \/ exists d flt, In (OWrite d, flt) cs /\ read_now dbg ps p id = Ok d) /\
  (forall id d, In (id, d) (written evs) -> exists id', last_id p = Some id' /\ of_be id <= of_be id').
Proof.
  intros Ho. destruct (top_last_any dbg ps Hok _ cs evs p own_K Hh Hr (fun H => H) Ho) as [A B]. split; [|exact B].
  intros id E. destruct (A id E) as [C|(d & (flt & D) & F)]; [now left|right]. eauto.
Qed.
Lemma pf_read_any id flt : is_open p -> readable dbg id ->
  (fst (step p (ORead id, flt)) = Err \/ exists d, fst (step p (ORead id, flt)) = Ok d) /\
  is_open (snd (step p (ORead id, flt))).
Proof. exact (top_read_any dbg ps Hok T cs evs p (all_K cs) Hh Hr id flt). Qed.

Lemma acks_written l : acksof l = map (fun e => (of_be (fst e), snd e)) (rev (written l)).
Proof.
  induction l as [|[o r] l IH]; [reflexivity|]. cbn [acksof written fst snd]. rewrite IH.
  destruct o as [d'|i|], r as [a| | |]; cbn [ackl]; rewrite ?app_nil_r; try reflexivity.
  cbn [rev]. now rewrite map_app.
Qed.
Lemma decr_app l1 id d l2 : decr (l1 ++ (id, d) :: l2) -> Forall (fun e => fst e < id) l2.
Proof.
  induction l1 as [|e l1 IH]; cbn [app]; intros H; inversion H; subst; auto.
Qed.
Lemma pf_increasing a id d b id' d' c :
  written evs = a ++ (id, d) :: b ++ (id', d') :: c -> of_be id < of_be id'.
Proof.
  intros E. destruct (hist_inv dbg ps Hok T cs evs p (all_K cs) Hh Hr) as ([A _] & _).
  rewrite acks_written, E in A. rewrite rev_app_distr in A. cbn [rev] in A. rewrite rev_app_distr in A. cbn [rev] in A.
  rewrite <- !app_assoc in A. cbn [app] in A. rewrite !map_app in A. cbn [map fst snd] in A.
  apply decr_app in A. rewrite Forall_forall in A. apply (A (of_be id, d)). rewrite map_app. apply in_or_app. right. now left.
Qed.

(** Replies when nothing fails. *)
Lemma run_clean cs' : forall w acks q evs' q',
  pinv ps T w acks q -> Forall (op_ok dbg) cs' -> HEADER + 2 * ps * (w + nwrites cs' + 1) < max_file ->
  no_faults cs' -> run q cs' = (evs', q') ->
  Forall (fun e => match fst e with
    | OReopen => snd e = Ok []
    | OWrite d => is_open q -> if len d + 8 <=? ps then exists id, snd e = Ok id else snd e = Err
    | _ => True
    end) evs' /\ (is_open q -> is_open q').
Proof.
  induction cs' as [|c cs' IH]; intros w acks q evs' q' I Hop W Hn E; cbn [PagedSpec.run] in E.
  - injection E as <- <-. split; [constructor|auto].
  - destruct (step q c) as [r q1] eqn:E1. destruct (run q1 cs') as [evs1 q2] eqn:E2. injection E as <- <-.
    inversion Hop as [|? ? Hc Hcs]; subst. inversion Hn as [|? ? Hn1 Hn2]; subst. rewrite nwrites_cons in *.
    destruct (step_spec dbg ps Hok T w acks q c r q1 I Hc (Forall_inv (all_K [c])) E1) as (A & B & _ & C & _).
    destruct (IH _ _ _ _ _ A Hcs ltac:(nia) Hn2 E2) as [D F].
    specialize (C Hn1).
    assert (is_open q -> is_open q1) as Ho.
    { intros Ho. destruct q as [f|s]; [destruct Ho|]. destruct c as [[d|id|] flt]; cbn [fst] in C.
      - destruct C as [[s' ->] _]. exact Logic.I.
      - destruct C as [[s' ->] _]. exact Logic.I.
      - destruct C as [_ [s' ->]]. exact Logic.I. }
    split; [|auto]. constructor; cbn [fst snd].
    + destruct c as [[d|id|] flt]; cbn [fst] in *; [|exact Logic.I|apply C].
      intros Hq. destruct q as [f|s]; [destruct Hq|]. destruct C as [_ C].
      destruct (len d + 8 <=? ps); [destruct C as (n & -> & _); [nia|eauto]|exact C].
    + eapply Forall_impl; [|exact D]. intros [[d|id|] r1]; cbn [fst snd]; try (now intros H); intros H Hq; apply H, Ho, Hq.
Qed.

Lemma pf_clean_replies cs1 :
  cs = (OReopen, None) :: cs1 -> no_faults cs -> room ps cs ->
  is_open p /\
  (forall r, In (OReopen, r) evs -> r = Ok []) /\
  (forall d r, In (OWrite d, r) evs -> len d + 8 <= ps -> exists id, r = Ok id) /\
  (forall d r, In (OWrite d, r) evs -> ps < len d + 8 -> r = Err).
Proof.
  intros Ec Hn W. pose proof Hh as Hop. unfold history in Hop. pose proof Hr as E. rewrite Ec in E. cbn [PagedSpec.run] in E.
  destruct (step new_file (OReopen, None)) as [r p1] eqn:E1. destruct (run p1 cs1) as [evs1 p2] eqn:E2.
  injection E as <- <-. clear Hr. subst cs. inversion Hop as [|? ? _ Hop1]; subst. inversion Hn as [|? ? _ Hn1]; subst.
  unfold room in W. fold (nwrites ((OReopen, None) :: cs1)) in W. rewrite nwrites_cons in W.
  change (wr (OReopen, None)) with 0 in W.
  destruct (step_spec dbg ps Hok T 0 [] new_file (OReopen, None) r p1 (proj1 (new_inv ps T)) Logic.I Logic.I) as (A & _ & _ & C & _);
    [exact E1|].
  specialize (C eq_refl). cbn [fst new_file] in C. destruct C as [-> [s ->]].
  destruct (run_clean cs1 _ _ _ evs1 p2 A Hop1) as [D F]; [change (wr (OReopen, None)) with 0; unfold HEADER; lia|exact Hn1|exact E2|].
  split; [exact (F Logic.I)|]. rewrite Forall_forall in D.
  split; [|split].
  - intros r [H|H]; [now injection H|exact (D _ H)].
  - intros d r [H|H] L; [discriminate H|]. specialize (D _ H Logic.I). cbn [snd] in D.
    assert (len d + 8 <=? ps = true) as X by (apply N.leb_le; exact L). now rewrite X in D.
  - intros d r [H|H] L; [discriminate H|]. specialize (D _ H Logic.I). cbn [snd] in D.
    assert (len d + 8 <=? ps = false) as X by (apply N.leb_gt; exact L). now rewrite X in D.
Qed.
End Final.

Lemma run_app dbg ps a : forall b q, run dbg ps q (a ++ b) =
  let (e1, q1) := run dbg ps q a in let (e2, q2) := run dbg ps q1 b in (e1 ++ e2, q2).
Proof.
  induction a as [|c a IH]; intros b q; cbn [app PagedSpec.run].
  - now destruct (run dbg ps q b).
  - destruct (step dbg ps q c) as [r q1]. rewrite IH. destruct (run dbg ps q1 a) as [e1 q2].
    now destruct (run dbg ps q2 b).
Qed.

(** Everything works after reopening: the reopened store is again the end of a
    history. *)
Lemma history_reopen dbg ps cs evs p :
  history dbg cs -> run dbg ps new_file cs = (evs, p) ->
  history dbg (cs ++ [(OReopen, None)]) /\
  run dbg ps new_file (cs ++ [(OReopen, None)]) =
    (evs ++ [(OReopen, fst (step dbg ps p (OReopen, None)))], reopened dbg ps p).
Proof.
  intros A E. split.
  - apply Forall_app; split; [exact A|repeat constructor].
  - rewrite run_app, E. cbn [PagedSpec.run]. unfold reopened. now destruct (step dbg ps p (OReopen, None)).
Qed.
Lemma room_reopen ps cs : room ps (cs ++ [(OReopen, None)]) <-> room ps cs.
Proof. unfold room. rewrite filter_app. cbn [filter]. cbn [is_write fst]. now rewrite app_nil_r. Qed.
Lemma written_app a b : written (a ++ b) = written a ++ written b.
Proof.
  induction a as [|[o r] a IH]; [reflexivity|]. cbn [app written]. rewrite IH. now destruct o, r.
Qed.
Lemma pf_reopen_last dbg ps cs evs p :
  page_size_ok ps -> history dbg cs -> run dbg ps new_file cs = (evs, p) -> no_faults cs -> room ps cs ->
  is_open (reopened dbg ps p) /\
  last_id (reopened dbg ps p) = match rev (written evs) with [] => None | (id, _) :: _ => Some id end.
Proof.
  intros Ho Hh E Hn W. destruct (history_reopen _ _ _ _ _ Hh E) as [H1 H2].
  assert (is_open (reopened dbg ps p)) as Hop
    by apply (reopened_ok dbg ps Ho (fun _ => True) cs evs p (all_K cs) Hh E).
  split; [exact Hop|].
  rewrite (pf_last_clean dbg ps Ho _ _ _ H1 H2); [|apply Forall_app; split; [exact Hn|repeat constructor]|now apply room_reopen|exact Hop].
  rewrite written_app. cbn [written]. now rewrite app_nil_r.
Qed.
Lemma pf_crash dbg ps cs evs p :
  page_size_ok ps -> history dbg cs -> run dbg ps new_file cs = (evs, p) ->
  fst (step dbg ps p (OReopen, None)) = Ok [] /\ is_open (reopened dbg ps p) /\
  (forall id d, In (id, d) (written evs) -> read_now dbg ps (reopened dbg ps p) id = Ok d) /\
  (forall d, N.of_nat (length d) + 8 <= ps -> room ps cs -> exists id, write_now dbg ps (reopened dbg ps p) d = Ok id /\
     forall id' d', In (id', d') (written evs) -> of_be id' < of_be id).
Proof.
  intros Ho Hh E. destruct (history_reopen _ _ _ _ _ Hh E) as [H1 H2].
  destruct (reopened_ok dbg ps Ho (fun _ => True) cs evs p (all_K cs) Hh E) as (_ & A & B).
  split; [exact B|]. split; [exact A|]. split.
  - intros id d H. apply (pf_read_reopened dbg ps Ho cs evs p Hh E id d H).
  - intros d L W. destruct (pf_write_now dbg ps Ho _ _ _ H1 H2 d A) as [C _].
    destruct (C L (proj2 (room_reopen _ _) W)) as (id & C1 & C2).
    exists id. split; [exact C1|]. intros id' d' H. apply (C2 id' d'). rewrite written_app. apply in_or_app. now left.
Qed.
