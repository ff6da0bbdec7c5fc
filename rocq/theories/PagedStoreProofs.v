(** Trees on the paged file store. *)
From Verif Require Import Base BaseLemmas Header Node Combine Iter Api Tree Rep Sim Spec Client Top TopOps
  MemLemmas Store StoreSpec StoreProofs World WorldProofs FailSpec FailProofs Logged
  U64 File FileProofs PagedFile PagedFileProofs PagedSpec PagedTop PagedStore.

Section Lawful.
Context (dbg : bool) (ps : N) (Hok : page_size_ok ps).
Notation S := (paged_store dbg ps).
Notation inv := (paged_inv dbg ps).
Notation run := (run dbg ps).

(** [s] is reached, after the writes [acks] have succeeded. *)
Definition reached (s : inner) (acks : list (bytes * bytes)) : Prop :=
  exists cs evs, history dbg cs /\ run new_file cs = (evs, Opened s) /\ incl acks (written evs).

Lemma run_step p c : run p [c] = let (r, p1) := step dbg ps p c in ([(fst c, r)], p1).
Proof. cbn. destruct (step dbg ps p c) as [r p1]. reflexivity. Qed.

Lemma reached_run s acks cs evs p : reached s acks -> history dbg cs -> run (Opened s) cs = (evs, p) ->
  exists cs' evs', history dbg cs' /\ run new_file cs' = (evs', p) /\ incl (acks ++ written evs) (written evs').
Proof.
  intros (cs0 & evs0 & H0 & E0 & I0) H E. exists (cs0 ++ cs), (evs0 ++ evs).
  split; [apply Forall_app; auto|]. split; [now rewrite run_app, E0, E|].
  rewrite written_app. apply incl_app; [now apply incl_appl|apply incl_appr, incl_refl].
Qed.
Lemma reached_open s cs evs p acks : history dbg cs -> run new_file cs = (evs, p) -> incl acks (written evs) ->
  reached (ensure_open dbg ps s p) acks.
Proof.
  intros H E I. destruct p as [f|s1]; cbn [ensure_open]; [|exists cs, evs; auto].
  destruct (pf_crash dbg ps cs evs (Closed f) Hok H E) as (_ & Ho & _).
  destruct (history_reopen dbg ps cs evs (Closed f) H E) as [H1 E1].
  destruct (reopened dbg ps (Closed f)) as [f'|s'] eqn:Er; [destruct Ho|].
  exists (cs ++ [(OReopen, None)]), (evs ++ [(OReopen, fst (step dbg ps (Closed f) (OReopen, None)))]).
  split; [exact H1|]. split; [exact E1|]. rewrite written_app. now apply incl_appl.
Qed.

Lemma reached_write s acks todo d r s' : reached s acks -> Forall (fun e => history dbg (snd e)) todo ->
  st_write S (s, todo) d = (r, s') ->
  reached (fst s') (acks ++ written [(OWrite d, r)]) /\ Forall (fun e => history dbg (snd e)) (snd s') /\
  (r = Err \/ exists id, r = Ok id /\ length id = 8).
Proof.
  intros R T E. cbn [st_write paged_store fst snd] in E.
  remember (hd (None, []) todo) as e eqn:He.
  assert (history dbg (snd e)) as Hh by (destruct T; subst; [constructor|assumption]).
  destruct (step dbg ps (Opened s) (OWrite d, fst e)) as [r1 p1] eqn:Es.
  assert (run (Opened s) [(OWrite d, fst e)] = ([(OWrite d, r1)], p1)) as E1 by (rewrite run_step, Es; reflexivity).
  assert (r1 = Err \/ exists a, r1 = Ok a) as Hr.
  { destruct R as (cs0 & evs0 & H0 & E0 & _).
    assert (history dbg (cs0 ++ [(OWrite d, fst e)])) as Hx by (apply Forall_app; split; [exact H0|repeat constructor]).
    assert (run new_file (cs0 ++ [(OWrite d, fst e)]) = (evs0 ++ [(OWrite d, r1)], p1)) as X by (now rewrite run_app, E0, E1).
    apply (pf_no_panic dbg ps Hok _ _ _ Hx X (OWrite d) r1). apply in_or_app. right. now left. }
  destruct (reached_run s acks [(OWrite d, fst e)] _ _ R ltac:(repeat constructor) E1) as (cs1 & evs1 & H1 & F1 & I1).
  destruct (run p1 (snd e)) as [evs2 p2] eqn:E2.
  assert (history dbg (cs1 ++ snd e)) as H2 by (apply Forall_app; auto).
  assert (run new_file (cs1 ++ snd e) = (evs1 ++ evs2, p2)) as F2 by (now rewrite run_app, F1, E2).
  cbn [snd] in E. assert (r = r1 /\ s' = (ensure_open dbg ps s p2, tl todo)) as [-> ->] by (split; congruence). cbn [fst snd].
  split; [|split].
  - eapply reached_open; [exact H2|exact F2|]. rewrite written_app. now apply incl_appl.
  - destruct T; [constructor|assumption].
  - destruct Hr as [->|[id ->]]; [now left|right]. exists id. split; [reflexivity|].
    assert (In (id, d) (written evs1)) as Hi by (apply I1, in_or_app; right; now left).
    destruct (run_ids dbg ps cs1 new_file evs1 p1 id d F1 Hi) as (n & ->). apply to_be_length.
Qed.

Lemma reached_read s acks id d : reached s acks -> In (id, d) acks -> read_now dbg ps (Opened s) id = Ok d.
Proof.
  intros (cs & evs & H & E & I) Hi. exact (pf_read_back dbg ps Hok cs evs (Opened s) H E id d (I _ Hi) Logic.I).
Qed.

Lemma reached_after acks ds : forall s, reached (fst s) acks -> Forall (fun e => history dbg (snd e)) (snd s) ->
  reached (fst (after S s ds)) acks.
Proof.
  induction ds as [|d ds IH]; intros [s todo] R T; cbn [after]; [exact R|].
  destruct (st_write S (s, todo) d) as [r s'] eqn:E. destruct (reached_write s acks todo d r s' R T E) as (R' & T' & _).
  apply IH; [|exact T']. destruct R' as (cs & evs & A & B & C). exists cs, evs. split; [exact A|]. split; [exact B|].
  intros x Hx. apply C, in_or_app. now left.
Qed.

Lemma paged_acked s d id s' ds : inv s -> st_write S s d = (Ok id, s') -> reached (fst (after S s' ds)) [(id, d)].
Proof.
  intros [(cs & evs & H & E) T] Ew. destruct s as [s todo].
  destruct (reached_write s [] todo d (Ok id) s') as (R' & T' & _); [|exact T|exact Ew|].
  - exists cs, evs. split; [exact H|]. split; [exact E|]. intros x [].
  - now apply reached_after.
Qed.

Theorem paged_lawful : lawful S inv.
Proof.
  split.
  - intros [s todo] d r s' [(cs & evs & H & E) T] Ew.
    destruct (reached_write s [] todo d r s') as ((cs' & evs' & A & B & _) & T' & Hr); [|exact T|exact Ew|].
    + exists cs, evs. split; [exact H|]. split; [exact E|]. intros x [].
    + split; [split; eauto|]. destruct Hr as [->|(id & -> & Hl)]; [now left|right]. exists id. rewrite Hl. split; [reflexivity|lia].
  - intros s d id s' ds I Ew. cbn [st_read paged_store]. eapply reached_read; [eapply paged_acked; eauto|now left].
Qed.
End Lawful.

(** Another reader that knows everything that was written. *)
Definition knows (S : store) (inv : st S -> Prop) (s : st S) (rd : reader) : Prop :=
  forall s0 d id s1 ds, inv s0 -> st_write S s0 d = (Ok id, s1) -> after S s1 ds = s -> rd id = Ok d.

Lemma history_elsewhere dbg (S : store) inv (L : lawful S inv) (s : st S) h : inv s -> history_ok dbg h ->
  exists oks w, exec dbg S (start s) h ⇓ Ok (oks, w) /\ length oks = length h /\
    (In false oks -> may_refuse S inv) /\ inv (w_st w) /\
    forall rd, knows S inv (w_st w) rd ->
    Forall2 (holds rd) (w_trees w) (m_trees (model no_maps h oks)) /\
    Forall2 (fun id m => exists data t, rd id = Ok data /\ deserialize data = Ok t /\ holds rd t m)
      (w_ids w) (m_saved (model no_maps h oks)).
Proof.
  intros I H.
  destruct (strict_history dbg (logged S) (linv S inv) (logged_strict S inv L) (s, []) h (linv_start S inv s I) H)
    as (oks & w & C & Hl & M & ids & W).
  destruct (exec_logged S inv L dbg (start (S:=logged S) (s, [])) _ _ _ (linv_start S inv s I) C) as [C' I'].
  exists oks, (fw S w). split; [exact C'|]. split; [exact Hl|]. split; [intros X; apply (logged_refuse S inv), M, X|].
  split; [apply I'|]. intros rd K. destruct W as (_ & T & J).
  assert (forall id x, st_read (logged S) (w_st w) id = Ok x -> rd id = Ok x) as Hrd.
  { intros id x E. apply lfind_in in E. destruct I' as [_ F]. rewrite Forall_forall in F.
    destruct (F _ E) as (s0 & s1 & ds & I0 & Ew & Ea). symmetry in Ea. exact (K s0 x id s1 ds I0 Ew Ea). }
  assert (forall t m, tok (logged S) ids (w_st w) t m -> holds rd t m) as A.
  { intros t m (g & (R & Cg & _) & E & _). eapply holds_ext; [exact E|].
    eapply good_holds; [eapply Rep_mono; [exact Hrd|intros X; exact X|exact R]|exact Cg]. }
  split; (eapply Forall2_imp; [|eassumption]); [exact A|].
  intros id m (t & E & Ht). unfold t_load in E. destruct (st_read (logged S) (w_st w) id) as [data| | |] eqn:Er; try discriminate.
  exists data, t. split; [exact (Hrd _ _ Er)|]. split; [exact E|]. now apply A.
Qed.

Lemma paged_knows dbg ps (Hok : page_size_ok ps) s cs evs p s2 :
  history dbg cs -> run dbg ps (Opened (fst s)) cs = (evs, p) -> reopened dbg ps p = Opened s2 ->
  knows (paged_store dbg ps) (paged_inv dbg ps) s (st_read (paged_store dbg ps) (s2, [])).
Proof.
  intros H E Er s0 d id s1 ds I0 Ew Ea. pose proof (paged_acked dbg ps Hok s0 d id s1 ds I0 Ew) as R. rewrite Ea in R.
  destruct (reached_run dbg ps _ _ _ _ _ R H E) as (cs' & evs' & H' & E' & I').
  cbn [st_read paged_store fst]. rewrite <- Er.
  destruct (pf_read_reopened dbg ps Hok cs' evs' p H' E' id d) as [_ X]; [|exact X]. apply I', in_or_app. left. now left.
Qed.

Lemma paged_reopens dbg ps (Hok : page_size_ok ps) s cs evs p : paged_inv dbg ps s ->
  history dbg cs -> run dbg ps (Opened (fst s)) cs = (evs, p) -> exists s2, reopened dbg ps p = Opened s2.
Proof.
  intros [(cs0 & evs0 & H0 & E0) _] H E.
  destruct (pf_crash dbg ps (cs0 ++ cs) (evs0 ++ evs) p Hok) as (_ & Ho & _).
  - apply Forall_app; auto.
  - now rewrite run_app, E0, E.
  - destruct (reopened dbg ps p) as [|s2]; [destruct Ho|eauto].
Qed.

(** The durability theorem. *)
Theorem paged_durable dbg ps (Hok : page_size_ok ps) s h : paged_inv dbg ps s -> history_ok dbg h ->
  exists oks w, exec dbg (paged_store dbg ps) (start s) h ⇓ Ok (oks, w) /\ length oks = length h /\
    Forall2 (holds (st_read (paged_store dbg ps) (w_st w))) (w_trees w) (m_trees (model no_maps h oks)) /\
    forall cs evs p, history dbg cs -> run dbg ps (Opened (fst (w_st w))) cs = (evs, p) ->
    exists s2, reopened dbg ps p = Opened s2 /\
    Forall2 (fun id m => exists t, t_load (paged_store dbg ps) (s2, []) (Some id) = Ok t /\
                                   holds (st_read (paged_store dbg ps) (s2, [])) t m)
      (w_ids w) (m_saved (model no_maps h oks)).
Proof.
  intros I H. destruct (history_elsewhere dbg _ _ (paged_lawful dbg ps Hok) s h I H) as (oks & w & C & Hl & _ & I' & K).
  exists oks, w. split; [exact C|]. split; [exact Hl|]. split.
  - apply K. intros s0 d id s1 ds I0 Ew <-. exact (law_read _ _ (paged_lawful dbg ps Hok) s0 d id s1 ds I0 Ew).
  - intros cs evs p Hc E. destruct (paged_reopens dbg ps Hok _ _ _ _ I' Hc E) as [s2 Er]. exists s2. split; [exact Er|].
    eapply Forall2_imp; [|exact (proj2 (K _ (paged_knows dbg ps Hok _ _ _ _ _ Hc E Er)))].
    cbv beta. intros id m (data & t & A & B & D). exists t. split; [|exact D].
    unfold t_load. rewrite A. exact B.
Qed.
