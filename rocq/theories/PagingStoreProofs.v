(** Proofs about trees on a paging file. *)
From Verif Require Import Base BaseLemmas Header Node Combine Iter Api Tree Rep Spec Client Top Store StoreSpec StoreProofs
  World WorldProofs PagedStoreProofs U64 File FileProofs Chunk WebFile WebProofs WebPlans WebSpec WebTop WebAppend
  Paging PagingSpec PagingProofs PagingTop PagingRun PagingWeb PagingStore.
Local Open Scope N_scope.

Lemma fits_ok ps d : fits ps d = true -> size_ok ps (PAppend d).
Proof.
  unfold fits, size_ok. intros H. apply andb_prop in H as [H1 H2]. apply N.ltb_lt in H1. split; [exact H1|].
  apply orb_prop in H2 as [H2|H2]; [apply orb_prop in H2 as [H2|H2]|].
  - left. now apply N.leb_le.
  - right. left. apply andb_prop in H2 as [H2 H3]. apply N.eqb_eq in H2. apply N.leb_le in H3. auto.
  - right. right. now apply N.ltb_lt.
Qed.

Lemma pstep_open D ps c s r s' : no_open c -> snd s <> None -> pstep D ps c s = (r, s') -> snd s' <> None.
Proof.
  destruct s as [s om]. cbn [snd]. destruct om as [m|]; [intros Hn _|congruence].
  destruct c; try contradiction; cbn [pstep]; unfold on_open; cbn [fst snd];
    match goal with |- context [wbind ?m ?k ?x] => destruct (wbind m k x) as [q g] end;
    intros E; injection E as <- <-; discriminate.
Qed.
Lemma note_fresh c r l x : no_open c -> In x (fresh l) -> In x (fresh (note c r l)).
Proof. destruct c, r as [[]| | |]; cbn; try contradiction; auto. Qed.
Lemma note_saved c r l x : In x (saved l) -> In x (saved (note c r l)).
Proof. destruct c, r as [[]| | |]; cbn; auto using in_or_app. Qed.
Lemma notes_saved cs : forall rs l x, In x (saved l) -> In x (saved (notes cs rs l)).
Proof.
  induction cs as [|c cs IH]; intros rs l x H; [exact H|]. destruct rs as [|r rs]; [exact H|]. cbn.
  apply IH. now apply note_saved.
Qed.

Section St.
Context (D : dev) (any ex : bool) (inv : dv D -> file -> Prop) (ps : N) (P : dv D -> Prop).
Context (HD : file_dev D any inv) (Hex : ex = true -> exact_length D inv) (Hmode : any = true \/ ex = true).
Context (Hps : page_size_ok ps).
Context (HP : forall s, P s -> exists F, inv s F /\ (any = true \/ f_len F mod ps = 0)).
Notation state_inv := (state_inv D any ex inv ps).
Definition sched : paging_schedule -> Prop := Forall (Forall (fun c => size_ok ps c /\ no_open c /\ (any = true \/ no_sync c))).

Lemma inv_state s : paging_inv D P any ps s -> exists l, state_inv (fst s) l.
Proof.
  intros [(s0 & cs & rs & H0 & Hc & Hn & E) _]. destruct (HP s0 H0) as (F & HI & Ha).
  assert (state_inv (s0, None) (Ledger [] [])) as S0.
  { exists F. split; [exact HI|]. split; [reflexivity|]. split; [|intros _ n d []].
    destruct Ha as [Ha|Ha]; [now left|right]. pose proof (ps_bounds ps Hps). unfold start.
    pose proof (N.div_mod (f_len F) ps) as Ed. rewrite Ha in Ed. lia. }
  eexists. apply (run_ok D any ex inv ps HD Hex Hmode Hps cs _ _ _ _ S0 Hc Hn E).
Qed.
Lemma sched_run cs : forall s l rs s', state_inv s l -> snd s <> None ->
  Forall (fun c => size_ok ps c /\ no_open c /\ (any = true \/ no_sync c)) cs -> prun D ps cs s = (rs, s') ->
  exists l', state_inv s' l' /\ snd s' <> None /\ incl (fresh l) (fresh l').
Proof.
  induction cs as [|c cs IH]; intros s l rs s' HS Ho Hc E; cbn [prun] in E.
  - injection E as <- <-. exists l. split; [exact HS|]. split; [exact Ho|]. intros x Hx; exact Hx.
  - destruct (pstep D ps c s) as [r s1] eqn:E1. destruct (prun D ps cs s1) as [rs2 s2] eqn:E2. injection E as <- <-.
    inversion Hc as [|? ? (H1 & H2 & H3) Hc2]; subst.
    destruct (step_ok D any ex inv ps HD Hex Hmode Hps _ _ _ _ _ HS H1 H3 E1) as [_ S1].
    destruct (IH _ _ _ _ S1 (pstep_open _ _ _ _ _ _ H2 Ho E1) Hc2 E2) as (l' & S2 & O2 & I2).
    exists l'. split; [exact S2|]. split; [exact O2|]. intros x Hx. apply I2. now apply note_fresh.
Qed.
Lemma fresh_small s l n d : state_inv s l -> snd s <> None -> In (n, d) (fresh l) -> n < u64_max.
Proof.
  intros (F & HI & HS) Ho Hin. destruct (snd s) as [m|]; [|congruence].
  pose proof (fd_small _ _ _ HD _ _ HI) as Hsm.
  destruct (pi_fresh _ _ _ _ _ _ HS _ _ Hin) as [(P1 & _) _]. pose proof (pi_start _ _ _ _ _ _ HS).
  pose proof (start_bounds ps Hps (p_len m)). pose proof (ps_bounds ps Hps). unfold u64_max, i64_lim in *. lia.
Qed.

Lemma store_write s d r s' l : state_inv (fst s) l -> snd (fst s) <> None -> sched (snd s) ->
  st_write (paging_store D ps) s d = (r, s') ->
  exists l', state_inv (fst s') l' /\ snd (fst s') <> None /\ sched (snd s') /\ incl (fresh l) (fresh l') /\
    (r = Err \/ exists n, r = Ok (to_be 8 n) /\ n < u64_max /\ In (n, d) (fresh l')).
Proof.
  intros HS Ho Hs E. cbn [st_write paging_store] in E. destruct (fits ps d) eqn:Ef.
  2: { injection E as <- <-. exists l. split; [exact HS|]. split; [exact Ho|]. split; [exact Hs|]. split; [intros x Hx; exact Hx|now left]. }
  destruct (pstep D ps (PAppend d) (fst s)) as [q f] eqn:E1. destruct s as [s todo]. cbn [fst snd] in *.
  destruct (step_ok D any ex inv ps HD Hex Hmode Hps _ _ _ _ _ HS (fits_ok _ _ Ef) (or_intror Logic.I) E1) as [R S1].
  pose proof (pstep_open D ps (PAppend d) _ _ _ Logic.I Ho E1) as O1.
  assert (Forall (fun c => size_ok ps c /\ no_open c /\ (any = true \/ no_sync c)) (hd [] todo)) as Hh
    by (destruct Hs; cbn; [constructor|assumption]).
  assert (sched (tl todo)) as Ht by (destruct Hs; cbn; [constructor|assumption]).
  destruct (prun D ps (hd [] todo) f) as [rs2 f2] eqn:E2. cbn [snd] in E.
  destruct (sched_run _ _ _ _ _ S1 O1 Hh E2) as (l' & S2 & O2 & I2).
  injection E as <- <-. exists l'. cbn [fst snd]. split; [exact S2|]. split; [exact O2|]. split; [exact Ht|].
  split; [intros x Hx; apply I2; now apply note_fresh|].
  destruct R as [->|(n & ->)]; [now left|right]. exists n. split; [reflexivity|].
  assert (In (n, d) (fresh l')) as Hin by (apply I2; cbn; now left). split; [|exact Hin].
  exact (fresh_small _ _ _ _ S2 O2 Hin).
Qed.
Lemma store_inv s d r s' : paging_inv D P any ps s -> st_write (paging_store D ps) s d = (r, s') -> paging_inv D P any ps s'.
Proof.
  intros HI E. destruct (inv_state s HI) as (l & HS). destruct HI as [(s0 & cs & rs & H0 & Hc & Hn & E0) [Ho Hs]].
  destruct (store_write _ _ _ _ _ HS Ho Hs E) as (l' & _ & O' & Hs' & _). split; [|now split].
  cbn [st_write paging_store] in E. destruct (fits ps d) eqn:Ef.
  2: { injection E as <- <-. exists s0, cs, rs. auto. }
  destruct (pstep D ps (PAppend d) (fst s)) as [q f] eqn:E1.
  destruct (prun D ps (hd [] (snd s)) f) as [rs2 f2] eqn:E2. injection E as <- <-. cbn [fst snd].
  assert (Forall (fun c => size_ok ps c /\ no_open c /\ (any = true \/ no_sync c)) (hd [] (snd s))) as Hh
    by (destruct Hs; cbn; [constructor|assumption]).
  eexists s0, (cs ++ PAppend d :: hd [] (snd s)), _. split; [exact H0|]. split; [|split].
  - apply Forall_app. split; [exact Hc|]. constructor; [now apply fits_ok|].
    eapply Forall_impl; [|exact Hh]. tauto.
  - destruct Hn as [Hn|Hn]; [now left|]. destruct any eqn:Ea; [now left|right]. apply Forall_app. split; [exact Hn|].
    constructor; [exact Logic.I|]. eapply Forall_impl; [|exact Hh]. intros c (_ & _ & [F|F]); [discriminate|exact F].
  - rewrite prun_app, E0. cbn [prun]. rewrite E1, E2. reflexivity.
Qed.
Lemma store_after ds : forall s l, state_inv (fst s) l -> snd (fst s) <> None -> sched (snd s) ->
  exists l', state_inv (fst (after (paging_store D ps) s ds)) l' /\
    snd (fst (after (paging_store D ps) s ds)) <> None /\ incl (fresh l) (fresh l').
Proof.
  induction ds as [|d ds IH]; intros s l HS Ho Hs; cbn [after].
  - exists l. split; [exact HS|]. split; [exact Ho|intros x Hx; exact Hx].
  - destruct (st_write (paging_store D ps) s d) as [r s'] eqn:E. cbn [snd].
    destruct (store_write _ _ _ _ _ HS Ho Hs E) as (l1 & S1 & O1 & Hs1 & I1 & _).
    destruct (IH s' l1 S1 O1 Hs1) as (l' & S2 & O2 & I2). exists l'. split; [exact S2|]. split; [exact O2|].
    intros x Hx. auto.
Qed.
(** What was written is on the list of fresh blobs. *)
Lemma store_written s0 d id s1 ds : paging_inv D P any ps s0 -> st_write (paging_store D ps) s0 d = (Ok id, s1) ->
  exists n l, id = to_be 8 n /\ n < u64_max /\ In (n, d) (fresh l) /\
    state_inv (fst (after (paging_store D ps) s1 ds)) l /\ snd (fst (after (paging_store D ps) s1 ds)) <> None.
Proof.
  intros HI E. destruct (inv_state s0 HI) as (l & HS). destruct HI as [_ [Ho Hs]].
  destruct (store_write _ _ _ _ _ HS Ho Hs E) as (l1 & S1 & O1 & Hs1 & _ & [F|(n & En & Hn & Hin)]); [discriminate|].
  destruct (store_after ds s1 l1 S1 O1 Hs1) as (l2 & S2 & O2 & I2). exists n, l2.
  split; [congruence|]. auto.
Qed.
Lemma fresh_read s l n d todo : state_inv s l -> snd s <> None -> In (n, d) (fresh l) -> n < u64_max ->
  st_read (paging_store D ps) (s, todo) (to_be 8 n) = Ok d.
Proof.
  intros HS Ho Hin Hn. cbn [st_read paging_store fst]. rewrite to_be_length. cbn [Nat.eqb].
  rewrite of_to_be by (rewrite u64_pow; exact Hn).
  destruct (pstep D ps (PLoad n) s) as [r s'] eqn:E.
  destruct (step_ok D any ex inv ps HD Hex Hmode Hps (PLoad n) _ _ _ _ HS Logic.I (or_intror Logic.I) E) as [R _].
  destruct (R d) as [R1 _]. rewrite (R1 Hin). reflexivity.
Qed.
Theorem paging_lawful : lawful (paging_store D ps) (paging_inv D P any ps).
Proof.
  constructor.
  - intros s d r s' HI E. split; [exact (store_inv _ _ _ _ HI E)|].
    destruct (inv_state s HI) as (l & HS). destruct HI as [_ [Ho Hs]].
    destruct (store_write _ _ _ _ _ HS Ho Hs E) as (_ & _ & _ & _ & _ & [->|(n & -> & _)]); [now left|right].
    eexists. split; [reflexivity|]. rewrite to_be_length. lia.
  - intros s d id s' ds HI E.
    destruct (store_written s d id s' ds HI E) as (n & l & -> & Hn & Hin & HS & Ho).
    destruct (after (paging_store D ps) s' ds) as [s2 todo]. exact (fresh_read s2 l n d todo HS Ho Hin Hn).
Qed.
End St.

(** Durability on files with exact lengths. *)
Theorem paging_durable D inv ps dbg s h : file_dev D true inv -> exact_length D inv -> page_size_ok ps ->
  paging_inv D (fun x => exists F, inv x F) true ps s -> history_ok dbg h ->
  exists oks w, exec dbg (paging_store D ps) (World.start (S:=paging_store D ps) s) h ⇓ Ok (oks, w) /\ length oks = length h /\
    Forall2 (holds (st_read (paging_store D ps) (w_st w))) (w_trees w) (m_trees (model no_maps h oks)) /\
    forall cs rs s2 good, Forall (size_ok ps) cs ->
    prun D ps (PSync :: cs) (fst (w_st w)) = (Ok ODone :: rs, s2) ->
    readable D inv good -> good (fst s2) -> snd s2 <> None ->
    Forall2 (fun id m => exists t, t_load (paging_store D ps) (s2, []) (Some id) = Ok t /\
                                   holds (st_read (paging_store D ps) (s2, [])) t m)
      (w_ids w) (m_saved (model no_maps h oks)).
Proof.
  intros HD Hex Hps HI H. set (P := fun x => exists F, inv x F).
  assert (forall x, P x -> exists F, inv x F /\ (true = true \/ f_len F mod ps = 0)) as HP
    by (intros x (F & HF); exists F; auto).
  pose proof (paging_lawful D true true inv ps P HD (fun _ => Hex) (or_introl eq_refl) Hps HP) as LW.
  destruct (history_elsewhere dbg _ _ LW s h HI H) as (oks & w & C & Hl & _ & I' & K).
  exists oks, w. split; [exact C|]. split; [exact Hl|]. split.
  - apply K. intros s0 d id s1 ds I0 Ew <-. exact (law_read _ _ LW s0 d id s1 ds I0 Ew).
  - intros cs rs s2 good Hc E Hr Hg Ho.
    assert (knows (paging_store D ps) (paging_inv D P true ps) (w_st w) (st_read (paging_store D ps) (s2, []))) as Kn.
    { intros s0 d id s1 ds I0 Ew Ea.
      destruct (store_written D true true inv ps P HD (fun _ => Hex) (or_introl eq_refl) Hps HP s0 d id s1 ds I0 Ew)
        as (n & l & -> & Hn & Hin & HS & _). rewrite Ea in HS.
      destruct (run_ok D true true inv ps HD (fun _ => Hex) (or_introl eq_refl) Hps (PSync :: cs) _ _ _ _ HS
        (Forall_cons _ (Logic.I : size_ok ps PSync) Hc) (or_introl eq_refl) E) as [_ S2].
      cbn [notes note] in S2.
      assert (In (n, d) (saved (notes cs rs (Ledger (fresh l) (fresh l ++ saved l))))) as Hsv
        by (apply notes_saved; cbn; apply in_or_app; now left).
      cbn [st_read paging_store fst]. rewrite to_be_length. cbn [Nat.eqb].
      rewrite of_to_be by (rewrite u64_pow; exact Hn).
      rewrite (load_now D true true inv ps HD Hps s2 _ n d good S2 Hr Hg Ho (or_intror (conj eq_refl Hsv))). reflexivity. }
    eapply Forall2_imp; [|exact (proj2 (K _ Kn))].
    cbv beta. intros id m (data & t & A & B & D'). exists t. split; [|exact D'].
    unfold t_load. rewrite A. exact B.
Qed.

(** Files that are only written at the end: one sync, at the end. *)
Theorem paging_once_durable D inv (P : dv D -> Prop) ps dbg s h : file_dev D false inv -> exact_length D inv -> page_size_ok ps ->
  (forall x, P x -> inv x empty_file) -> paging_inv D P false ps s -> history_ok dbg h ->
  exists oks w, exec dbg (paging_store D ps) (World.start (S:=paging_store D ps) s) h ⇓ Ok (oks, w) /\
    length oks = length h /\
    Forall2 (holds (st_read (paging_store D ps) (w_st w))) (w_trees w) (m_trees (model no_maps h oks)) /\
    forall cs rs s2 good, Forall only_reads cs ->
    prun D ps (PSync :: cs) (fst (w_st w)) = (Ok ODone :: rs, s2) ->
    readable D inv good -> good (fst s2) -> snd s2 <> None ->
    Forall2 (fun id m => exists t, t_load (paging_store D ps) (s2, []) (Some id) = Ok t /\
                                   holds (st_read (paging_store D ps) (s2, [])) t m)
      (w_ids w) (m_saved (model no_maps h oks)).
Proof.
  intros HD Hex Hps HE HI H.
  assert (forall x, P x -> exists F, inv x F /\ (false = true \/ f_len F mod ps = 0)) as HP.
  { intros x Hx. exists empty_file. split; [now apply HE|right]. cbn [empty_file f_len]. apply N.mod_0_l.
    pose proof (ps_bounds ps Hps). lia. }
  pose proof (paging_lawful D false true inv ps P HD (fun _ => Hex) (or_intror eq_refl) Hps HP) as LW.
  destruct (history_elsewhere dbg _ _ LW s h HI H) as (oks & w & C & Hl & _ & I' & K).
  exists oks, w. split; [exact C|]. split; [exact Hl|]. split.
  - apply K. intros s0 d id s1 ds I0 Ew <-. exact (law_read _ _ LW s0 d id s1 ds I0 Ew).
  - intros cs rs s2 good Hc E Hr Hg Ho.
    assert (knows (paging_store D ps) (paging_inv D P false ps) (w_st w) (st_read (paging_store D ps) (s2, []))) as Kn.
    { intros s0 d id s1 ds I0 Ew Ea.
      destruct (store_written D false true inv ps P HD (fun _ => Hex) (or_intror eq_refl) Hps HP s0 d id s1 ds I0 Ew)
        as (n & l & -> & Hn & Hin & HS & _). rewrite Ea in HS.
      destruct (sync_then_read D inv ps HD Hex Hps _ _ cs rs (Ok ODone) s2 HS Hc E) as (_ & S2).
      cbn [note] in S2.
      assert (In (n, d) (saved (notes cs rs (Ledger (fresh l) (fresh l ++ saved l))))) as Hsv
        by (apply notes_saved; cbn; apply in_or_app; now left).
      cbn [st_read paging_store fst]. rewrite to_be_length. cbn [Nat.eqb].
      rewrite of_to_be by (rewrite u64_pow; exact Hn).
      assert (fst (pstep D ps (PLoad n) s2) = Ok (OData d)) as ->; [|reflexivity].
      rewrite <- read_only_step by exact Logic.I.
      exact (load_now (read_only D) true true inv ps (read_only_dev _ _ _ HD) Hps s2 _ n d good S2 Hr Hg Ho (or_intror (conj eq_refl Hsv))). }
    eapply Forall2_imp; [|exact (proj2 (K _ Kn))].
    cbv beta. intros id m (data & t & A & B & K'). exists t. split; [|exact K'].
    unfold t_load. rewrite A. exact B.
Qed.

(** On the browser cache. *)
Theorem paging_web_durable ps dbg s h : page_size_ok ps ->
  paging_inv web_dev new_file false ps s -> history_ok dbg h ->
  exists oks w, exec dbg (paging_store web_dev ps) (World.start (S:=paging_store web_dev ps) s) h ⇓ Ok (oks, w) /\
    length oks = length h /\
    Forall2 (holds (st_read (paging_store web_dev ps) (w_st w))) (w_trees w) (m_trees (model no_maps h oks)) /\
    forall cs rs s2, Forall only_reads cs ->
    prun web_dev ps (PSync :: cs) (fst (w_st w)) = (Ok ODone :: rs, s2) ->
    works (fst s2) -> snd s2 <> None ->
    Forall2 (fun id m => exists t, t_load (paging_store web_dev ps) (s2, []) (Some id) = Ok t /\
                                   holds (st_read (paging_store web_dev ps) (s2, [])) t m)
      (w_ids w) (m_saved (model no_maps h oks)).
Proof.
  intros Hps HI H.
  destruct (paging_once_durable web_dev web_end new_file ps dbg s h web_end_dev web_end_exact Hps) as (oks & w & A & B & C & K); auto.
  { intros x (t & ->). apply new_end. }
  exists oks, w. split; [exact A|]. split; [exact B|]. split; [exact C|]. intros cs rs s2 Hc E Hg. apply (K cs rs s2 works Hc E web_readable Hg).
Qed.
