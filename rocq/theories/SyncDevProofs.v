(** A file of the browser file system keeps what a paging file writes to it. *)
From Verif Require Import Base BaseLemmas Header Node Store StoreProofs U64 File FileProofs Chunk ChunkProofs WebFile WebProofs WebPlans
  WebSpec WebTop WebAppend WebFs WebFsSpec WebFsSim WebFsProofs WebFsBlob WebFsBlobProofs Paging PagingSpec PagingProofs PagingTop
  PagingRun PagingWeb WebFsStaleSpec WebFsStale WebFsLike SyncDev.
Local Open Scope N_scope.

Section Dev.
Context (any : bool) (R : wfile -> file -> Prop).
Context (HD : file_dev web_dev any R) (HRs : forall g h F, WebProofs.same g h -> R g F -> R h F) (HRr : forall g F, R g F -> rep g F).
Context (d f : bytes) (Hf : valid f).

Definition link (s : fs) (F : file) : Prop := exists cs,
  (open_chunks s d f = None \/ open_chunks s d f = Some cs) /\ R (WFile cs (fview s d f) []) F.
Lemma link_eq s s' F : open_chunks s' d f = open_chunks s d f -> fview s' d f = fview s d f -> link s F -> link s' F.
Proof. unfold link. intros -> ->. auto. Qed.
Lemma link_restart s F : link s F -> link (fs_restart s) F.
Proof. intros (cs & _ & H). exists cs. split; [now left|exact H]. Qed.
Lemma rep_chunks g F : rep g F -> fold_right set_insert [] (map fst (w_cache g)) = w_chunks g.
Proof.
  intros L. destruct (wf_open (with_faults [] g)) as [q h] eqn:E. assert (WebProofs.same g (with_faults [] g)) as S0 by now split.
  pose proof E as E'. apply open_same in E' as [[S _] _]; [|apply (rep_same _ _ _ S0 L)].
  unfold wf_open, js in E. cbn in E. injection E as _ <-. cbn in S. now symmetry.
Qed.
Lemma step_link c t r s s' F : ~ concerns d f (Call c t) -> file_step d f c r s s' -> link s F -> link s' F.
Proof.
  intros K H HL. destruct H as [A1 A2 A3|Hc A1 A2 A3|k w t' cs cs' q Hch A1 A2 Est Hr].
  - now apply (link_eq s).
  - destruct HL as (cs & _ & L). pose proof (rep_chunks _ _ (HRr _ _ L)) as E. cbn [w_cache w_chunks] in E.
    exists cs. rewrite A3. split; [right; now rewrite A2, E|exact L].
  - exfalso. apply K. exact (change_concerns _ _ _ _ _ t Hch).
Qed.
(** An event that does not concern the file. *)
Lemma event_link e s W F : Inv s W -> event_ok e -> ~ concerns d f e ->
  (forall d' t, e = Call (KDeleteDir d') t -> get d' (fs_dirs s) = None) -> link s F ->
  forall rs s', fs_run [e] s = (rs, s') -> exists W', Inv s' W' /\ link s' F /\ changes W' <= changes W + 1.
Proof.
  intros I Hok Hn Hdel HL rs s' E. destruct e as [c t|]; cbn [fs_run] in E.
  - destruct (fs_call c t s) as [r s1] eqn:Ec. injection E as _ <-.
    assert (forall d', c = KDeleteDir d' -> get d' (fs_dirs s) = None) as Hdel' by (intros d' ->; now apply (Hdel d' t)).
    destruct (call_effect s W c t r s1 I Hok Hdel' Ec) as (W1 & HE & I1).
    assert (not_deleted d f c) as Hnd by (split; intros ->; apply Hn; cbn; auto).
    pose proof (call_file s W c t r s1 d f I Hok Hdel' Hf Hnd Ec) as FS.
    exists W1. split; [exact I1|]. split; [exact (step_link _ _ _ _ _ _ Hn FS HL)|exact (effect_changes _ _ _ _ HE)].
  - injection E as _ <-. eexists. split; [exact (inv_restart _ _ I)|]. split; [now apply link_restart|cbn; lia].
Qed.
Lemma link_like s s1 F : like d s s1 -> link s F <-> link s1 F.
Proof. intros H. unfold link. now rewrite (like_chunks _ f _ _ H), (like_view _ f _ _ H). Qed.
Lemma event_but e s W F : Inv_but d s W -> event_ok e -> ~ concerns d f e -> link s F ->
  forall rs s', fs_run [e] s = (rs, s') -> exists W', Inv_but d s' W' /\ link s' F /\ changes W' <= changes W + 1.
Proof.
  intros IB Hok Hn HL rs s' E. destruct e as [c t|].
  2:{ injection E as _ <-. destruct (but_restart d s W IB) as (W' & IB' & HC). exists W'. split; [exact IB'|]. split; [now apply link_restart|lia]. }
  destruct IB as (s1 & I & LK).
  assert ((exists d', c = KDeleteDir d' /\ get d' (fs_dirs s) <> None) \/ forall d', c = KDeleteDir d' -> get d' (fs_dirs s) = None) as [(d' & -> & Hd)|Hc].
  { destruct c as [d'|d'|d' f'|d' f'|d' f'|d' f'|d' f' o b|d' f' a e|d' f'|d' f' n|d' f' b|d' f' o|]; try (right; discriminate).
    destruct (get d' (fs_dirs s)) eqn:G; [left; exists d'; split; [reflexivity|congruence]|right; intros d2 Ed; injection Ed as <-; exact G]. }
  - destruct LK as (D & l & A & HDl & Hdd).
    assert (Inv_any s (W, D)) as IA by (exists s1, l; auto).
    assert (exists r, fs_run [Call (KDeleteDir d') t] s = ([r], s')) as (r & E').
    { cbn [fs_run] in E |- *. destruct (fs_call (KDeleteDir d') t s) as [r s0]. injection E as _ <-. eauto. }
    destruct (event_any _ s (W, D) r s' IA Hok E') as ((W' & D') & HE & s2 & l2 & I2 & A2 & HD2). cbn [fst snd] in *.
    assert (d' <> d) as Hne by exact Hn.
    assert (changes W' = changes W /\ D' d = false) as [HC HD'].
    { inversion HE as [? ? ? ? ? ? Hx Hy| |  |]; subst.
      - split; [|exact Hdd]. exact (effect_unchanged (KDeleteDir d') t _ _ _ (fun x => x) Hy).
      - split; [reflexivity|]. unfold upd1. now rewrite beq_neq by exact Hne.
      - auto. }
    exists W'. split; [|split; [|lia]].
    + exists s2. split; [exact I2|]. exists D', l2. auto.
    + assert (exists N, s' = with_names N s /\ get d N = get d (fs_names s)) as (N & -> & HN).
      { clear - E Hne. cbn [fs_run] in E. unfold fs_call in E. destruct s as [a b c u]. cbn [fs_up] in E. destruct u.
        - cbn [fs_exec] in E. destruct t as [|[] t]; cbn [fs_js] in E; injection E as _ <-; [exists (del d' b)|exists b|exists (del d' b)];
            (split; [reflexivity|]); cbn [fs_names]; [|reflexivity|]; now rewrite get_del, beq_neq by exact Hne.
        - injection E as _ <-. now exists b. }
      revert HL. apply link_eq; [reflexivity|]. unfold fview, obj. cbn [with_names fs_names fs_objs]. now rewrite HN.
  - cbn [fs_run] in E. destruct (fs_call c t s) as [r s0] eqn:Ec. injection E as _ <-.
    destruct (like_call d c t s s1 r s0 LK Ec Hc) as (s2 & E2 & LK2).
    destruct (event_link (Call c t) s1 W F I Hok Hn) with (rs := [r]) (s' := s2) as (W2 & I2 & L2 & C2).
    + intros d' t' X. injection X as -> <-. destruct LK as (D & l & A & _). rewrite (al_dirs _ _ _ A). now apply Hc.
    + now apply (link_like _ _ _ LK).
    + cbn [fs_run]. now rewrite E2.
    + exists W2. split; [exists s2; auto|]. split; [now apply (link_like _ _ _ LK2)|exact C2].
Qed.
Lemma run_cons e l s : snd (fs_run (e :: l) s) = snd (fs_run l (snd (fs_run [e] s))).
Proof.
  destruct e as [c t|]; cbn [fs_run].
  - destruct (fs_call c t s) as [r s1]. cbn [snd]. destruct (fs_run l s1). reflexivity.
  - cbn [snd]. destruct (fs_run l (fs_restart s)). reflexivity.
Qed.
Lemma apart_link l : forall s W F, Inv_but d s W -> Forall (apart d f) l -> link s F ->
  exists W', Inv_but d (snd (fs_run l s)) W' /\ link (snd (fs_run l s)) F /\ changes W' <= changes W + N.of_nat (length l).
Proof.
  induction l as [|e l IH]; intros s W F I Ha HL.
  { exists W. cbn. split; [exact I|]. split; [exact HL|lia]. }
  inversion Ha as [|? ? (H1 & H2) Hl]; subst. rewrite run_cons.
  destruct (fs_run [e] s) as [rs s1] eqn:E. cbn [snd].
  destruct (event_but e s W F I H1 H2) with (rs := rs) (s' := s1) as (W1 & I1 & L1 & C1); auto.
  destruct (IH s1 W1 F I1 Hl L1) as (W2 & I2 & L2 & C2). exists W2. split; [exact I2|]. split; [exact L2|].
  cbn [length]. lia.
Qed.

(** ** The calls of the device *)
Definition sinv (s : sync_file) (F : file) : Prop :=
  all_apart d f (sf_todo s) /\ exists W, Inv_but d (sf_fs s) W /\ link (sf_fs s) F /\
    changes W + sf_left s + events (sf_todo s) < u64_max.
(** The state a call is executed in. *)
Lemma before_call s F : sinv s F -> let s1 := snd (fs_run (fst (hd ([], []) (sf_todo s))) (sf_fs s)) in
  all_apart d f (tl (sf_todo s)) /\ exists W, Inv_but d s1 W /\ link s1 F /\
    changes W + sf_left s + events (tl (sf_todo s)) < u64_max.
Proof.
  intros (Ha & W & I & HL & HB). destruct (sf_todo s) as [|[g t] todo]; cbn [hd tl fst snd] in *.
  { split; [exact Ha|]. exists W. auto. }
  inversion Ha as [|? ? Hg Ht]; subst. cbn [fst] in Hg. split; [exact Ht|].
  destruct (apart_link g (sf_fs s) W F I Hg HL) as (W1 & I1 & L1 & C1). exists W1. split; [exact I1|]. split; [exact L1|].
  cbn [events fold_right fst] in HB. fold (events todo) in HB. lia.
Qed.
Lemma quiet_call c s F r s' : ~ changing c -> event_ok (Call c []) -> ~ concerns d f (Call c []) ->
  match c with KDeleteDir _ => False | _ => True end -> sinv s F -> sf_call c s = (r, s') ->
  sinv s' F /\ exists s1 W t s2, Inv s1 W /\ link s1 F /\ fs_call c t s1 = (r, s2).
Proof.
  intros Hq Hok Hn Hdd HS E. destruct (before_call s F HS) as (Ha & W & (s0 & I & LK) & HL & HB). unfold sf_call in E.
  set (s1 := snd (fs_run (fst (hd ([], []) (sf_todo s))) (sf_fs s))) in *. set (t := snd (hd ([], []) (sf_todo s))) in *.
  destruct (fs_call c t s1) as [r1 s2] eqn:Ec. injection E as -> <-.
  assert (event_ok (Call c t)) as Hok' by (destruct c; exact Hok).
  assert (~ concerns d f (Call c t)) as Hn' by (destruct c; exact Hn).
  assert (forall x d', c = KDeleteDir d' -> get d' (fs_dirs x) = None) as Hdel by (intros x d' ->; destruct Hdd).
  destruct (like_call d c t s1 s0 r s2 LK Ec (Hdel s1)) as (s3 & E3 & LK3). apply (link_like _ _ _ LK) in HL.
  destruct (call_effect s0 W c t r s3 I Hok' (Hdel s0) E3) as (W1 & HE & I1).
  assert (not_deleted d f c) as Hnd by (split; intros ->; [destruct Hdd|apply Hn; cbn; auto]).
  pose proof (call_file s0 W c t r s3 d f I Hok' (Hdel s0) Hf Hnd E3) as FS.
  split; [|exists s0, W, t, s3; auto]. split; [exact Ha|]. cbn [sf_fs sf_todo sf_left]. exists W1. split; [now exists s3|].
  split; [apply (link_like _ _ _ LK3); exact (step_link _ _ _ _ _ _ Hn' FS HL)|]. now rewrite (effect_unchanged _ _ _ _ _ Hq HE).
Qed.
(** An open file as a [wfile]. *)
Lemma link_open s W F o files cs t : Inv s W -> link s F -> get d (fs_dirs s) = Some (o, files) -> get f files = Some cs ->
  R (WFile cs (WebFsSim.view f (nth o (fs_objs s) [])) t) F.
Proof.
  intros I (cs' & Ho & HR) Hd Hg. unfold open_chunks in Ho. rewrite Hd, Hg in Ho.
  assert (cs' = cs) as -> by (destruct Ho; congruence). unfold fview, obj in HR. rewrite (i_dirs _ _ I _ _ _ Hd) in HR.
  revert HR. apply HRs. now split.
Qed.
Lemma call_reads s W F a b t r s' : Inv s W -> link s F -> a <= b -> fs_call (KRead d f a b) t s = (r, s') ->
  r = Err \/ b <= f_len F /\ r = Ok (RBytes (f_read F a (N.to_nat (b - a)))).
Proof.
  intros I HL Hab E. unfold fs_call in E. destruct (fs_up s); [|injection E as <- _; now left].
  destruct (fs_exec (KRead d f a b) t s) as [r1 s1] eqn:Ex. injection E as -> _. cbn [fs_exec] in Ex.
  apply on_file_inv in Ex as [(_ & -> & _)|(o & files & cs & q & j' & Hd & Hg & Ej & -> & _)]; [now left|].
  destruct (open_inv _ _ _ _ _ _ _ I Hf Hd Hg) as (_ & _ & _ & Rp).
  destruct (inv_ro s W d f o files cs _ _ t q j' I Hf Hd Hg (sim_read _ _ Hf (a, b))) as (_ & t' & Et); [|exact Ej|].
  { intros t' r g X. now apply (WebFsProofs.rep_read _ _ _ _ _ _ (rep_faults t' _ _ Rp)) in X. }
  destruct (fd_read _ _ _ HD _ F a b _ _ (link_open _ _ _ _ _ _ t' I HL Hd Hg) Hab Et) as [_ [->|[H1 ->]]]; [now left|right].
  split; [exact H1|reflexivity].
Qed.
Lemma call_length s W F t r s' : Inv s W -> link s F -> fs_call (KLength d f) t s = (r, s') ->
  r = Err \/ exists n g g' , r = Ok (RNum n) /\ R g F /\ dv_length web_dev g = (Ok n, g').
Proof.
  intros I HL E. unfold fs_call in E. destruct (fs_up s); [|injection E as <- _; now left].
  destruct (fs_exec (KLength d f) t s) as [r1 s1] eqn:Ex. injection E as -> _. cbn [fs_exec] in Ex.
  apply on_file_inv in Ex as [(_ & -> & _)|(o & files & cs & q & j' & Hd & Hg & Ej & -> & _)]; [now left|].
  destruct (inv_ro s W d f o files cs _ _ t q j' I Hf Hd Hg (sim_length _ _)) as (_ & t' & Et); [|exact Ej|].
  { intros t' r g X. injection X as _ <-. apply same_refl. }
  pose proof (link_open _ _ _ _ _ _ t' I HL Hd Hg) as HR.
  unfold j_length in Ej. injection Ej as <- _.
  right. eexists _, _, _. split; [reflexivity|]. split; [exact HR|exact Et].
Qed.
Lemma call_writes s W F o b t r s' : Inv s W -> link s F -> any = true \/ o = f_len F -> o + N.of_nat (length b) < i64_lim ->
  N.of_nat (length b) < usize_lim -> changes W + 1 < u64_max -> fs_call (KWrite d f o b) t s = (r, s') ->
  exists W' F', Inv s' W' /\ changes W' <= changes W + 1 /\ link s' F' /\
    (r = Ok RUnit /\ F' = f_write F o b \/ r = Err /\ (F' = F \/ any = true /\ F' = f_write F o b)).
Proof.
  intros I HL Ha Ho Hb HB E.
  destruct (call_effect s W (KWrite d f o b) t r s' I (conj Hf Hb) ltac:(discriminate) E) as (W' & HE & I').
  exists W'. pose proof (effect_changes _ _ _ _ HE) as HC. clear HE.
  unfold fs_call in E. destruct (fs_up s) eqn:Hup.
  2:{ injection E as <- <-. exists F. auto 7. }
  destruct (fs_exec (KWrite d f o b) t s) as [r1 s1] eqn:Ex. injection E as Hr Hs. subst r1. cbn [fs_exec] in Ex.
  apply on_file_inv in Ex as [(_ & -> & ->)|(ob & files & cs & q & j' & Hd & Hg & Ej & -> & ->)].
  { subst s'. exists F. auto 7. }
  destruct (open_inv _ _ _ _ _ _ _ I Hf Hd Hg) as (_ & Hm & Hc & _).
  destruct (jwrite_sim (changes W) f o b (jfile_of s ob cs t) q j' Hf Hm Hc Ej) as [(_ & X & _)|(_ & _ & A3 & t' & Et)]; [lia|].
  cbn [jfile_of j_chunks j_cache] in *.
  destruct (on_view s W d ob files f (j_cache j') (set f (j_chunks j') files) I Hd A3) as (B1 & B2 & _);
    [intros h Hh; now apply get_set_ne|]. rewrite get_set_same in B1.
  assert (dv_write web_dev o b (WFile cs (WebFsSim.view f (nth ob (fs_objs s) [])) t') = (q, jfile_to f j')) as Ed.
  { cbn [dv_write web_dev]. apply N.ltb_lt in Ho. now rewrite Ho. }
  destruct (fd_write _ _ _ HD _ F o b _ _ (link_open _ _ _ _ _ _ t' I HL Hd Hg) Ha Ed) as (F' & HR' & K).
  exists F'. split; [exact I'|]. split; [exact HC|]. unfold jfile_to in HR'. rewrite <- B2 in HR'.
  destruct K as [[-> ->]|[-> K]]; cbn [bind] in Hs; subst s'; (split; [exists (j_chunks j'); split; [right; exact B1|exact HR']|]); auto.
Qed.

Lemma sync_file_dev : file_dev (sync_dev d f) any sinv.
Proof.
  constructor.
  - intros s F (_ & W & _ & (cs & _ & HR) & _). exact (fd_small _ _ _ HD _ _ HR).
  - intros s F r s' HS E. cbn [dv_length sync_dev] in E. unfold wbind, wret in E.
    destruct (sf_call (KLength d f) s) as [q g] eqn:Ec.
    destruct (quiet_call (KLength d f) _ _ _ _ ltac:(intros []) Hf ltac:(intros []) Logic.I HS Ec) as (HS' & s1 & W & t & s2 & I & HL & E1).
    destruct (call_length _ _ _ _ _ _ I HL E1) as [->|(n & h & h' & -> & HR & El)]; injection E as <- <-; (split; [exact HS'|]); [now left|right].
    exists n. split; [reflexivity|]. destruct (fd_length _ _ _ HD _ _ _ _ HR El) as [_ [X|(m & X & Y)]]; [discriminate|]. now injection X as <-.
  - intros s F a b r s' HS Hab E. cbn [dv_read sync_dev] in E. unfold wbind, wret in E.
    destruct (sf_call (KRead d f a b) s) as [q g] eqn:Ec.
    destruct (quiet_call (KRead d f a b) _ _ _ _ ltac:(intros []) Hf ltac:(intros []) Logic.I HS Ec) as (HS' & s1 & W & t & s2 & I & HL & E1).
    destruct (call_reads _ _ _ _ _ _ _ _ I HL Hab E1) as [->|(H & ->)]; injection E as <- <-; (split; [exact HS'|]); auto.
  - intros s F o b r s' HS Ha E. cbn [dv_write sync_dev] in E.
    destruct (N.ltb_spec (o + N.of_nat (length b)) i64_lim) as [L1|L1]; [|injection E as <- <-; exists F; auto].
    destruct (N.ltb_spec (N.of_nat (length b)) usize_lim) as [L2|L2]; [|injection E as <- <-; exists F; auto].
    destruct (N.ltb_spec 0 (sf_left s)) as [L3|L3]; [|injection E as <- <-; exists F; auto]. cbn [andb] in E.
    destruct (before_call s F HS) as (Hap & W & (s0 & I & LK) & HL & HB). unfold wbind, wret, sf_call in E. cbn [sf_fs sf_todo sf_left] in E.
    destruct (fs_call _ _ _) as [q g] eqn:Ec in E. apply (link_like _ _ _ LK) in HL.
    destruct (like_call d _ _ _ _ _ _ LK Ec ltac:(discriminate)) as (g0 & Ec0 & LK').
    destruct (call_writes _ W F o b _ _ _ I HL Ha L1 L2 ltac:(lia) Ec0) as (W' & F' & I' & HC & HL' & K). apply (link_like _ _ _ LK') in HL'.
    assert (Inv_but d g W') as IB' by now exists g0.
    exists F'. destruct K as [[-> ->]|[-> K]]; injection E as <- <-; (split; [split; [exact Hap|]; exists W'; cbn [sf_fs sf_todo sf_left]; split; [exact IB'|]; split; [exact HL'|lia]|]); auto.
  - intros s F r s' HS E. cbn [dv_open sync_dev] in E.
    assert (sinv (SyncFile (if fs_up (sf_fs s) then sf_fs s else fs_restart (sf_fs s)) (sf_todo s) (sf_left s)) F) as H0.
    { destruct HS as (Ha & W & I & HL & HB). split; [exact Ha|]. cbn [sf_fs sf_todo sf_left].
      destruct (fs_up (sf_fs s)); [exists W; auto|]. destruct (but_restart _ _ _ I) as (W' & I' & HC). exists W'.
      split; [exact I'|]. split; [now apply link_restart|]. now rewrite HC. }
    revert E. generalize dependent (SyncFile (if fs_up (sf_fs s) then sf_fs s else fs_restart (sf_fs s)) (sf_todo s) (sf_left s)).
    intros s0 H0 E. unfold wbind, wret in E. destruct (sf_call (KOpenDir d) s0) as [q g] eqn:E1.
    destruct (quiet_call (KOpenDir d) _ _ _ _ ltac:(intros []) Logic.I ltac:(intros []) Logic.I H0 E1) as (H1 & s1 & W & t & s2 & I & HL & E1').
    assert (forall c t s r s', (c = KOpenDir d \/ c = KOpenFile d f) -> (exists W, Inv s W) -> fs_call c t s = (r, s') -> r = Err \/ exists x, r = Ok x) as Hr.
    { intros c t0 s3 r0 s4 Hc (W0 & I0) E0.
      assert (event_ok (Call c t0)) as Hok by (destruct Hc as [-> | ->]; [exact Logic.I|exact Hf]).
      destruct (call_effect s3 W0 c t0 r0 s4 I0 Hok ltac:(destruct Hc as [-> | ->]; discriminate) E0) as (W1 & HE & _).
      destruct Hc as [-> | ->]; inversion HE; subst; eauto;
        match goal with K : change _ _ _ _ _ |- _ => inversion K end. }
    destruct (Hr _ _ _ _ _ (or_introl eq_refl) (ex_intro _ W I) E1') as [->|(x & ->)]; [injection E as <- <-; auto|].
    destruct (sf_call (KOpenFile d f) g) as [q2 g2] eqn:E2.
    destruct (quiet_call (KOpenFile d f) _ _ _ _ ltac:(intros []) Hf ltac:(intros []) Logic.I H1 E2) as (H2 & s3 & W3 & t3 & s4 & I3 & HL3 & E2').
    destruct (Hr _ _ _ _ _ (or_intror eq_refl) (ex_intro _ W3 I3) E2') as [->|(x2 & ->)]; injection E as <- <-; auto.
Qed.
Lemma sync_exact : exact_length web_dev R -> exact_length (sync_dev d f) sinv.
Proof.
  intros Hex s F n s' HS E. cbn [dv_length sync_dev] in E. unfold wbind, wret in E.
  destruct (sf_call (KLength d f) s) as [q g] eqn:Ec.
  destruct (quiet_call (KLength d f) _ _ _ _ ltac:(intros []) Hf ltac:(intros []) Logic.I HS Ec) as (HS' & s1 & W & t & s2 & I & HL & E1).
  destruct (call_length _ _ _ _ _ _ I HL E1) as [->|(m & h & h' & -> & HR & El)]; [discriminate|].
  cbn [as_num] in E. injection E as -> _. exact (Hex _ _ _ _ HR El).
Qed.

(** ** Where histories lead *)
Lemma link_nil s : R new_web_file empty_file -> open_chunks s d f = None -> fview s d f = [] -> link s empty_file.
Proof. intros HR H1 H2. exists []. split; [now left|]. now rewrite H2. Qed.
End Dev.

(** ** Histories after which a directory is not stale *)
(** [fst]: the directory [d] is open; [snd]: it was deleted while open. *)
Definition stale_step (d : bytes) (x : bool * bool) (e : event) : bool * bool :=
  match e with
  | Restart => (false, false)
  | Call (KOpenDir d') _ => (bytes_eqb d' d || fst x, snd x)
  | Call (KDeleteDir d') _ => (fst x, bytes_eqb d' d && fst x || snd x)
  | _ => x
  end.
Lemma stale_keeps d l : forall x, ~ In Restart l ->
  (fst x = true -> fst (fold_left (stale_step d) l x) = true) /\ (snd x = true -> snd (fold_left (stale_step d) l x) = true).
Proof.
  induction l as [|e l IH]; intros x H; [auto|]. cbn [fold_left]. destruct (IH (stale_step d x e)) as [H1 H2]; [intros X; apply H; now right|].
  destruct e as [c t|]; [|destruct H; now left].
  split; intros Hx; [apply H1|apply H2]; destruct c; cbn [stale_step fst snd]; rewrite ?Hx, ?Bool.orb_true_r; auto.
Qed.
Lemma not_staleb d l : snd (fold_left (stale_step d) l (false, false)) = false -> not_stale d l.
Proof.
  intros H a1 t1 a2 t2 a3 ->.
  assert (forall k : list event, In Restart k \/ ~ In Restart k) as Hdec.
  { intros k. induction k as [|e k [IH|IH]]; [right; intros []|left; now right|]. destruct e as [c t|]; [|left; now left].
    right. intros [X|X]; [discriminate|auto]. }
  destruct (Hdec a2) as [X|X2]; [now left|]. destruct (Hdec a3) as [X|X3]; [now right|]. exfalso.
  rewrite fold_left_app in H. cbn [fold_left] in H. rewrite fold_left_app in H. cbn [fold_left] in H.
  set (x1 := stale_step d _ (Call (KOpenDir d) t1)) in H.
  assert (fst x1 = true) as H1 by (unfold x1; cbn [stale_step fst]; now rewrite beq_refl).
  apply (proj1 (stale_keeps d a2 x1 X2)) in H1.
  assert (snd (stale_step d (fold_left (stale_step d) a2 x1) (Call (KDeleteDir d) t2)) = true) as H2.
  { cbn [stale_step snd]. now rewrite beq_refl, H1. }
  apply (proj2 (stale_keeps d a3 _ X3)) in H2. congruence.
Qed.
