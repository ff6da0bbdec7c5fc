(** The file system in the browser cache when open directories are deleted: proofs. *)
From Verif Require Import FileProofs WebSpec WebFsSim WebFsProofs Base BaseLemmas Header Node Store StoreSpec U64 File Chunk WebFile WebFs WebFsSpec WebFsStaleSpec WebSync WebSyncSpec WebSyncProofs.

(** [s] is a file system like [s1], in which the directories in [D] still have their names. *)
Record alike (D : bytes -> bool) (s s1 : fs) : Prop := {
  al_objs : fs_objs s1 = fs_objs s;
  al_dirs : fs_dirs s1 = fs_dirs s;
  al_up : fs_up s1 = fs_up s;
  al_gone : forall d, D d = true -> get d (fs_names s) = None /\ get d (fs_dirs s) <> None;
  al_names : forall d, D d = false -> get d (fs_names s) = get d (fs_names s1)
}.
Definition with_names (N : list (bytes * nat)) (s : fs) : fs := Fs (fs_objs s) N (fs_dirs s) (fs_up s).

Lemma on_file_names {A} d f (m : wm jfile A) k t s N :
  WebFs.on_file d f m k t (with_names N s) = let (r, s') := WebFs.on_file d f m k t s in (r, with_names N s').
Proof.
  unfold WebFs.on_file. cbn [with_names fs_dirs]. destruct (get d (fs_dirs s)) as [[o files]|]; [|reflexivity].
  destruct (get f files) as [cs|]; [|reflexivity]. change (jfile_of (with_names N s) o cs t) with (jfile_of s o cs t).
  destruct (m (jfile_of s o cs t)) as [r j]. reflexivity.
Qed.
Definition names_kept (c : cmd) : bool := match c with KOpenDir _ | KDeleteDir _ => false | _ => true end.
Lemma exec_names c t s N : names_kept c = true ->
  fs_exec c t (with_names N s) = let (r, s') := fs_exec c t s in (r, with_names N s').
Proof.
  intros H. destruct c as [d|d|d f|d f|d f|d f|d f o b|d f a e|d f|d f n|d f b|d f o|]; try discriminate H; cbn [fs_exec];
    try apply on_file_names; try reflexivity; cbn [with_names fs_dirs]; destruct (get d (fs_dirs s)) as [[o' files]|]; try reflexivity.
  - destruct (get f files) as [cs|]; [reflexivity|]. change (jfile_of (with_names N s) o' [] t) with (jfile_of s o' [] t).
    destruct (fst (j_find f (jfile_of s o' [] t))); reflexivity.
  - destruct (get f files) as [cs|]; reflexivity.
  - destruct t as [|[] t]; reflexivity.
Qed.
Lemma exec_keeps c t s r s' : names_kept c = true -> fs_exec c t s = (r, s') -> fs_names s' = fs_names s.
Proof.
  intros H E. pose proof (exec_names c t s (fs_names s) H) as X. destruct s as [a b c0 e]. cbn [with_names fs_objs fs_names fs_dirs fs_up] in X |- *.
  unfold with_names in X. cbn [fs_objs fs_names fs_dirs fs_up] in X. rewrite E in X. injection X as X. now rewrite X.
Qed.
Lemma call_keeps_dirs c t s r s' d : names_kept c = true -> fs_exec c t s = (r, s') -> get d (fs_dirs s) <> None -> get d (fs_dirs s') <> None.
Proof.
  assert (forall {A} d0 f (m : wm jfile A) k t s r s', WebFs.on_file d0 f m k t s = (r, s') -> get d (fs_dirs s) <> None -> get d (fs_dirs s') <> None) as Hof.
  { intros A d0 f m k t0 s0 r0 s0' E Hd. unfold WebFs.on_file in E. destruct (get d0 (fs_dirs s0)) as [[o files]|] eqn:G; [|injection E as _ <-; exact Hd].
    destruct (get f files) as [cs|]; [|injection E as _ <-; exact Hd]. destruct (m (jfile_of s0 o cs t0)) as [r1 j]. injection E as _ <-. cbn [fs_dirs].
    rewrite get_set. destruct (bytes_eqb _ _); [discriminate|exact Hd]. }
  intros H E Hd. destruct c as [d0|d0|d0 f|d0 f|d0 f|d0 f|d0 f o b|d0 f a e|d0 f|d0 f n|d0 f b|d0 f o|]; try discriminate H; cbn [fs_exec] in E;
    try (eapply Hof; eassumption); try (injection E as _ <-; exact Hd);
    destruct (get d0 (fs_dirs s)) as [[o' files]|] eqn:G; try (injection E as _ <-; exact Hd).
  - destruct (get f files) as [cs|]; [injection E as _ <-; exact Hd|].
    destruct (fst (j_find f (jfile_of s o' [] t))); injection E as _ <-; try exact Hd. cbn [fs_dirs].
    rewrite get_set. destruct (bytes_eqb _ _); [discriminate|exact Hd].
  - destruct (get f files) as [cs|]; injection E as _ <-; exact Hd.
  - destruct t as [|[] t]; cbn [fs_js] in E; injection E as _ <-; try exact Hd; cbn [fs_dirs];
    (rewrite get_set; destruct (bytes_eqb _ _); [discriminate|exact Hd]).
Qed.

Lemma call_alike D c t s s1 r s' : alike D s s1 -> fs_call c t s = (r, s') -> (forall d, c = KDeleteDir d -> get d (fs_dirs s) = None) ->
  exists s1', fs_call c t s1 = (r, s1') /\ alike D s' s1'.
Proof.
  intros [A1 A2 A3 A4 A5] E Hc. unfold fs_call in *. rewrite A3. destruct (fs_up s) eqn:Hup.
  2:{ injection E as <- <-. exists s1. split; [reflexivity|]. constructor; congruence || assumption. }
  destruct (names_kept c) eqn:Hk.
  - assert (s1 = with_names (fs_names s1) s) as ->.
    { destruct s1 as [a b e u]. cbn in A1, A2, A3 |- *. unfold with_names. subst. now rewrite Hup. }
    cbn [with_names fs_names] in A5 |- *. rewrite exec_names by exact Hk. destruct (fs_exec c t s) as [r0 s0] eqn:Ex. injection E as <- <-.
    pose proof (exec_keeps _ _ _ _ _ Hk Ex) as Hn. eexists. split; [reflexivity|].
    assert (alike D s0 (with_names (fs_names s1) s0)) as X.
    { constructor; try reflexivity.
      - intros d Hd. destruct (A4 d Hd) as [X Y]. rewrite Hn. split; [exact X|]. exact (call_keeps_dirs _ _ _ _ _ _ Hk Ex Y).
      - intros d Hd. rewrite Hn. exact (A5 d Hd). }
    destruct r0; try exact X. destruct X as [B1 B2 B3 B4 B5]. constructor; assumption || reflexivity.
  - destruct c as [d|d|d f|d f|d f|d f|d f o b|d f a e|d f|d f n|d f b|d f o|]; try discriminate Hk; cbn [fs_exec] in *.
    + rewrite A2. destruct (get d (fs_dirs s)) as [v|] eqn:G.
      { injection E as <- <-. eexists. split; [reflexivity|]. constructor; congruence || assumption. }
      assert (D d = false) as Dd by (destruct (D d) eqn:X; [destruct (A4 d X); congruence|reflexivity]).
      rewrite <- (A5 d Dd), A1. destruct t as [|[] t]; cbn [fs_js] in *.
      2:{ injection E as <- <-. eexists. split; [reflexivity|]. constructor; congruence || assumption. }
      all: destruct (get d (fs_names s)) as [o|] eqn:Gn; injection E as <- <-; eexists; (split; [reflexivity|]);
        (constructor; cbn [fs_objs fs_dirs fs_names fs_up]; [congruence|congruence|congruence| |]).
      2,4,6,8: intros d' Hd'; rewrite ?get_set; try (destruct (bytes_eqb _ _); [reflexivity|]); exact (A5 d' Hd').
      all: intros d' Hd'; destruct (A4 d' Hd') as [X Y]; split; [|rewrite get_set; destruct (bytes_eqb _ _); [discriminate|exact Y]].
      all: rewrite ?get_set; destruct (beq_dec d d') as [->|Hne]; [congruence|]; rewrite ?beq_neq by congruence; exact X.
    + specialize (Hc d eq_refl). assert (D d = false) as Dd by (destruct (D d) eqn:X; [destruct (A4 d X); congruence|reflexivity]).
      rewrite <- (A5 d Dd), A1, A2. destruct t as [|[] t]; cbn [fs_js] in *; injection E as <- <-; eexists; (split; [reflexivity|]);
        (constructor; cbn [fs_objs fs_dirs fs_names fs_up]; [congruence|congruence|congruence| |]); try assumption.
      1,3: intros d' Hd'; destruct (A4 d' Hd') as [X Y]; (split; [|exact Y]); rewrite get_del; destruct (bytes_eqb _ _); [reflexivity|exact X].
      all: intros d' Hd'; rewrite !get_del; destruct (bytes_eqb _ _); [reflexivity|auto].
Qed.

(** At a restart the names of deleted directories go. *)
Lemma clear_names l : forall s W, Inv s W -> fs_up s = true -> fs_dirs s = [] ->
  exists s' W', Inv s' W' /\ fs_objs s' = fs_objs s /\ fs_dirs s' = [] /\ fs_up s' = true /\
    (forall d, get d (fs_names s') = if existsb (bytes_eqb d) l then None else get d (fs_names s)) /\
    (forall d f, contents W' d f = if existsb (bytes_eqb d) l then empty_file else contents W d f) /\
    (forall d f, touched W' d f = if existsb (bytes_eqb d) l then false else touched W d f) /\
    changes W' = changes W.
Proof.
  induction l as [|d l IH]; intros s W I Hup Hd.
  { exists s, W. split; [exact I|]. split; [reflexivity|]. split; [exact Hd|]. split; [exact Hup|]. auto. }
  destruct (fs_call (KDeleteDir d) [] s) as [r s1] eqn:E.
  destruct (call_effect s W (KDeleteDir d) [] r s1 I Logic.I) as (W1 & HE & I1); [intros d' _; now rewrite Hd|exact E|].
  unfold fs_call in E. rewrite Hup in E. cbn [fs_exec fs_js] in E. injection E as <- <-.
  destruct (IH _ W1 I1 Hup Hd) as (s' & W' & I' & J1 & J2 & J3 & J4 & J5 & J6 & J7).
  assert (contents W1 = upd1 (contents W) d (fun _ => empty_file) /\ touched W1 = upd1 (touched W) d (fun _ => false) /\ changes W1 = changes W)
    as (C1 & C2 & C3).
  { inversion HE; subst; try (match goal with H : change (KDeleteDir _) _ _ _ _ |- _ => inversion H end); auto. }
  exists s', W'. split; [exact I'|]. split; [exact J1|]. split; [exact J2|]. split; [exact J3|].
  cbn [existsb]. split; [|split; [|split; [|congruence]]].
  - intros d'. rewrite J4. cbn [fs_names]. rewrite get_del, (beq_sym d d'). destruct (bytes_eqb d' d), (existsb (bytes_eqb d') l); reflexivity.
  - intros d' f. rewrite J5, C1. unfold upd1. rewrite (beq_sym d d'). destruct (bytes_eqb d' d), (existsb (bytes_eqb d') l); reflexivity.
  - intros d' f. rewrite J6, C2. unfold upd1. rewrite (beq_sym d d'). destruct (bytes_eqb d' d), (existsb (bytes_eqb d') l); reflexivity.
Qed.

Definition Inv_any (s : fs) (WD : world * (bytes -> bool)) : Prop :=
  exists s1 l, Inv s1 (fst WD) /\ alike (snd WD) s s1 /\ forall d, snd WD d = existsb (bytes_eqb d) l.
Lemma event_any e s WD r s' : Inv_any s WD -> event_ok e -> fs_run [e] s = ([r], s') ->
  exists WD', fs_effect_any e r WD WD' /\ Inv_any s' WD'.
Proof.
  destruct WD as [W D]. intros (s1 & l & I & A & HD) Hok E. cbn [fst snd] in *. destruct e as [c t|]; cbn [fs_run] in E.
  - destruct (fs_call c t s) as [r0 s0] eqn:Ec. injection E as -> ->.
    assert ((exists d, c = KDeleteDir d /\ get d (fs_dirs s) <> None) \/ forall d, c = KDeleteDir d -> get d (fs_dirs s) = None) as [(d & -> & Hd)|Hc].
    { destruct c as [d|d|d f|d f|d f|d f|d f o b|d f a e|d f|d f n|d f b|d f o|]; try (right; discriminate).
      destruct (get d (fs_dirs s)) eqn:G; [left; exists d; split; [reflexivity|congruence]|right; intros d' Ed; injection Ed as <-; exact G]. }
    + assert (dir_open W d = true) as Ho.
      { rewrite (i_dir _ _ I), (al_dirs _ _ _ A). destruct (get d (fs_dirs s)); [reflexivity|congruence]. }
      unfold fs_call in Ec. destruct (fs_up s) eqn:Hup.
      2:{ injection Ec as <- <-. exists (W, D). split; [now apply A_delete_failed|]. now exists s1, l. }
      cbn [fs_exec] in Ec.
      assert ((r = Err /\ s' = s) \/ (r = Ok (RBool match get d (fs_names s) with Some _ => true | None => false end) /\
        s' = Fs (fs_objs s) (del d (fs_names s)) (fs_dirs s) (fs_up s))) as [[-> ->]|[-> ->]].
      { destruct t as [|[] t]; cbn [fs_js] in Ec; injection Ec as <- <-; auto. }
      { exists (W, D). split; [now apply A_delete_failed|]. now exists s1, l. }
      exists (W, upd1 D d true). split.
      * assert (match get d (fs_names s) with Some _ => true | None => false end = negb (D d)) as ->; [|now apply A_delete_open].
        destruct (D d) eqn:Dd; [destruct (al_gone _ _ _ A d Dd) as [-> _]; reflexivity|].
        rewrite (al_names _ _ _ A d Dd). rewrite <- (al_dirs _ _ _ A) in Hd. destruct (get d (fs_dirs s1)) as [[o fl]|] eqn:G; [|congruence].
        now rewrite (i_dirs _ _ I _ _ _ G).
      * exists s1, (d :: l). split; [exact I|]. split.
        { destruct A as [A1 A2 A3 A4 A5]. cbn [snd]. constructor; cbn [fs_objs fs_dirs fs_names fs_up]; auto.
          - intros d' Hd'. rewrite get_del. unfold upd1 in Hd'. destruct (beq_dec d d') as [->|Hne].
            + rewrite beq_refl. auto.
            + rewrite beq_neq in Hd' |- * by exact Hne. exact (A4 d' Hd').
          - intros d' Hd'. rewrite get_del. unfold upd1 in Hd'. destruct (bytes_eqb d d'); [discriminate|]. exact (A5 d' Hd'). }
        intros d'. cbn [snd existsb]. unfold upd1. rewrite (beq_sym d d'), HD. now destruct (bytes_eqb d' d).
    + destruct (call_alike D c t s s1 r s' A Ec Hc) as (s1' & E1 & A').
      destruct (call_effect s1 W c t r s1' I Hok) as (W' & HE & I'); [intros d Hd; rewrite (al_dirs _ _ _ A); now apply Hc|exact E1|].
      exists (W', D). split; [|now exists s1', l]. apply A_call; [|exact HE].
      intros d Hd. rewrite (i_dir _ _ I), (al_dirs _ _ _ A), (Hc d Hd). reflexivity.
  - injection E as <- <-. destruct (clear_names l (fs_restart s1) _ (inv_restart _ _ I) eq_refl eq_refl)
      as (s2 & W' & I' & J1 & J2 & J3 & J4 & J5 & J6 & J7).
    exists (W', fun _ => false). split.
    + apply A_restart.
      * intros d f. rewrite J5, HD. reflexivity.
      * intros d f. rewrite J6, HD. reflexivity.
      * intros d. now rewrite (i_dir _ _ I'), J2.
      * intros d f. rewrite (i_file _ _ I'). unfold open_chunks. now rewrite J2.
      * now rewrite (i_run _ _ I').
      * exact J7.
    + exists s2, []. split; [exact I'|]. split; [|reflexivity]. cbn [snd]. cbn [fs_restart fs_objs] in J1. destruct A as [A1 A2 A3 A4 A5].
      constructor; cbn [fs_restart fs_objs fs_dirs fs_names fs_up]; auto; [congruence|discriminate|].
      intros d _. rewrite J4. cbn [fs_restart fs_names]. destruct (D d) eqn:Dd; rewrite <- HD, Dd; [now apply A4|now apply A5].
Qed.
Lemma any_effects l : forall s WD rs s', Inv_any s WD -> Forall event_ok l -> fs_run l s = (rs, s') ->
  exists WD', fs_effects_any l rs WD WD' /\ Inv_any s' WD'.
Proof.
  induction l as [|e l IH]; intros s WD rs s' I Hok E.
  { injection E as <- <-. exists WD. split; [constructor|exact I]. }
  inversion Hok as [|? ? He Hl]; subst.
  assert (exists r s1 rs1, fs_run [e] s = ([r], s1) /\ fs_run l s1 = (rs1, s') /\ rs = r :: rs1) as (r & s1 & rs1 & E1 & E2 & ->).
  { destruct e as [c t|]; cbn [fs_run] in E |- *.
    - destruct (fs_call c t s) as [r s1]. destruct (fs_run l s1) as [rs1 s2] eqn:Er. injection E as <- <-. eexists _, _, _. eauto.
    - destruct (fs_run l (fs_restart s)) as [rs1 s2] eqn:Er. injection E as <- <-. eexists _, _, _. eauto. }
  destruct (event_any e s WD r s1 I He E1) as (WD1 & HE & I1). destruct (IH s1 WD1 rs1 s' I1 Hl E2) as (WD2 & HE2 & I2).
  exists WD2. split; [econstructor; eassumption|exact I2].
Qed.
Lemma any_new : Inv_any new_fs (new_world, fun _ => false).
Proof. exists new_fs, []. split; [exact inv_new|]. split; [|reflexivity]. constructor; try reflexivity. discriminate. Qed.
Theorem fs_any_histories l rs s : Forall event_ok l -> fs_run l new_fs = (rs, s) ->
  exists WD, fs_effects_any l rs (new_world, fun _ => false) WD.
Proof. intros Hok E. destruct (any_effects l _ _ rs s any_new Hok E) as (WD & H & _). eauto. Qed.

(** ** Reading what was written *)
Lemma any_app l1 : forall l2 rs W W', fs_effects_any (l1 ++ l2) rs W W' ->
  exists rs1 rs2 W1, rs = rs1 ++ rs2 /\ length rs1 = length l1 /\ fs_effects_any l1 rs1 W W1 /\ fs_effects_any l2 rs2 W1 W'.
Proof.
  induction l1 as [|e l1 IH]; intros l2 rs W W' H.
  { exists [], rs, W. repeat split; [constructor|exact H]. }
  inversion H as [|? ? r rs' ? W1 ? HE HR]; subst. apply IH in HR as (rs1 & rs2 & W2 & -> & HL & H1 & H2).
  exists (r :: rs1), rs2, W2. repeat split; [cbn; now rewrite HL|econstructor; eassumption|exact H2].
Qed.
Lemma effect_opens e r W W' d : fs_effect e r W W' -> dir_open W' d = true -> dir_open W d = true \/ exists t, e = Call (KOpenDir d) t.
Proof.
  intros HE Hd; destruct HE; cbn [dir_open with_contents] in Hd; auto; try discriminate Hd.
  unfold upd1 in Hd. destruct (beq_dec d0 d) as [->|Hn]; [eauto|]. rewrite beq_neq in Hd by exact Hn. auto.
Qed.
Lemma not_doomed d l : forall a rs WD WD', deleted_closed d (a ++ l) -> fs_effects_any l rs WD WD' ->
  (dir_open (fst WD) d = true -> opened a d) -> snd WD d = false -> snd WD' d = false.
Proof.
  induction l as [|e l IH]; intros a rs WD WD' Hdc H Ho HD; inversion H as [|? ? r rs' ? WD1 ? HE HR]; subst; [exact HD|].
  assert (a ++ e :: l = (a ++ [e]) ++ l) as Ea by (now rewrite <- app_assoc).
  apply (IH (a ++ [e]) rs' WD1 WD'); [now rewrite <- Ea|exact HR| |].
  - inversion HE as [W D c t r0 W' Hc HW|W D d0 t Hd|W D d0 t Hd|W D W' H1 H2 H3 H4 H5 H6]; subst; cbn [fst snd] in *; intros Hd1.
    + destruct (effect_opens _ _ _ _ _ HW Hd1) as [Hd2|(t' & Et)]; [now apply opened_snoc, Ho|].
      exists a, t', []. split; [now rewrite Et|intros []].
    + now apply opened_snoc, Ho.
    + now apply opened_snoc, Ho.
    + rewrite H3 in Hd1. discriminate.
  - inversion HE as [W D c t r0 W' Hc HW|W D d0 t Hd|W D d0 t Hd|W D W' H1 H2 H3 H4 H5 H6]; subst; cbn [fst snd] in *; auto.
    unfold upd1. destruct (beq_dec d0 d) as [->|Hn]; [|now rewrite beq_neq]. exfalso.
    destruct (Ho Hd) as (a1 & t1 & a2 & Ha & Hn). apply Hn. exact (Hdc a l t eq_refl a1 a2 t1 Ha).
Qed.
Lemma closed_front d l1 l2 : deleted_closed d (l1 ++ l2) -> deleted_closed d l1.
Proof. intros H a b t -> a1 a2 t'. apply (H a (b ++ l2) t). now rewrite <- app_assoc. Qed.
Lemma unconcerned_any d f l2 : forall l1 rs WD WD', deleted_closed d (l1 ++ l2) -> fs_effects_any l2 rs WD WD' ->
  (dir_open (fst WD) d = true -> opened l1 d) -> snd WD d = false ->
  Forall (fun e => ~ concerns d f e) l2 -> contents (fst WD') d f = contents (fst WD) d f.
Proof.
  intros l1 rs WD WD' Hdc H. revert l1 Hdc. induction H as [WD|e l r rs WD WD1 WD2 HE HR IH]; intros l1 Hdc Ho HD Hc; [reflexivity|].
  inversion Hc as [|? ? Hc1 Hc2]; subst.
  assert (l1 ++ e :: l = (l1 ++ [e]) ++ l) as Ea by (now rewrite <- app_assoc).
  assert (fs_effects_any [e] [r] WD WD1) as H1 by (econstructor; [exact HE|constructor]).
  assert (snd WD1 d = false) as HD1.
  { apply (not_doomed d [e] l1 [r] WD WD1); auto. rewrite Ea in Hdc. exact (closed_front _ _ _ Hdc). }
  rewrite (IH (l1 ++ [e])); [|now rewrite <- Ea| |exact HD1|exact Hc2].
  - inversion HE as [W D c t r0 W' Hx HW|W D d0 t Hd|W D d0 t Hd|W D W' J1 J2 J3 J4 J5 J6]; subst; cbn [fst snd] in *; auto.
    + eapply unconcerned; eassumption.
    + rewrite J1, HD. reflexivity.
  - inversion HE as [W D c t r0 W' Hx HW|W D d0 t Hd|W D d0 t Hd|W D W' J1 J2 J3 J4 J5 J6]; subst; cbn [fst snd] in *; intros Hd1.
    + destruct (effect_opens _ _ _ _ _ HW Hd1) as [Hd2|(t' & Et)]; [now apply opened_snoc, Ho|].
      exists l1, t', []. split; [now rewrite Et|intros []].
    + now apply opened_snoc, Ho.
    + now apply opened_snoc, Ho.
    + rewrite J3 in Hd1. discriminate.
Qed.
Lemma opens_any d l : forall a rs WD WD', fs_effects_any l rs WD WD' -> (dir_open (fst WD) d = true -> opened a d) ->
  dir_open (fst WD') d = true -> opened (a ++ l) d.
Proof.
  induction l as [|e l IH]; intros a rs WD WD' H Ho; inversion H as [|? ? r rs' ? WD1 ? HE HR]; subst; [now rewrite app_nil_r|].
  replace (a ++ e :: l) with ((a ++ [e]) ++ l) by now rewrite <- app_assoc.
  apply (IH (a ++ [e]) rs' WD1 WD' HR).
  inversion HE as [W D c t r0 W' Hx HW|W D d0 t Hd|W D d0 t Hd|W D W' J1 J2 J3 J4 J5 J6]; subst; cbn [fst snd] in *; intros Hd1.
  - destruct (effect_opens _ _ _ _ _ HW Hd1) as [Hd2|(t' & Et)]; [now apply opened_snoc, Ho|].
    exists a, t', []. split; [now rewrite Et|intros []].
  - now apply opened_snoc, Ho.
  - now apply opened_snoc, Ho.
  - rewrite J3 in Hd1. discriminate.
Qed.
Theorem fs_any_read_your_writes a d f o b t mid t' z rs s :
  let l := a ++ Call (KWrite d f o b) t :: mid ++ Call (KRead d f o (o + N.of_nat (length b))) t' :: z in
  Forall event_ok l -> deleted_closed d l -> Forall (fun e => ~ concerns d f e) mid ->
  fs_run l new_fs = (rs, s) -> nth (length a) rs Err = Ok RUnit ->
  let r := nth (length a + 1 + length mid) rs Err in r = Err \/ r = Ok (RBytes b).
Proof.
  intros l Hok Hdc Hmid E. cbv zeta. destruct (fs_any_histories l rs s Hok E) as (W & HE). unfold l in HE.
  apply any_app in HE as (rs1 & rs2 & W1 & -> & L1 & HA & HE).
  inversion HE as [|? ? r rs3 ? W2 ? HW HE2]; subst. apply any_app in HE2 as (rs4 & rs5 & W3 & -> & L4 & HM & HE2).
  inversion HE2 as [|? ? r' rs6 ? W4 ? HR HE3]; subst.
  rewrite app_nth2, L1, Nat.sub_diag by lia. cbn [nth]. intros ->.
  rewrite app_nth2 by lia. replace (length a + 1 + length mid - length rs1)%nat with (S (length mid)) by lia.
  cbn [nth]. rewrite app_nth2, L4, Nat.sub_diag by lia. cbn [nth].
  assert (dir_open (fst W1) d = true -> opened a d) as Ho1 by (apply (opens_any d a [] rs1 _ _ HA); discriminate).
  assert (snd W1 d = false) as HD1.
  { apply (not_doomed d a [] rs1 _ _) with (2 := HA); [|discriminate|reflexivity]. cbn [app]. unfold l in Hdc. exact (closed_front _ _ _ Hdc). }
  assert (fs_effects_any [Call (KWrite d f o b) t] [Ok RUnit] W1 W2) as HW1 by (econstructor; [exact HW|constructor]).
  assert (l = ((a ++ [Call (KWrite d f o b) t]) ++ mid) ++ Call (KRead d f o (o + N.of_nat (length b))) t' :: z) as El
    by (unfold l; now rewrite <- !app_assoc).
  rewrite El in Hdc. pose proof (closed_front _ _ _ Hdc) as Hdc1. pose proof (closed_front _ _ _ Hdc1) as Hdc2.
  assert (snd W2 d = false) as HD2 by exact (not_doomed d _ a _ _ _ Hdc2 HW1 Ho1 HD1).
  pose proof (unconcerned_any d f mid _ _ _ _ Hdc1 HM (opens_any d _ a _ _ _ HW1 Ho1) HD2 Hmid) as HC.
  assert (contents (fst W2) d f = f_write (contents (fst W1) d f) o b) as HC2.
  { inversion HW as [Wa D c t0 r0 Wb Hx HW'| | |]; subst. cbn [fst].
    inversion HW' as [| | | | | | | | | | | | |? ? d0 f0 ? k w q F' Hch Hfo Hef Hq Hc Hr| | | | | | | | |]; subst.
    inversion Hch; subst. cbn [with_contents contents]. rewrite upd2_eq.
    inversion Hef; subst; [reflexivity|discriminate|]. congruence. }
  rewrite HC2 in HC.
  inversion HR as [Wa D c t0 r0 Wb Hx HW'| | |]; subst. cbn [fst] in HC. inversion HW'; subst; auto.
  - match goal with H : change (KRead _ _ _ _) _ _ _ _ |- _ => inversion H end.
  - right. rewrite HC. replace (o + N.of_nat (length b) - o)%N with (N.of_nat (length b)) by lia.
    rewrite Nnat.Nat2N.id, f_read_write_same. reflexivity.
  - match goal with H : change (KRead _ _ _ _) _ _ _ _ |- _ => inversion H end.
Qed.

Theorem sync_any_effects tr n : net_run (net_start new_fs) tr n -> (forall ts, Forall event_ok (calls (invoked tr) ts)) ->
  exists ts rs WD, length ts = length (invoked tr) /\ fs_effects_any (calls (invoked tr) ts) rs (new_world, fun _ => false) WD /\
  forall k r c, In (Return k r) tr -> nth_error (invoked tr) k = Some c -> c <> KShutdown ->
  exists r', nth_error rs k = Some r' /\ seen_as r r'.
Proof.
  intros H Hok. destruct (sync_linear new_fs tr n H) as (ts & HL & HR). specialize (Hok ts).
  destruct (fs_run (calls (invoked tr) ts) new_fs) as [rs s] eqn:E.
  destruct (fs_any_histories _ _ _ Hok E) as (WD & HW). exists ts, rs, WD. auto.
Qed.
