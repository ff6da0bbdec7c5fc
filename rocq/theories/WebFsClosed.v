(** Whatever a history of the browser file system deletes, after the next restart the
    file system is as after a history that deletes only closed directories: proofs. *)
From Verif Require Import FileProofs WebSpec WebFsSim WebFsProofs Base BaseLemmas Header Node Store StoreSpec U64 File Chunk WebFile WebFs WebFsSpec WebFsStaleSpec WebSync WebSyncSpec WebSyncProofs WebFsStale.

(** The names that are not in [D]. *)
Definition without (D : list bytes) (m : list (bytes * nat)) : list (bytes * nat) :=
  filter (fun e => negb (existsb (bytes_eqb (fst e)) D)) m.
Lemma filter_swap {A} p q (m : list A) : filter p (filter q m) = filter q (filter p m).
Proof.
  induction m as [|a m IH]; [reflexivity|]. cbn [filter]. destruct (p a) eqn:P, (q a) eqn:Q; cbn [filter]; rewrite ?P, ?Q, IH; reflexivity.
Qed.
Lemma del_without d D m : del d (without D m) = without D (del d m).
Proof. apply filter_swap. Qed.
Lemma without_cons d D m : without (d :: D) m = del d (without D m).
Proof.
  unfold without, del. induction m as [|e m IH]; [reflexivity|]. cbn [existsb] in IH. cbn [filter existsb].
  rewrite (beq_sym (fst e) d). destruct (bytes_eqb d (fst e)) eqn:B; destruct (existsb (bytes_eqb (fst e)) D) eqn:X; cbn [orb negb filter];
    rewrite ?B; cbn [negb]; rewrite IH; reflexivity.
Qed.
Lemma without_nil m : without [] m = m.
Proof. induction m as [|e m IH]; [reflexivity|]. cbn. f_equal. exact IH. Qed.
Lemma set_without d o D m : existsb (bytes_eqb d) D = false -> set d o (without D m) = without D (set d o m).
Proof. intros H. unfold set, without at 2. cbn [filter fst]. rewrite H. cbn [negb]. now rewrite del_without. Qed.
Lemma get_without d D m : existsb (bytes_eqb d) D = false -> get d (without D m) = get d m.
Proof.
  intros H. induction m as [|[k o] m IH]; [reflexivity|]. cbn [without filter fst get]. destruct (beq_dec d k) as [->|Hne].
  - rewrite H. cbn [negb get]. now rewrite beq_refl.
  - rewrite (beq_neq d k) by exact Hne. destruct (existsb (bytes_eqb k) D); cbn [negb get]; [|rewrite beq_neq by exact Hne]; exact IH.
Qed.

Lemma call_no_new_dirs c t s r s' d : names_kept c = true -> fs_exec c t s = (r, s') -> get d (fs_dirs s') <> None -> get d (fs_dirs s) <> None.
Proof.
  assert (forall d0 o' files (x : nat * list (bytes * list chunk)), get d0 (fs_dirs s) = Some (o', files) ->
    get d (set d0 x (fs_dirs s)) <> None -> get d (fs_dirs s) <> None) as Hset.
  { intros d0 o' files x G H. destruct (beq_dec d0 d) as [->|Hne]; [congruence|]. rewrite get_set_ne in H by congruence. exact H. }
  assert (forall {A} d0 f (m : wm jfile A) k t r s', WebFs.on_file d0 f m k t s = (r, s') -> get d (fs_dirs s') <> None -> get d (fs_dirs s) <> None) as Hof.
  { intros A d0 f m k t0 r0 s0' E Hd. unfold WebFs.on_file in E. destruct (get d0 (fs_dirs s)) as [[o files]|] eqn:G; [|injection E as _ <-; exact Hd].
    destruct (get f files) as [cs|]; [|injection E as _ <-; exact Hd]. destruct (m (jfile_of s o cs t0)) as [r1 j]. injection E as _ <-. cbn [fs_dirs] in Hd.
    eapply Hset; eassumption. }
  intros H E Hd. destruct c as [d0|d0|d0 f|d0 f|d0 f|d0 f|d0 f o b|d0 f a e|d0 f|d0 f n|d0 f b|d0 f o|]; try discriminate H; cbn [fs_exec] in E;
    try (eapply Hof; eassumption); try (injection E as _ <-; exact Hd);
    destruct (get d0 (fs_dirs s)) as [[o' files]|] eqn:G; try (injection E as _ <-; exact Hd).
  - destruct (get f files) as [cs|]; [injection E as _ <-; exact Hd|].
    destruct (fst (j_find f (jfile_of s o' [] t))); injection E as _ <-; try exact Hd. cbn [fs_dirs] in Hd. eapply Hset; eassumption.
  - destruct (get f files) as [cs|]; injection E as _ <-; exact Hd.
  - destruct t as [|[] t]; cbn [fs_js] in E; injection E as _ <-; try exact Hd; cbn [fs_dirs] in Hd; eapply Hset; eassumption.
Qed.

Lemma has_restart (l : list event) : {In Restart l} + {~ In Restart l}.
Proof.
  induction l as [|e l [IH|IH]]; [now right|left; now right|]. destruct e as [c t|]; [|left; now left].
  right. intros [H|H]; [discriminate|auto].
Qed.
Lemma snoc_cases {A} (a : list A) e b x c : a ++ [e] = b ++ x :: c -> (c = [] /\ a = b /\ e = x) \/ exists c', c = c' ++ [e] /\ a = b ++ x :: c'.
Proof.
  intros E. destruct (exists_last (l := x :: c)) as (k & y & Ek); [discriminate|]. rewrite Ek, app_assoc in E. apply app_inj_tail in E as [E1 ->].
  destruct k as [|x' k].
  - injection Ek as -> ->. left. rewrite app_nil_r in E1. auto.
  - injection Ek as -> ->. right. exists k. auto.
Qed.
Lemma opened_snoc_inv a c t d : opened (a ++ [Call c t]) d -> c = KOpenDir d \/ opened a d.
Proof.
  intros (a1 & t1 & a2 & E & H). apply snoc_cases in E as [(-> & -> & E)|(c' & -> & ->)].
  - left. congruence.
  - right. exists a1, t1, c'. split; [reflexivity|]. intros X. apply H, in_or_app. now left.
Qed.
Lemma closed_snoc h e : deletes_closed h -> (forall d t, e = Call (KDeleteDir d) t -> ~ opened h d) -> deletes_closed (h ++ [e]).
Proof.
  intros Hdc He a b d t E a1 a2 t' Ea. apply snoc_cases in E as [(-> & -> & ->)|(c' & -> & Eh)].
  - destruct (has_restart a2) as [X|X]; [exact X|].
    destruct (He d t eq_refl). exists a1, t', a2. auto.
  - exact (Hdc _ _ _ _ Eh _ _ _ Ea).
Qed.
Lemma closed_deletes D : forall h, deletes_closed h -> (forall d, ~ opened h d) ->
  deletes_closed (h ++ map (fun d => Call (KDeleteDir d) []) D) /\ forall d, ~ opened (h ++ map (fun d => Call (KDeleteDir d) []) D) d.
Proof.
  induction D as [|d D IH]; intros h Hdc Ho; cbn [map]; [rewrite app_nil_r; auto|].
  change (Call (KDeleteDir d) [] :: map (fun d => Call (KDeleteDir d) []) D) with ([Call (KDeleteDir d) []] ++ map (fun d => Call (KDeleteDir d) []) D).
  rewrite app_assoc. apply IH.
  - apply closed_snoc; [exact Hdc|]. intros; apply Ho.
  - intros d' H. apply opened_snoc_inv in H as [H|H]; [discriminate|exact (Ho d' H)].
Qed.
Lemma run_deletes D : forall s, fs_up s = true ->
  snd (fs_run (map (fun d => Call (KDeleteDir d) []) D) s) = Fs (fs_objs s) (without D (fs_names s)) (fs_dirs s) true.
Proof.
  induction D as [|d D IH]; intros s Hup.
  - cbn [map fs_run snd]. rewrite without_nil. destruct s as [a b c u]. cbn in *. now subst.
  - cbn [map fs_run]. unfold fs_call. rewrite Hup. cbn [fs_exec fs_js].
    match goal with |- context [fs_run _ ?x] => specialize (IH x Hup); destruct (fs_run (map (fun d => Call (KDeleteDir d) []) D) x) as [rs s'] end.
    cbn [snd fs_objs fs_names fs_dirs] in *. rewrite IH, without_cons, del_without. reflexivity.
Qed.
Lemma run_cat l1 : forall l2 s, fs_run (l1 ++ l2) s =
  (fst (fs_run l1 s) ++ fst (fs_run l2 (snd (fs_run l1 s))), snd (fs_run l2 (snd (fs_run l1 s)))).
Proof.
  induction l1 as [|e l1 IH]; intros l2 s; [cbn; now destruct (fs_run l2 s)|]. destruct e as [c t|]; cbn [app fs_run].
  - destruct (fs_call c t s) as [r s0]. rewrite IH. now destruct (fs_run l1 s0).
  - rewrite IH. now destruct (fs_run l1 (fs_restart s)).
Qed.

(** [h'] deletes only closed directories and leads to [s1]; [s] is [s1] without the
    names in [D], which are open. *)
Record closed_to (n : nat) (h' : list event) (D : list bytes) (s s1 : fs) : Prop := {
  ct_ok : Forall event_ok h';
  ct_closed : deletes_closed h';
  ct_run : snd (fs_run h' new_fs) = s1;
  ct_length : length h' + length D <= n;
  ct_opened : forall d, opened h' d <-> get d (fs_dirs s1) <> None;
  ct_dirs : Forall (fun d => get d (fs_dirs s1) <> None) D;
  ct_state : s = with_names (without D (fs_names s1)) s1
}.
Lemma closed_more n h' D s s1 : closed_to n h' D s s1 -> closed_to (S n) h' D s s1.
Proof. intros []. constructor; auto. Qed.
Lemma open_not_in D s1 d : Forall (fun d => get d (fs_dirs s1) <> None) D -> get d (fs_dirs s1) = None -> existsb (bytes_eqb d) D = false.
Proof.
  intros H G. induction H as [|d' D Hd HD IH]; [reflexivity|]. cbn [existsb]. rewrite IH.
  destruct (beq_dec d d') as [->|Hne]; [congruence|]. now rewrite beq_neq by exact Hne.
Qed.
Lemma closed_event n h' D s s1 e : closed_to n h' D s s1 -> event_ok e ->
  exists h2 D2 s2, closed_to (S n) h2 D2 (snd (fs_run [e] s)) s2.
Proof.
  intros C Hok. pose proof C as [K1 K2 K3 K4 K5 K6 K7]. destruct e as [c t|]; cbn [fs_run].
  2:{ cbn [snd]. set (dl := map (fun d => Call (KDeleteDir d) []) D).
      assert (forall d, ~ opened (h' ++ [Restart]) d) as Hno.
      { intros d (a1 & t1 & a2 & E & H). apply snoc_cases in E as [(_ & _ & E)|(c' & -> & _)]; [discriminate|].
        apply H, in_or_app. right. now left. }
      destruct (closed_deletes D (h' ++ [Restart])) as [X Y]; [|exact Hno|].
      { apply closed_snoc; [exact K2|discriminate]. }
      exists ((h' ++ [Restart]) ++ dl), [], (fs_restart s). constructor.
      - apply Forall_app. split; [apply Forall_app; split; [exact K1|repeat constructor]|].
        apply Forall_forall. intros e He. apply in_map_iff in He as (d & <- & _). exact Logic.I.
      - exact X.
      - rewrite run_cat. cbn [snd]. rewrite run_cat. cbn [snd fs_run]. rewrite K3. unfold dl. rewrite run_deletes by reflexivity.
        rewrite K7. reflexivity.
      - rewrite !app_length. unfold dl. rewrite map_length. cbn [length]. lia.
      - intros d. split; [intros H; now destruct (Y d)|]. intros H. now destruct H.
      - constructor.
      - rewrite without_nil. reflexivity. }
  destruct (fs_call c t s) as [r s'] eqn:E. cbn [snd]. unfold fs_call in E.
  assert (fs_up s = fs_up s1) as Hup by (rewrite K7; reflexivity). rewrite Hup in E. destruct (fs_up s1) eqn:U.
  2:{ injection E as <- <-. exists h', D, s1. now apply closed_more. }
  destruct (names_kept c) eqn:Hk.
  - rewrite K7, exec_names in E by exact Hk. destruct (fs_exec c t s1) as [r0 s0] eqn:Ex. injection E as <- <-.
    pose proof (exec_keeps _ _ _ _ _ Hk Ex) as Hn.
    set (s2 := match r0 with Panic => Fs (fs_objs s0) (fs_names s0) (fs_dirs s0) false | _ => s0 end).
    assert (fs_dirs s2 = fs_dirs s0 /\ fs_names s2 = fs_names s1) as [Hd2 Hn2] by (unfold s2; destruct r0; auto).
    exists (h' ++ [Call c t]), D, s2. constructor.
    + apply Forall_app. split; [exact K1|]. constructor; [exact Hok|constructor].
    + apply closed_snoc; [exact K2|]. intros d t0 E. injection E as -> ->. discriminate Hk.
    + rewrite run_cat. cbn [snd fs_run]. rewrite K3. unfold fs_call. rewrite U, Ex. reflexivity.
    + rewrite app_length. cbn [length]. lia.
    + intros d. rewrite Hd2. split.
      * intros H. apply opened_snoc_inv in H as [->|H]; [discriminate Hk|]. apply K5 in H. exact (call_keeps_dirs _ _ _ _ _ _ Hk Ex H).
      * intros H. apply opened_snoc, K5. exact (call_no_new_dirs _ _ _ _ _ _ Hk Ex H).
    + eapply Forall_impl; [|exact K6]. cbv beta. intros d H. rewrite Hd2. exact (call_keeps_dirs _ _ _ _ _ _ Hk Ex H).
    + rewrite Hn2. unfold s2. destruct r0; reflexivity.
  - destruct c as [d|d|d f|d f|d f|d f|d f o b|d f a e|d f|d f n0|d f b|d f o|]; try discriminate Hk; cbn [fs_exec] in E.
    + destruct (get d (fs_dirs s1)) as [v|] eqn:G.
      { assert (get d (fs_dirs s) = Some v) as G' by (rewrite K7; exact G). rewrite G' in E. injection E as <- <-. exists h', D, s1. now apply closed_more. }
      assert (get d (fs_dirs s) = None) as G' by (rewrite K7; exact G). rewrite G' in E.
      pose proof (open_not_in D s1 d K6 G) as Dd.
      destruct (hd false t) eqn:Ft.
      { destruct t as [|[] t]; try discriminate Ft. cbn [fs_js] in E. injection E as <- <-. exists h', D, s1. now apply closed_more. }
      exists (h' ++ [Call (KOpenDir d) t]), D, (snd (fs_call (KOpenDir d) t s1)).
      assert (snd (fs_call (KOpenDir d) t s1) = match get d (fs_names s1) with
        | Some o => Fs (fs_objs s1) (fs_names s1) (set d (o, []) (fs_dirs s1)) (fs_up s1)
        | None => Fs (fs_objs s1 ++ [[]]) (set d (length (fs_objs s1)) (fs_names s1)) (set d (length (fs_objs s1), []) (fs_dirs s1)) (fs_up s1) end) as E1.
      { unfold fs_call. rewrite U. cbn [fs_exec]. rewrite G. destruct t as [|[] t]; try discriminate Ft; cbn [fs_js]; destruct (get d (fs_names s1)); cbn [snd]; now rewrite ?U. }
      assert (exists x, fs_dirs (snd (fs_call (KOpenDir d) t s1)) = set d x (fs_dirs s1)) as (x & Hx).
      { rewrite E1. destruct (get d (fs_names s1)); cbn [fs_dirs]; eauto. }
      constructor.
      * apply Forall_app. split; [exact K1|]. constructor; [exact Hok|constructor].
      * apply closed_snoc; [exact K2|discriminate].
      * rewrite run_cat. cbn [snd fs_run]. rewrite K3. now destruct (fs_call (KOpenDir d) t s1).
      * rewrite app_length. cbn [length]. lia.
      * intros d'. rewrite Hx, get_set. destruct (beq_dec d d') as [->|Hne].
        { rewrite beq_refl. split; [discriminate|]. intros _. exists h', t, []. split; [reflexivity|intros []]. }
        rewrite beq_neq by exact Hne. rewrite <- K5. split; [|apply opened_snoc].
        intros H. apply opened_snoc_inv in H as [H|H]; [congruence|exact H].
      * eapply Forall_impl; [|exact K6]. cbv beta. intros d' H. rewrite Hx, get_set. destruct (bytes_eqb d d'); [discriminate|exact H].
      * assert (s' = match get d (fs_names s1) with
          | Some o => Fs (fs_objs s1) (without D (fs_names s1)) (set d (o, []) (fs_dirs s1)) (fs_up s1)
          | None => Fs (fs_objs s1 ++ [[]]) (set d (length (fs_objs s1)) (without D (fs_names s1))) (set d (length (fs_objs s1), []) (fs_dirs s1)) (fs_up s1) end) as ->.
        { rewrite K7 in E. cbn [with_names fs_objs fs_names fs_dirs fs_up] in E. rewrite get_without in E by exact Dd.
          destruct t as [|[] t]; try discriminate Ft; cbn [fs_js] in E; destruct (get d (fs_names s1)); injection E as _ <-; reflexivity. }
        rewrite E1. destruct (get d (fs_names s1)); unfold with_names; cbn [fs_objs fs_names fs_dirs fs_up]; [reflexivity|].
        now rewrite set_without by exact Dd.
    + destruct (hd false t) eqn:Ft.
      { destruct t as [|[] t]; try discriminate Ft. cbn [fs_js] in E. injection E as <- <-. exists h', D, s1. now apply closed_more. }
      assert (s' = Fs (fs_objs s1) (del d (without D (fs_names s1))) (fs_dirs s1) (fs_up s1)) as ->.
      { rewrite K7 in E. destruct t as [|[] t]; try discriminate Ft; cbn [fs_js] in E; injection E as _ <-; reflexivity. }
      destruct (get d (fs_dirs s1)) as [v|] eqn:G.
      * exists h', (d :: D), s1. constructor; auto.
        { cbn [length]. lia. }
        { constructor; [congruence|exact K6]. }
        { rewrite without_cons. reflexivity. }
      * exists (h' ++ [Call (KDeleteDir d) t]), D, (Fs (fs_objs s1) (del d (fs_names s1)) (fs_dirs s1) (fs_up s1)). constructor; cbn [fs_dirs]; auto.
        { apply Forall_app. split; [exact K1|]. constructor; [exact Hok|constructor]. }
        { apply closed_snoc; [exact K2|]. intros d' t' X. injection X as <- _. rewrite K5, G. auto. }
        { rewrite run_cat. cbn [snd fs_run]. rewrite K3. unfold fs_call. rewrite U. cbn [fs_exec].
          destruct t as [|[] t]; try discriminate Ft; cbn [fs_js snd]; now rewrite U. }
        { rewrite app_length. cbn [length]. lia. }
        { intros d'. rewrite <- K5. split; [|apply opened_snoc]. intros H. apply opened_snoc_inv in H as [H|H]; [discriminate|exact H]. }
        { rewrite del_without. reflexivity. }
Qed.
Lemma closed_history l : Forall event_ok l -> exists h' D s1, closed_to (length l) h' D (snd (fs_run l new_fs)) s1.
Proof.
  induction l as [|e l IH] using rev_ind; intros H.
  - exists [], [], new_fs. constructor; try constructor; auto.
    + intros a b d t E. now destruct a.
    + intros (a1 & t1 & a2 & E & _). now destruct a1.
    + intros X. now destruct X.
  - apply Forall_app in H as [H He]. inversion He as [|? ? Hx _]; subst. destruct (IH H) as (h' & D & s1 & C).
    destruct (closed_event _ _ _ _ _ e C Hx) as (h2 & D2 & s2 & C2). exists h2, D2, s2.
    rewrite run_cat. cbn [snd]. rewrite app_length, Nat.add_comm. exact C2.
Qed.
(** After a restart the state is the same, not only alike. *)
Theorem closed_restart l rs s : Forall event_ok l -> fs_run l new_fs = (rs, s) ->
  exists l' rs', Forall event_ok l' /\ deletes_closed l' /\ length l' <= S (length l) /\ fs_run l' new_fs = (rs', fs_restart s).
Proof.
  intros H E. destruct (closed_history l H) as (h' & D & s1 & C). rewrite E in C. cbn [snd] in C.
  destruct (closed_event _ _ _ _ _ Restart C Logic.I) as (h2 & D2 & s2 & C2). cbn [fs_run snd] in C2.
  destruct C2 as [K1 K2 K3 K4 K5 K6 K7]. destruct (fs_run h2 new_fs) as [rs' s3] eqn:E3. cbn [snd] in K3. subst s3.
  exists h2, rs'. split; [exact K1|]. split; [exact K2|]. split; [lia|]. rewrite E3. f_equal.
  assert (D2 = []) as ->; [|rewrite K7, without_nil; now destruct s2].
  destruct D2 as [|d D2]; [reflexivity|]. inversion K6 as [|? ? X _]; subst. assert (fs_dirs s2 = fs_dirs (fs_restart s)) as Y by (rewrite K7; reflexivity).
  rewrite Y in X. now destruct X.
Qed.
