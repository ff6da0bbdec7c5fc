(** What a command of the browser file system does to the chunks of one file. *)
From Verif Require Import FileProofs Base BaseLemmas Header Node Store U64 File Chunk ChunkProofs WebFile WebProofs WebPlans WebSpec WebTop
  WebFs WebFsSpec WebFsSim WebFsProofs.
Local Open Scope N_scope.

Definition snap (s : fs) (d f : bytes) : option (list chunk) * cache := (open_chunks s d f, view f (obj s d)).

Lemma snap_up s b d f : snap (Fs (fs_objs s) (fs_names s) (fs_dirs s) b) d f = snap s d f.
Proof. reflexivity. Qed.
Lemma snap_self s W d f o files : Inv s W -> get d (fs_dirs s) = Some (o, files) ->
  snap s d f = (get f files, view f (nth o (fs_objs s) [])).
Proof. intros I H. unfold snap, open_chunks, obj. now rewrite H, (i_dirs _ _ I _ _ _ H). Qed.
Lemma snap_set s W d0 o files m' files' b d f : Inv s W -> get d0 (fs_dirs s) = Some (o, files) ->
  snap (Fs (replace o m' (fs_objs s)) (fs_names s) (set d0 (o, files') (fs_dirs s)) b) d f =
  if bytes_eqb d0 d then (get f files', view f m') else snap s d f.
Proof.
  intros I H. pose proof (i_dirs _ _ I _ _ _ H) as Hn. pose proof (i_names _ _ I _ _ Hn) as Hlt.
  unfold snap, open_chunks, obj. cbn [fs_objs fs_names fs_dirs]. rewrite get_set. destruct (beq_dec d0 d) as [<-|Hd].
  - rewrite beq_refl, Hn, nth_replace, Nat.eqb_refl by exact Hlt. reflexivity.
  - rewrite beq_neq by exact Hd. f_equal. destruct (get d (fs_names s)) as [o'|] eqn:E; [|reflexivity].
    rewrite nth_replace by exact Hlt. destruct (Nat.eqb_spec o o') as [->|]; [|reflexivity].
    exfalso. apply Hd. eapply i_inj; eassumption.
Qed.

(** What the command [c] with result [r] may do to the file. *)
Inductive evolves (d f : bytes) : cmd -> res reply -> option (list chunk) * cache -> option (list chunk) * cache -> Prop :=
| Ev_same c r x : (concerns d f (Call c []) -> r = Err \/ r = Panic) -> evolves d f c r x x
| Ev_open r v : evolves d f (KOpenFile d f) r (None, v) (Some (fold_right set_insert [] (map fst v)), v)
| Ev_gone c b x : c = KDeleteFile d f \/ c = KDeleteDir d -> evolves d f c (Ok (RBool b)) x (None, [])
| Ev_change c k w t q cs v cs' v' : change c d f k w -> k <> COpen -> step (k, t) (WFile cs v []) = (q, WFile cs' v' []) ->
    evolves d f c (x <- q ;; Ok (w x)) (Some cs, v) (Some cs', v').

Lemma on_file_ro {A} s W d0 f0 (m : wm jfile A) (w : wm wfile A) k t r s' d f c b : Inv s W -> valid f0 ->
  sim (changes W) f0 m w ->
  (forall o files cs, get d0 (fs_dirs s) = Some (o, files) -> get f0 files = Some cs ->
    forall t' q g, w (WFile cs (view f0 (nth o (fs_objs s) [])) t') = (q, g) -> same (WFile cs (view f0 (nth o (fs_objs s) [])) t') g) ->
  on_file d0 f0 m k t s = (r, s') -> ~ concerns d f (Call c []) ->
  evolves d f c r (snap s d f) (snap (Fs (fs_objs s') (fs_names s') (fs_dirs s') b) d f).
Proof.
  intros I Hf HS Hw E Hc. rewrite snap_up. assert (snap s' d f = snap s d f) as ->; [|apply Ev_same; tauto].
  apply on_file_inv in E as [(A0 & -> & ->)|(o & files & cs & q & j' & Hd & Hg & E & -> & ->)]; [reflexivity|].
  rewrite (snap_set s W d0 o files) by assumption. destruct (beq_dec d0 d) as [<-|Hdd]; [|now rewrite beq_neq].
  rewrite beq_refl, (snap_self s W d0 f o files) by assumption.
  destruct (open_inv _ _ _ _ _ _ _ I Hf Hd Hg) as (Ho & Hm & Hcs & R).
  destruct (HS (jfile_of s o cs t) _ _ Hm Hcs E) as (A1 & A2 & A3 & A4). destruct (A4 []) as (t' & Et).
  cbn [jfile_of j_chunks j_cache] in *. destruct (Hw _ _ _ Hd Hg _ _ _ Et) as [S1 S2]. cbn [w_chunks w_cache] in S1, S2.
  destruct (beq_dec f0 f) as [<-|Hff].
  - now rewrite get_set_same, Hg, S1, S2.
  - rewrite get_set_ne by congruence. rewrite A3 by congruence. reflexivity.
Qed.

Lemma on_file_change s W d0 f0 kk t w r s' d f c b : Inv s W -> valid f0 -> change c d0 f0 kk w -> kk <> COpen ->
  on_file d0 f0 (jcall f0 kk) w t s = (r, s') ->
  evolves d f c r (snap s d f) (snap (Fs (fs_objs s') (fs_names s') (fs_dirs s') b) d f).
Proof.
  intros I Hf Hch Hk E. rewrite snap_up.
  apply on_file_inv in E as [(A0 & -> & ->)|(o & files & cs & q & j' & Hd & Hg & E & -> & ->)]; [now apply Ev_same; auto|].
  rewrite (snap_set s W d0 o files) by assumption.
  destruct (open_inv _ _ _ _ _ _ _ I Hf Hd Hg) as (Ho & Hm & Hcs & R).
  assert (concerns d f (Call c []) -> d0 = d /\ f0 = f) as Hcon by (destruct Hch; cbn; auto).
  destruct (beq_dec d0 d) as [<-|Hdd]; [|rewrite beq_neq by exact Hdd; apply Ev_same; tauto].
  rewrite beq_refl, (snap_self s W d0 f o files) by assumption.
  destruct (jcall_sim (changes W) f0 kk (jfile_of s o cs t) q j' Hf Hm Hcs Hk E) as [(-> & Hu & ->)|(A1 & A2 & A3 & t' & Et)];
    cbn [jfile_of j_chunks j_cache] in *.
  - assert (get f (set f0 cs files) = get f files) as ->; [|apply Ev_same; auto].
    destruct (beq_dec f0 f) as [<-|Hff]; [now rewrite get_set_same|now rewrite get_set_ne by congruence].
  - destruct (beq_dec f0 f) as [<-|Hff].
    + rewrite get_set_same, Hg. eapply Ev_change; eassumption.
    + rewrite get_set_ne by congruence. rewrite A3 by congruence. apply Ev_same. tauto.
Qed.

Lemma call_evolves s W c t r s' d f : Inv s W -> valid f -> event_ok (Call c t) ->
  (forall d, c = KDeleteDir d -> get d (fs_dirs s) = None) ->
  fs_call c t s = (r, s') -> evolves d f c r (snap s d f) (snap s' d f).
Proof.
  intros I Hf Hok Hdel E. unfold fs_call in E. destruct (fs_up s) eqn:Hup; [|injection E as <- <-; apply Ev_same; auto].
  destruct (fs_exec c t s) as [r1 s1] eqn:Ex. injection E as <- <-.
  assert (exists b, match r1 with Panic => Fs (fs_objs s1) (fs_names s1) (fs_dirs s1) false | _ => s1 end =
    Fs (fs_objs s1) (fs_names s1) (fs_dirs s1) b) as (b & ->).
  { destruct r1; try (exists (fs_up s1); now destruct s1). now exists false. }
  destruct c as [d0|d0|d0 f0|d0 f0|d0 f0|d0 f0|d0 f0 o b0|d0 f0 a e|d0 f0|d0 f0 n|d0 f0 b0|d0 f0 o|]; cbn [fs_exec event_ok] in Ex, Hok.
  - (* open_dir *)
    rewrite snap_up.
    destruct (get d0 (fs_dirs s)) as [[o files]|] eqn:Hd; [injection Ex as <- <-; apply Ev_same; cbn; tauto|].
    assert (snap s1 d f = snap s d f) as ->; [|apply Ev_same; cbn; tauto].
    destruct t as [|[] t]; cbn [fs_js] in Ex.
    2:{ injection Ex as <- <-. reflexivity. }
    all: destruct (get d0 (fs_names s)) as [o|] eqn:Hn; injection Ex as <- <-; unfold snap, open_chunks, obj;
      cbn [fs_objs fs_names fs_dirs]; rewrite ?get_set; (destruct (beq_dec d0 d) as [<-|Hdd];
      [rewrite beq_refl, Hd, ?Hn; cbn [get]; try reflexivity|rewrite beq_neq by exact Hdd; try reflexivity]).
    all: try (f_equal; f_equal; rewrite app_nth2, Nat.sub_diag by lia; reflexivity).
    all: f_equal; destruct (get d (fs_names s)) as [o'|] eqn:E'; [|reflexivity]; rewrite app_nth1 by exact (i_names _ _ I _ _ E'); reflexivity.
  - (* delete_dir *)
    specialize (Hdel d0 eq_refl). rewrite snap_up. destruct t as [|[] t]; cbn [fs_js] in Ex.
    2:{ injection Ex as <- <-. apply Ev_same; auto. }
    all: injection Ex as <- <-; destruct (beq_dec d0 d) as [<-|Hdd].
    all: unfold snap at 2, open_chunks, obj; cbn [fs_objs fs_names fs_dirs]; rewrite get_del.
    1,3: rewrite beq_refl, Hdel; apply Ev_gone; auto.
    all: rewrite beq_neq by exact Hdd; apply Ev_same; cbn; congruence.
  - (* open_file *)
    rewrite snap_up. destruct (get d0 (fs_dirs s)) as [[o files]|] eqn:Hd; [|injection Ex as <- <-; apply Ev_same; cbn; tauto].
    destruct (get f0 files) as [cs|] eqn:Hg; [injection Ex as <- <-; apply Ev_same; cbn; tauto|].
    destruct (j_find f0 (jfile_of s o [] t)) as [q j'] eqn:Ef. cbn [fst] in Ex.
    assert (q = Err \/ q = Ok (fold_right set_insert [] (map fst (view f0 (nth o (fs_objs s) []))))) as [->| ->].
    { unfold j_find, jjs in Ef. cbn [jfile_of j_faults] in Ef.
      destruct t as [|[] t]; cbn in Ef; rewrite ?(view_keys (changes W) f0 _ (i_wfc _ _ I o)) in Ef;
        injection Ef as <- _; auto. }
    { injection Ex as <- <-. apply Ev_same; cbn; tauto. }
    injection Ex as <- <-. rewrite <- (replace_self o (fs_objs s)) at 1.
    rewrite (snap_set s W d0 o files) by assumption. destruct (beq_dec d0 d) as [<-|Hdd].
    + rewrite beq_refl, (snap_self s W d0 f o files) by assumption. destruct (beq_dec f0 f) as [<-|Hff].
      * rewrite get_set_same, Hg. apply Ev_open.
      * rewrite get_set_ne by congruence. apply Ev_same; cbn; tauto.
    + rewrite beq_neq by exact Hdd. apply Ev_same; cbn; tauto.
  - (* file_exists *)
    rewrite snap_up. assert (s1 = s) as ->; [|apply Ev_same; cbn; tauto].
    destruct (get d0 (fs_dirs s)) as [[o files]|]; [destruct (get f0 files)|]; congruence.
  - (* delete_file *)
    rewrite snap_up. destruct (get d0 (fs_dirs s)) as [[o files]|] eqn:Hd; [|injection Ex as <- <-; apply Ev_same; auto].
    cbv zeta in Ex. destruct t as [|[] t]; cbn [fs_js] in Ex.
    2:{ injection Ex as <- <-. apply Ev_same; auto. }
    all: injection Ex as <- <-; rewrite (snap_set s W d0 o files) by assumption.
    all: destruct (beq_dec d0 d) as [<-|Hdd]; [|rewrite beq_neq by exact Hdd; apply Ev_same; cbn; intros [? _]; congruence].
    all: rewrite beq_refl, get_del; destruct (beq_dec f0 f) as [<-|Hff].
    all: pose proof (i_wfc _ _ I o) as Hm.
    1,3: rewrite beq_refl, (view_delete_path (changes W)) by assumption; apply Ev_gone; auto.
    all: rewrite beq_neq by exact Hff; rewrite (view_delete_path_other (changes W)) by (assumption || congruence);
      rewrite (snap_self s W d0 f o files) by assumption; apply Ev_same; cbn; intros [_ ?]; congruence.
  - (* flush *)
    eapply (on_file_ro s W d0 f0 (wret (Ok tt)) (wret (Ok tt))); try eassumption; [apply sim_ret| |cbn; tauto].
    intros o files cs _ _ t' q g X. injection X as _ <-. apply same_refl.
  - (* write *) destruct Hok as [Hf0 Hb]. rewrite (on_file_map d0 f0 (j_write f0 o b0) (fun _ => @None N) (fun _ => RUnit)) in Ex.
    eapply (on_file_change s W d0 f0 (CWrite o b0)); try eassumption; [constructor|discriminate].
  - (* read *)
    eapply (on_file_ro s W d0 f0 (j_read f0 (a, e)) (wf_read (a, e))); try eassumption; [now apply sim_read| |cbn; tauto].
    intros o files cs Hd Hg t' q g X. destruct (open_inv _ _ _ _ _ _ _ I Hok Hd Hg) as (_ & _ & _ & R).
    apply (rep_read _ _ _ _ _ _ (rep_faults t' _ _ R)) in X. apply X.
  - (* length *)
    eapply (on_file_ro s W d0 f0 j_length wf_length); try eassumption; [apply sim_length| |cbn; tauto].
    intros o files cs _ _ t' q g X. injection X as _ <-. apply same_refl.
  - (* truncate *) rewrite (on_file_map d0 f0 (j_truncate f0 n) (fun _ => @None N) (fun _ => RUnit)) in Ex.
    eapply (on_file_change s W d0 f0 (CTruncate n)); try eassumption; [constructor|discriminate].
  - (* append *) destruct Hok as [Hf0 Hb]. unfold j_append_lp in Ex. apply N.ltb_lt in Hb as Hb'. rewrite Hb' in Ex.
    rewrite (on_file_map d0 f0 (j_append f0 (to_be 4 (N.of_nat (length b0)) ++ b0)) Some
      (fun o => match o with Some n => RNum n | None => RUnit end)) in Ex.
    eapply (on_file_change s W d0 f0 (CAppend _)); try eassumption; [now constructor|discriminate].
  - (* load *)
    eapply (on_file_ro s W d0 f0 (j_load_lp f0 o) (wf_load_lp o)); try eassumption; [now apply sim_load_lp| |cbn; tauto].
    intros ob files cs _ _ t' q g X. now apply load_lp_same in X.
  - (* shutdown *) injection Ex as <- <-. apply Ev_same; cbn; tauto.
Qed.
