(** Calls on a file in the browser cache succeed when the browser works. *)
From Coq Require Import Sorted.
From Verif Require Import Base BaseLemmas Header Node Store U64 File Chunk ChunkProofs WebFile WebProofs WebPlans WebSpec WebTop.
Local Open Scope N_scope.

Definition lens (cs : list chunk) : N := fold_right (fun c n => len c + n) 0 cs.
Definition opw (o : wop) : N :=
  match o with WRewrite c => len c | WDelete _ => 0 | WWrite _ d => N.of_nat (length d) end.
Definition weight (p : list wop) : N := fold_right (fun o n => opw o + n) 0 p.
Definition op_fits (B : N) (o : wop) : Prop :=
  match o with
  | WRewrite c => offset c + len c <= B
  | WDelete _ => True
  | WWrite c d => offset c + len c <= B /\ N.of_nat (length d) = len c
  end.

Lemma lens_cons c cs : lens (c :: cs) = len c + lens cs. Proof. reflexivity. Qed.
Lemma weight_app p q : weight (p ++ q) = weight p + weight q.
Proof. induction p as [|o p IH]; cbn [weight app fold_right]; [reflexivity|]. fold (weight (p ++ q)) (weight p). lia. Qed.
Lemma weight_cons o p : weight (o :: p) = opw o + weight p. Proof. reflexivity. Qed.
Lemma lens_filter q cs : lens (filter q cs) <= lens cs.
Proof. induction cs as [|c cs IH]; cbn [filter]; [reflexivity|]. destruct (q c); rewrite ?lens_cons; lia. Qed.

Lemma delete_size c m : cache_size (cache_delete c m) <= cache_size m.
Proof.
  unfold cache_size, cache_delete. induction m as [|[c' d'] m IH]; cbn [filter fold_right]; [reflexivity|].
  destruct (negb _); cbn [fold_right fst snd]; lia.
Qed.
Lemma put_size c d m : cache_size (cache_put c d m) <= cache_size m + N.of_nat (length d).
Proof. pose proof (delete_size c m). unfold cache_put. cbn [cache_size fold_right snd]. fold (cache_size (cache_delete c m)). lia. Qed.

Lemma lens_remove c cs : NoDup cs -> In c cs -> lens cs = len c + lens (set_remove c cs).
Proof.
  induction cs as [|a cs IH]; intros N H; [destruct H|]. inversion N; subst. unfold set_remove in *. cbn [filter].
  destruct (chunk_eqb c a) eqn:E; cbn [negb].
  - apply eqb_chunk in E. subst a. rewrite lens_cons. f_equal. f_equal. symmetry.
    clear IH N H. induction cs as [|x cs IH]; [reflexivity|]. cbn [filter].
    inversion H3; subst. destruct (chunk_eqb c x) eqn:E; cbn [negb].
    + apply eqb_chunk in E. subst. destruct H2. now left.
    + f_equal. apply IH; [intros F; apply H2; now right|auto].
  - destruct H as [->|H]; [now rewrite eqb_chunk_refl in E|]. rewrite !lens_cons, IH by auto. lia.
Qed.
Lemma remove_absent c cs : ~ In c cs -> set_remove c cs = cs.
Proof.
  unfold set_remove. induction cs as [|x cs IH]; intros H; [reflexivity|]. cbn [filter].
  destruct (chunk_eqb c x) eqn:E; cbn [negb]; [apply eqb_chunk in E; subst; destruct H; now left|].
  f_equal. apply IH. intros F. apply H. now right.
Qed.
Lemma lens_cache m : forall cs, NoDup cs ->
  (forall c, In c cs -> exists d, cache_match c m = Some d /\ N.of_nat (length d) = len c) -> lens cs <= cache_size m.
Proof.
  induction m as [|[c' d'] m IH]; intros cs N H.
  - destruct cs as [|c cs]; [reflexivity|]. destruct (H c) as (d & E & _); [now left|discriminate].
  - assert (lens (set_remove c' cs) <= cache_size m) as K.
    { apply IH; [now apply NoDup_filter|]. intros c Hc. apply set_remove_in in Hc as [Hc Ne].
      destruct (H c Hc) as (d & E & L). exists d. split; [|exact L]. cbn [cache_match] in E.
      destruct (chunk_eqb c c') eqn:Eq; [apply eqb_chunk in Eq; congruence|exact E]. }
    cbn [cache_size fold_right snd]. fold (cache_size m).
    destruct (in_dec (fun a b => ltac:(destruct (chunk_eqb a b) eqn:E; [left; now apply eqb_chunk|right; now apply neqb_chunk])) c' cs) as [Hi|Hi].
    + rewrite (lens_remove c' cs N Hi). destruct (H c' Hi) as (d & E & L). cbn [cache_match] in E.
      rewrite eqb_chunk_refl in E. injection E as <-. lia.
    + rewrite (remove_absent c' cs Hi) in K. lia.
Qed.
Lemma sorted_nodup cs : sorted cs -> NoDup cs.
Proof.
  induction 1 as [|c cs S IH F]; constructor; auto. intros H. rewrite Forall_forall in F. exact (clt_irrefl c (F c H)).
Qed.
Lemma wf_lens f : wf f -> lens (w_chunks f) <= cache_size (w_cache f).
Proof.
  intros W. apply lens_cache; [apply sorted_nodup, W|]. intros c Hc. apply (wf_keys _ W) in Hc.
  destruct (cache_match c (w_cache f)) as [d|] eqn:E; [|congruence]. exists d. split; [reflexivity|]. now apply (wf_len _ W).
Qed.

Lemma read_raw_accepts f B s e : wf f -> ends B f -> B < i32_lim -> s <= e -> e <= B -> w_faults f = [] ->
  exists d, read_raw (s, e) f = (Ok d, f) /\ N.of_nat (length d) = e - s.
Proof.
  intros W HB HL Hse He Hf. assert (Hlim : i32_lim < usize_lim) by reflexivity.
  assert (exists d, read_raw (s, e) f = (Ok d, f)) as (d & E).
  { unfold read_raw, load_chunks, wbind, wret, to_usize. cbn [fst snd].
    assert (e - s <? usize_lim = true) as -> by (apply N.ltb_lt; lia).
    destruct (load_loop_accepts f s e B) with (cs := intersecting (w_chunks f) (s, e)) (buf := repeat x00 (N.to_nat (e - s))) as (out & Eo); auto.
    - intros c Hc. apply filter_In in Hc. exact Hc.
    - rewrite repeat_length. lia.
    - rewrite Eo. eauto. }
  exists d. split; [exact E|]. apply read_raw_spec in E as (_ & _ & D); auto. now apply D.
Qed.
Lemma write_chunk_accepts c d f : w_faults f = [] -> cache_size (w_cache f) + N.of_nat (length d) < quota ->
  write_chunk c d f = (Ok tt, put_file c d f).
Proof.
  intros Hf Q. unfold write_chunk, js. rewrite Hf. cbn [tl w_cache w_chunks w_faults]. apply N.ltb_lt in Q. rewrite Q.
  unfold put_file. now rewrite Hf.
Qed.

Lemma put_ends B c d f : ends B f -> offset c + len c <= B -> ends B (put_file c d f).
Proof. intros H Hc x Hx. cbn [put_file w_chunks] in Hx. apply set_insert_in in Hx as [->|Hx]; auto. Qed.
Lemma del_ends B c f : ends B f -> ends B (del_file c f).
Proof. intros H x Hx. cbn [del_file w_chunks] in Hx. apply set_remove_in in Hx as [Hx _]; auto. Qed.

Lemma op_accepts B o f : wf f -> ends B f -> B < i32_lim -> w_faults f = [] -> op_fits B o ->
  cache_size (w_cache f) + opw o < quota ->
  exists g, exec_op o f = (Ok tt, g) /\ wf g /\ ends B g /\ w_faults g = [] /\
    cache_size (w_cache g) <= cache_size (w_cache f) + opw o.
Proof.
  intros W HB HL Hf Ho Q. destruct o as [c|c|c d]; cbn [op_fits opw exec_op] in *.
  - destruct (read_raw_accepts f B (offset c) (offset c + len c)) as (d & E & Hd); auto; [lia|].
    assert (N.of_nat (length d) = len c) as Hl by lia.
    exists (put_file c d f). unfold wbind, crange. rewrite E, write_chunk_accepts by (auto; lia).
    split; [reflexivity|]. split; [now apply put_wf|]. split; [now apply put_ends|]. split; [exact Hf|].
    rewrite <- Hl. apply put_size.
  - exists (del_file c f). unfold js. rewrite Hf. split; [unfold del_file; now rewrite Hf|].
    split; [now apply del_wf|]. split; [now apply del_ends|]. split; [exact Hf|].
    cbn [del_file w_cache]. pose proof (delete_size c (w_cache f)). lia.
  - destruct Ho as [Hc Hl]. exists (put_file c d f). rewrite write_chunk_accepts by auto. split; [reflexivity|].
    split; [now apply put_wf|]. split; [now apply put_ends|]. split; [exact Hf|]. apply put_size.
Qed.
Lemma plan_accepts B : B < i32_lim -> forall p f, wf f -> ends B f -> w_faults f = [] -> Forall (op_fits B) p ->
  cache_size (w_cache f) + weight p < quota ->
  exists g, execute_plan p f = (Ok tt, g) /\ w_faults g = [].
Proof.
  intros HL. induction p as [|o p IH]; intros f W HB Hf Hp Q; [exists f; now split|].
  inversion Hp; subst. rewrite weight_cons in Q.
  destruct (op_accepts B o f) as (g & E & W' & HB' & Hf' & S); auto; [lia|].
  destruct (IH g) as (g' & E' & F'); auto; [lia|]. exists g'. cbn [execute_plan]. unfold wbind. now rewrite E.
Qed.

Lemma rewrite_weight r l c : fst r <= snd r -> overlap (crange c) r = true -> weight (rewrite_ops r l c) <= len c.
Proof.
  intros Hr Ho. apply overlap_iff in Ho. cbn [crange fst snd] in Ho. unfold rewrite_ops. rewrite !weight_app.
  cbn [crange fst snd].
  destruct (N.ltb_spec (offset c) (fst r)), (N.ltb_spec (snd r) (offset c + len c));
    cbn [weight fold_right opw chunk_new len fst snd]; lia.
Qed.
Lemma rewrite_fits B r l c : fst r <= snd r -> overlap (crange c) r = true -> offset c + len c <= B -> Forall (op_fits B) (rewrite_ops r l c).
Proof.
  intros Hr Ho Hc. apply overlap_iff in Ho. cbn [crange fst snd] in Ho. unfold rewrite_ops. cbn [crange fst snd].
  rewrite !Forall_app.
  destruct (N.ltb_spec (offset c) (fst r)), (N.ltb_spec (snd r) (offset c + len c)); repeat split;
    repeat constructor; cbn [op_fits chunk_new offset len fst snd]; lia.
Qed.
Lemma deletes_weight cs : weight (map WDelete cs) = 0.
Proof. induction cs as [|c cs IH]; [reflexivity|]. cbn [map]. rewrite weight_cons, IH. reflexivity. Qed.
Lemma deletes_fit B cs : Forall (op_fits B) (map WDelete cs).
Proof. apply Forall_forall. intros o H. apply in_map_iff in H as (c & <- & _). exact Logic.I. Qed.
Lemma rewrites_weight r l cs : fst r <= snd r -> (forall c, In c cs -> overlap (crange c) r = true) ->
  weight (flat_map (rewrite_ops r l) cs) <= lens cs.
Proof.
  intros Hr. induction cs as [|c cs IH]; intros H; [reflexivity|]. cbn [flat_map]. rewrite weight_app, lens_cons.
  pose proof (rewrite_weight r l c Hr (H c (or_introl eq_refl))). specialize (IH (fun x Hx => H x (or_intror Hx))). lia.
Qed.

Lemma add_weight cs o d : weight (add cs o d) <= N.of_nat (length d) + lens cs.
Proof.
  unfold add. rewrite weight_cons, weight_app, deletes_weight. cbn [opw].
  set (r := (o, o + N.of_nat (length d))). set (rel := filter _ cs).
  pose proof (rewrites_weight r (next_level rel) (filter (fun c => negb (contains r (crange c))) rel)) as H.
  pose proof (lens_filter (fun c => negb (contains r (crange c))) rel) as H1.
  pose proof (lens_filter (fun c => overlap (crange c) r) cs) as H2. fold rel in H2.
  assert (weight (flat_map (rewrite_ops r (next_level rel)) (filter (fun c => negb (contains r (crange c))) rel)) <= lens rel); [|lia].
  etransitivity; [apply H|exact H1]; [cbn; lia|]. intros c Hc. apply filter_In in Hc as [Hc _]. apply filter_In in Hc as [_ Hc]. exact Hc.
Qed.
Lemma add_fits B f o d : ends B f -> o + N.of_nat (length d) <= B -> Forall (op_fits B) (add (w_chunks f) o d).
Proof.
  intros HB Ho. unfold add. constructor.
  - cbn [op_fits chunk_new offset len fst snd]. lia.
  - apply Forall_app. split; [apply deletes_fit|]. apply Forall_flat_map, Forall_forall. intros c Hc.
    apply filter_In in Hc as [Hc _]. apply filter_In in Hc as [Hi Hc]. apply rewrite_fits; auto. cbn. lia.
Qed.

Lemma truncate_plan B f n : ends B f -> Forall (op_fits B) (truncate (w_chunks f) n) /\ weight (truncate (w_chunks f) n) <= B.
Proof.
  intros HB. unfold truncate. rewrite Forall_app, weight_app, deletes_weight.
  destruct (filter _ (w_chunks f)) as [|c r] eqn:E; [cbn; repeat split; auto using deletes_fit; lia|].
  assert (n < offset c + len c /\ offset c + len c <= B) as [H1 H2].
  { assert (In c (filter (fun c => n <? snd (crange c)) (w_chunks f))) as H by (rewrite E; now left).
    apply filter_In in H as [H H']. apply N.ltb_lt in H'. cbn [crange snd] in H'. split; auto. }
  set (s := fold_left _ r _). destruct (N.ltb_spec s n) as [Hs|Hs];
    (split; [split; [|apply deletes_fit]|]); repeat constructor; cbn [op_fits weight fold_right opw chunk_new offset len fst snd]; lia.
Qed.


Lemma sum_fine a b : a + b < i32_lim -> sum_ok a b = Ok tt.
Proof. intros H. unfold sum_ok. assert (a + b <? u64_max = true) as ->; [|reflexivity]. apply N.ltb_lt. unfold i32_lim, u64_max in *. lia. Qed.

Lemma add_ends_accepts B f o d : wf f -> ends B f -> B < i32_lim -> cache_size (w_cache f) < 2305843009213693952 -> w_faults f = [] ->
  o + N.of_nat (length d) < i32_lim -> exists g, execute_plan (add (w_chunks f) o d) f = (Ok tt, g) /\ w_faults g = [].
Proof.
  intros W HB HL HS Hf Ho. apply (plan_accepts (N.max B (o + N.of_nat (length d)))); auto.
  - lia.
  - intros c Hc. specialize (HB c Hc). lia.
  - apply add_fits; [|lia]. intros c Hc. specialize (HB c Hc). lia.
  - pose proof (wf_lens f W). pose proof (add_weight (w_chunks f) o d). unfold quota, i32_lim in *. lia.
Qed.

Section Accept.
Context (f : wfile) (F : file) (R : rep f F) (HF : f_len F < i32_lim) (HS : cache_size (w_cache f) < 2305843009213693952).
Let f0 := with_faults [] f.

Lemma add_accepts o d : o + N.of_nat (length d) < i32_lim -> exists g, execute_plan (add (w_chunks f0) o d) f0 = (Ok tt, g) /\ w_faults g = [].
Proof.
  intros Ho. destruct (rep_faults [] f F R) as (W & _ & HB). now apply (add_ends_accepts (f_len F)).
Qed.
Lemma write_accepted o d : o + N.of_nat (length d) < i32_lim -> fst (step (CWrite o d, []) f) = Ok None.
Proof.
  intros Ho. destruct (add_accepts o d Ho) as (g & E & _). unfold step. cbn [fst snd]. fold f0.
  unfold wf_write, wbind, wret. rewrite sum_fine by exact Ho. cbn beta iota. rewrite E. reflexivity.
Qed.
Lemma append_accepted d n : length_now f = Ok n -> n + N.of_nat (length d) < i32_lim -> fst (step (CAppend d, []) f) = Ok (Some n).
Proof.
  intros Hn Ho. unfold length_now, wf_length in Hn. cbn [fst] in Hn.
  assert (snd (crange (prev (w_chunks f))) = n) as Hn' by congruence.
  destruct (add_accepts n d Ho) as (g & E & _). unfold step. cbn [fst snd]. fold f0.
  unfold wf_append, wbind, wret. change (w_chunks f0) with (w_chunks f) in *. rewrite Hn'.
  rewrite sum_fine by exact Ho. cbn beta iota. rewrite E. reflexivity.
Qed.
Lemma truncate_accepted n : fst (step (CTruncate n, []) f) = Ok None.
Proof.
  destruct (rep_faults [] f F R) as (W & _ & HB). fold f0 in W, HB. destruct (truncate_plan (f_len F) f0 n HB) as [T1 T2].
  destruct (plan_accepts (f_len F) HF (truncate (w_chunks f0) n) f0) as (g & E & _); auto.
  { change (w_cache f0) with (w_cache f). unfold quota, i32_lim in *. lia. }
  unfold step. cbn [fst snd]. fold f0. unfold wf_truncate, wbind, wret. now rewrite E.
Qed.
Lemma open_accepted : fst (step (COpen, []) f) = Ok None.
Proof. reflexivity. Qed.
End Accept.

Lemma web_accepted cs rs f : run cs new_web_file = (rs, f) ->
  exists F, effects (map fst cs) rs empty_file F /\ shows f F /\
    (f_len F < i32_lim -> cache_size (w_cache f) < 2305843009213693952 ->
     (forall o d, o + N.of_nat (length d) < i32_lim -> fst (step (CWrite o d, []) f) = Ok None) /\
     (forall d n, length_now f = Ok n -> n + N.of_nat (length d) < i32_lim -> fst (step (CAppend d, []) f) = Ok (Some n)) /\
     (forall n, fst (step (CTruncate n, []) f) = Ok None) /\ fst (step (COpen, []) f) = Ok None).
Proof.
  intros E. destruct (run_new _ _ _ E) as (F & H & R). exists F. split; [exact H|]. split; [now apply rep_shows|].
  intros HL HS. repeat split.
  - intros. eapply write_accepted; eauto.
  - intros. eapply append_accepted; eauto.
  - intros. eapply truncate_accepted; eauto.
Qed.
