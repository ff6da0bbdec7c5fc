(** Proofs about calls of many threads. *)
From Verif Require Import Base BaseLemmas Header Node Store U64 File Chunk WebFile WebFs WebFsSpec WebFsProofs WebSync WebSyncSpec.

Lemma invoked_app a b : invoked (a ++ b) = invoked a ++ invoked b.
Proof. induction a as [|[] a IH]; cbn; auto. now rewrite IH. Qed.
Lemma calls_app a ts b ts' : length a = length ts -> calls (a ++ b) (ts ++ ts') = calls a ts ++ calls b ts'.
Proof. revert ts. induction a as [|c a IH]; intros [|t ts] H; try discriminate; cbn; auto. now rewrite IH by (now injection H). Qed.
Lemma fs_run_app a b s : fs_run (a ++ b) s =
  (fst (fs_run a s) ++ fst (fs_run b (snd (fs_run a s))), snd (fs_run b (snd (fs_run a s)))).
Proof.
  revert s. induction a as [|[c t|] a IH]; intros s; cbn [app fs_run].
  - cbn. apply surjective_pairing.
  - destruct (fs_call c t s) as [r s1]. rewrite IH. destruct (fs_run a s1) as [rs s2]. reflexivity.
  - rewrite IH. destruct (fs_run a (fs_restart s)) as [rs s2]. reflexivity.
Qed.
Lemma run_length a s : length (fst (fs_run a s)) = length a.
Proof.
  revert s. induction a as [|[c t|] a IH]; intros s; cbn [fs_run]; auto.
  - destruct (fs_call c t s) as [r s1]. specialize (IH s1). destruct (fs_run a s1). cbn in *. now rewrite IH.
  - specialize (IH (fs_restart s)). destruct (fs_run a (fs_restart s)). cbn in *. now rewrite IH.
Qed.
Lemma calls_length a ts : length a = length ts -> length (calls a ts) = length a.
Proof. revert ts. induction a as [|c a IH]; intros [|t ts] H; try discriminate; cbn; auto. Qed.
Lemma down_call c t s : fs_up s = false -> fs_call c t s = (Err, s).
Proof. unfold fs_call. now intros ->. Qed.
Lemma down_run cs ts s : fs_up s = false -> length cs = length ts ->
  fs_run (calls cs ts) s = (repeat Err (length cs), s).
Proof.
  intros Hs. revert ts. induction cs as [|c cs IH]; intros [|t ts] H; try discriminate; cbn [calls fs_run length repeat]; auto.
  rewrite down_call, IH by auto. reflexivity.
Qed.
Lemma nth_repeat_lt {A} (a d : A) k n : (k < n)%nat -> nth k (repeat a n) d = a.
Proof. revert k. induction n as [|n IH]; intros [|k] H; cbn; auto; try lia. apply IH. lia. Qed.

(** [p]: the calls that were executed, with faults [ts]. *)
Record NInv (s0 : fs) (tr : list label) (n : net) (p : list cmd) (ts : list (list bool)) : Prop := {
  v_len : length p = length ts;
  v_fs : snd (fs_run (calls p ts) s0) = n_fs n;
  v_next : length (invoked tr) = n_next n;
  v_queue : exists rest, invoked tr = p ++ rest /\
    (combine (seq (length p) (length rest)) rest =
     match n_busy n with Some x => x :: n_queue n | None => n_queue n end \/ fs_up (n_fs n) = false /\ n_busy n = None);
  v_sent : forall k r, n_sent n k = Some r -> (k < length p)%nat /\ nth k (fst (fs_run (calls p ts) s0)) Fuel = r;
  v_unsent : forall k, (k < length p)%nat -> n_sent n k = None ->
    nth k p KShutdown = KShutdown \/ nth k (fst (fs_run (calls p ts) s0)) Fuel = Panic;
  v_busy : n_busy n <> None -> fs_up (n_fs n) = true;
  v_known : forall k r, In (Return k r) tr -> (k < n_next n)%nat;
  v_returned : forall k r, In (Return k r) tr -> nth k (invoked tr) KShutdown <> KShutdown ->
    (k < length p)%nat /\ seen_as r (nth k (fst (fs_run (calls p ts) s0)) Fuel) \/
    (length p <= k < n_next n)%nat /\ r = Err /\ fs_up (n_fs n) = false
}.

Lemma ninv_start s0 : NInv s0 [] (net_start s0) [] [].
Proof.
  constructor; cbn; auto; try discriminate; try tauto.
  - exists []. auto.
  - intros k H. inversion H.
Qed.
Lemma panic_down c t s s' : fs_call c t s = (Panic, s') -> fs_up s' = false.
Proof.
  unfold fs_call. destruct (fs_up s); [|discriminate]. destruct (fs_exec c t s) as [r s1]. intros E. injection E as -> <-. reflexivity.
Qed.

Lemma combine_app {A B} (a : list A) : forall (b : list B) a' b', length a = length b ->
  combine (a ++ a') (b ++ b') = combine a b ++ combine a' b'.
Proof. induction a as [|x a IH]; intros [|y b] a' b' L; try discriminate; cbn; auto. now rewrite IH by (now injection L). Qed.

Lemma ninv_exec s0 tr s q j c m k t r s' m' p ts : NInv s0 tr (Net s q (Some (j, c)) m k) p ts ->
  fs_call c t s = (r, s') ->
  (forall i, m' i = if Nat.eqb i j && has_callback c && negb match r with Panic => true | _ => false end then Some r else m i) ->
  NInv s0 (tr ++ [Finish t]) (Net s' q None m' k) (p ++ [c]) (ts ++ [t]).
Proof.
  intros [V1 V2 V3 (rest & Ei & V4) V5 V6 V7 V8 V9] Hc Hm'. cbn [n_fs n_queue n_busy n_sent n_next] in *.
  destruct V4 as [V4|[_ V4]]; [|discriminate]. destruct rest as [|c' rest]; [discriminate|].
  cbn [length seq combine] in V4. injection V4 as Hj -> V4. symmetry in Hj.
  assert (fs_up s = true) as Hup by (apply V7; discriminate).
  assert (fs_run (calls (p ++ [c]) (ts ++ [t])) s0 = (fst (fs_run (calls p ts) s0) ++ [r], s')) as Er.
  { rewrite calls_app by exact V1. rewrite fs_run_app, V2. cbn [calls fs_run fst snd]. rewrite Hc. reflexivity. }
  pose proof (run_length (calls p ts) s0) as Lr. rewrite calls_length in Lr by exact V1.
  assert (invoked (tr ++ [Finish t]) = invoked tr) as Ei' by (rewrite invoked_app; apply app_nil_r).
  assert (forall i r0, In (Return i r0) (tr ++ [Finish t]) -> In (Return i r0) tr) as Hin
    by (intros i r0 X; apply in_app_or in X as [X|[X|[]]]; [exact X|discriminate]).
  constructor; cbn [n_fs n_queue n_busy n_sent n_next]; rewrite ?Er, ?Ei'; cbn [fst snd]; auto.
  - rewrite !app_length, V1. reflexivity.
  - exists rest. split; [rewrite Ei, <- app_assoc; reflexivity|]. left. rewrite app_length. cbn [length].
    now replace (length p + 1)%nat with (S (length p)) by lia.
  - intros i r0 E. rewrite app_length. cbn [length]. rewrite Hm' in E. destruct (Nat.eqb_spec i j) as [Hij|Hij]; cbn [andb] in E.
    + assert (~ (i < length p)%nat) as Hni by lia.
      destruct (has_callback c && _)%bool.
      * injection E as <-. split; [lia|]. rewrite app_nth2 by lia. replace (i - length (fst (fs_run (calls p ts) s0)))%nat with 0%nat by lia. reflexivity.
      * apply V5 in E. tauto.
    + apply V5 in E as [E1 E2]. split; [lia|]. rewrite app_nth1 by lia. exact E2.
  - intros i Hi E. rewrite app_length in Hi. cbn [length] in Hi. rewrite Hm' in E.
    destruct (Nat.eqb_spec i j) as [Hij|Hij]; cbn [andb] in E.
    + rewrite !app_nth2 by lia. replace (i - length p)%nat with 0%nat by lia.
      replace (i - length (fst (fs_run (calls p ts) s0)))%nat with 0%nat by lia. cbn [nth].
      destruct c; cbn in E; auto; destruct r; auto; discriminate.
    + rewrite !app_nth1 by lia. apply V6; [lia|exact E].
  - intros i r0 X. eapply V8, Hin, X.
  - intros i r0 X Hk. apply Hin in X. rewrite app_length. cbn [length].
    destruct (V9 i r0 X Hk) as [[A B]|(_ & _ & A)]; [|congruence]. left. split; [lia|]. now rewrite app_nth1 by lia.
Qed.

Lemma ninv_step s0 tr n p ts l n' : NInv s0 tr n p ts -> net_step n l n' ->
  exists p' ts', NInv s0 (tr ++ [l]) n' p' ts'.
Proof.
  intros V H.
  destruct H as [s q b m k c|s x q m k Hup|s q j c m k t r s' Hc Hr|s q j c m k t s' Hc|s q b m k j r Hm|s q b m k j Hd Hj Hm].
  - (* invoke *)
    exists p, ts. destruct V as [V1 V2 V3 (rest & Ei & V4) V5 V6 V7 V8 V9]. cbn [n_fs n_queue n_busy n_sent n_next] in *.
    assert (invoked (tr ++ [Invoke c]) = invoked tr ++ [c]) as Ei' by (rewrite invoked_app; reflexivity).
    assert (forall i r0, In (Return i r0) (tr ++ [Invoke c]) -> In (Return i r0) tr) as Hin
      by (intros i r0 X; apply in_app_or in X as [X|[X|[]]]; [exact X|discriminate]).
    constructor; cbn [n_fs n_queue n_busy n_sent n_next]; auto.
    + rewrite Ei', app_length, V3. cbn. lia.
    + exists (rest ++ [c]). rewrite Ei', Ei, <- app_assoc. split; [reflexivity|].
      destruct V4 as [V4|V4]; [left|now right].
      rewrite app_length, seq_app. cbn [length seq]. rewrite combine_app by (now rewrite seq_length). rewrite V4. cbn [combine].
      assert (length p + length rest = k)%nat as -> by (rewrite <- V3, Ei, app_length; reflexivity).
      destruct b; reflexivity.
    + intros i r0 X. apply Hin, V8 in X. lia.
    + intros i r0 X Hk. apply Hin in X. pose proof (V8 _ _ X) as Hi. rewrite Ei', app_nth1 in Hk by lia.
      destruct (V9 i r0 X Hk) as [A|[A B]]; [now left|right]. split; [lia|exact B].
  - (* begin *)
    exists p, ts. destruct V as [V1 V2 V3 (rest & Ei & V4) V5 V6 V7 V8 V9]. cbn [n_fs n_queue n_busy n_sent n_next] in *.
    assert (invoked (tr ++ [Begin]) = invoked tr) as Ei' by (rewrite invoked_app; apply app_nil_r).
    assert (forall i r0, In (Return i r0) (tr ++ [Begin]) -> In (Return i r0) tr) as Hin
      by (intros i r0 X; apply in_app_or in X as [X|[X|[]]]; [exact X|discriminate]).
    constructor; cbn [n_fs n_queue n_busy n_sent n_next]; rewrite ?Ei'; eauto.
    exists rest. split; [exact Ei|]. destruct V4 as [V4|[V4 _]]; [now left|congruence].
  - exists (p ++ [c]), (ts ++ [t]). apply (ninv_exec s0 tr s q j c m k t r); auto.
    intros i. unfold send. destruct c, r; try congruence; cbn [has_callback negb andb]; destruct (Nat.eqb i j); reflexivity.
  - exists (p ++ [c]), (ts ++ [t]). apply (ninv_exec s0 tr s q j c m k t Panic); auto.
    intros i. cbn [negb]. now rewrite Bool.andb_false_r.
  - (* return *)
    exists p, ts. destruct V as [V1 V2 V3 (rest & Ei & V4) V5 V6 V7 V8 V9]. cbn [n_fs n_queue n_busy n_sent n_next] in *.
    assert (invoked (tr ++ [Return j r]) = invoked tr) as Ei' by (rewrite invoked_app; apply app_nil_r).
    pose proof (V5 _ _ Hm) as [Hj Er].
    assert (length p <= k)%nat as Hpk by (rewrite <- V3, Ei, app_length; lia).
    constructor; cbn [n_fs n_queue n_busy n_sent n_next]; rewrite ?Ei'; eauto.
    + intros i r0 X. apply in_app_or in X as [X|[X|[]]]; [eauto|]. injection X as <- <-. lia.
    + intros i r0 X Hk. apply in_app_or in X as [X|[X|[]]]; [eauto|]. injection X as <- <-. left. split; [exact Hj|now left].
  - (* dropped *)
    exists p, ts. destruct V as [V1 V2 V3 (rest & Ei & V4) V5 V6 V7 V8 V9]. cbn [n_fs n_queue n_busy n_sent n_next] in *.
    assert (invoked (tr ++ [Return j Err]) = invoked tr) as Ei' by (rewrite invoked_app; apply app_nil_r).
    constructor; cbn [n_fs n_queue n_busy n_sent n_next]; rewrite ?Ei'; eauto.
    + intros i r0 X. apply in_app_or in X as [X|[X|[]]]; [eauto|]. injection X as <- <-. lia.
    + intros i r0 X Hk. apply in_app_or in X as [X|[X|[]]]; [eauto|]. injection X as <- <-.
      destruct (Nat.lt_ge_cases j (length p)) as [Hl|Hl]; [left|right; repeat split; auto].
      split; [exact Hl|]. right. split; [|reflexivity].
      destruct (V6 j Hl Hm) as [A|A]; [|exact A]. exfalso. apply Hk. rewrite Ei, app_nth1 by exact Hl. exact A.
Qed.
Lemma ninv_run s0 tr n : net_run (net_start s0) tr n -> exists p ts, NInv s0 tr n p ts.
Proof.
  intros H. remember (net_start s0) as n0 eqn:E. induction H as [n0|n0 tr l n n' H IH HS]; subst.
  - exists [], []. apply ninv_start.
  - destruct (IH eq_refl) as (p & ts & V). eapply ninv_step; eassumption.
Qed.

Theorem sync_linear s0 tr n : net_run (net_start s0) tr n ->
  exists ts, length ts = length (invoked tr) /\
  forall k r c, In (Return k r) tr -> nth_error (invoked tr) k = Some c -> c <> KShutdown ->
  exists r', nth_error (fst (fs_run (calls (invoked tr) ts) s0)) k = Some r' /\ seen_as r r'.
Proof.
  intros H. destruct (ninv_run s0 tr n H) as (p & ts & [V1 V2 V3 (rest & Ei & _) V5 V6 V7 V8 V9]).
  exists (ts ++ repeat [] (length rest)). split; [rewrite Ei, !app_length, repeat_length; lia|].
  intros k r c Hr Hc Hs.
  assert (fs_run (calls (invoked tr) (ts ++ repeat [] (length rest))) s0 =
    (fst (fs_run (calls p ts) s0) ++ fst (fs_run (calls rest (repeat [] (length rest))) (n_fs n)),
     snd (fs_run (calls rest (repeat [] (length rest))) (n_fs n)))) as Er.
  { rewrite Ei, calls_app, fs_run_app, V2 by exact V1. reflexivity. }
  rewrite Er. cbn [fst].
  pose proof (run_length (calls p ts) s0) as Lr. rewrite calls_length in Lr by exact V1.
  pose proof (run_length (calls rest (repeat [] (length rest))) (n_fs n)) as Lr2.
  rewrite calls_length in Lr2 by (now rewrite repeat_length).
  assert (nth k (invoked tr) KShutdown = c) as Hn by (now apply nth_error_nth).
  assert (k < length (invoked tr))%nat as Hk by (apply nth_error_Some; congruence).
  rewrite Ei, app_length in Hk.
  eexists. split.
  { apply (nth_error_nth' _ Fuel). rewrite app_length. lia. }
  destruct (V9 k r Hr) as [[A B]|([A B] & -> & D)]; [congruence| |].
  - rewrite app_nth1 by lia. exact B.
  - rewrite app_nth2 by lia. rewrite (down_run rest _ _ D) by (symmetry; apply repeat_length). cbn [fst].
    rewrite nth_repeat_lt by lia. now left.
Qed.

(** Every call can return. *)
Lemma net_run_app n tr n' : net_run n tr n' -> forall tr' n'', net_run n' tr' n'' -> net_run n (tr ++ tr') n''.
Proof.
  intros H tr' n'' H'. induction H' as [|n0 tr0 l n1 n2 _ IH HS]; [now rewrite app_nil_r|].
  rewrite app_assoc. econstructor; [now apply IH|exact HS].
Qed.
Lemma run_one n l n' : net_step n l n' -> net_run n [l] n'.
Proof. intros H. apply (R_snoc n [] l n n'); [constructor|exact H]. Qed.

Lemma finish_busy s q j c m k : exists t n', net_step (Net s q (Some (j, c)) m k) (Finish t) n' /\
  n_queue n' = q /\ n_busy n' = None.
Proof.
  destruct (fs_call c [] s) as [r s'] eqn:E. exists [].
  destruct r as [x| | |]; eexists;
    (split; [first [eapply N_panic; eassumption|eapply N_finish; [eassumption|discriminate]]|split; reflexivity]).
Qed.
Lemma drain q : forall s m k, exists tr n', Forall quiet tr /\ net_run (Net s q None m k) tr n' /\
  n_busy n' = None /\ (n_queue n' = [] \/ fs_up (n_fs n') = false).
Proof.
  induction q as [|[j c] q IH]; intros s m k.
  { eexists [], _. split; [constructor|]. split; [constructor|]. split; [reflexivity|now left]. }
  destruct (fs_up s) eqn:Hup.
  2:{ eexists [], _. split; [constructor|]. split; [constructor|]. split; [reflexivity|now right]. }
  destruct (finish_busy s q j c m k) as (t & [s1 q1 b1 m1 k1] & HS & Hq & Hb). cbn in Hq, Hb. subst q1 b1.
  destruct (IH s1 m1 k1) as (tr & n' & Hf & HR & Hb' & Hq').
  exists ([Begin] ++ [Finish t] ++ tr), n'. split; [repeat constructor; exact Hf|]. split; [|auto].
  eapply net_run_app; [apply run_one, N_begin, Hup|]. eapply net_run_app; [apply run_one, HS|exact HR].
Qed.
Lemma quiet_invoked tr : Forall quiet tr -> invoked tr = [].
Proof. induction 1 as [|[] tr Hq _ IH]; cbn in *; auto; destruct Hq. Qed.

Theorem sync_progress s0 tr n : net_run (net_start s0) tr n ->
  exists tr' n', Forall quiet tr' /\ net_run n tr' n' /\
  forall k c, nth_error (invoked tr) k = Some c -> c <> KShutdown -> exists r, net_step n' (Return k r) n'.
Proof.
  intros H.
  assert (exists tr' n', Forall quiet tr' /\ net_run n tr' n' /\ n_busy n' = None /\ (n_queue n' = [] \/ fs_up (n_fs n') = false))
    as (tr' & n' & Hf & HR & Hb & Hq).
  { destruct n as [s q [[j c]|] m k]; [|apply drain].
    destruct (finish_busy s q j c m k) as (t & [s1 q1 b1 m1 k1] & HS & Hq & Hb). cbn in Hq, Hb. subst q1 b1.
    destruct (drain q s1 m1 k1) as (tr' & n' & Hf & HR & Hb' & Hq').
    exists ([Finish t] ++ tr'), n'. split; [repeat constructor; exact Hf|]. split; [|auto].
    eapply net_run_app; [apply run_one, HS|exact HR]. }
  exists tr', n'. split; [exact Hf|]. split; [exact HR|]. intros k c Hk Hc.
  pose proof (net_run_app _ _ _ H _ _ HR) as HR'. destruct (ninv_run _ _ _ HR') as (p & ts & [V1 V2 V3 (rest & Ei & V4) V5 V6 V7 V8 V9]).
  rewrite invoked_app, (quiet_invoked _ Hf), app_nil_r in *.
  assert (k < length (invoked tr))%nat as Hlt by (apply nth_error_Some; congruence).
  destruct n' as [s q b m kn]. cbn [n_fs n_queue n_busy n_sent n_next] in *. subst b.
  destruct (m k) as [r|] eqn:Em; [exists r; now apply N_return|].
  destruct (fs_up s) eqn:Hup; [|exists Err; apply N_dropped; [exact Hup|lia|exact Em]].
  destruct Hq as [->|Hq]; [|congruence]. destruct V4 as [V4|[V4 _]]; [|congruence].
  destruct rest as [|c' rest]; [|discriminate]. rewrite app_nil_r in Ei. rewrite Ei in *.
  exfalso. destruct (V6 k Hlt Em) as [A|A].
  - apply Hc. rewrite <- A. symmetry. now apply nth_error_nth.
  - assert (forall l s0, In Panic (fst (fs_run (calls p l) s0)) -> length p = length l -> fs_up (snd (fs_run (calls p l) s0)) = false) as Hp.
    { clear. induction p as [|c p IH]; intros [|t ts] s0 HI HL; try discriminate; [destruct HI|].
      cbn [calls fs_run] in *. destruct (fs_call c t s0) as [r s1] eqn:E. specialize (IH ts s1).
      destruct (fs_up s1) eqn:Hu.
      - destruct (fs_run (calls p ts) s1) as [rs s2]. cbn [fst snd] in *. destruct HI as [->|HI].
        + apply panic_down in E. congruence.
        + apply IH; [exact HI|now injection HL].
      - rewrite down_run by (auto; now injection HL). exact Hu. }
    rewrite <- V2 in Hup. rewrite Hp in Hup; [discriminate| |exact V1].
    rewrite <- A. apply nth_In. rewrite run_length, calls_length by exact V1. exact Hlt.
Qed.

Theorem sync_effects tr n : net_run (net_start new_fs) tr n ->
  (forall ts, Forall event_ok (calls (invoked tr) ts) /\ deletes_closed (calls (invoked tr) ts)) ->
  exists ts rs W, length ts = length (invoked tr) /\ fs_effects (calls (invoked tr) ts) rs new_world W /\
  forall k r c, In (Return k r) tr -> nth_error (invoked tr) k = Some c -> c <> KShutdown ->
  exists r', nth_error rs k = Some r' /\ seen_as r r'.
Proof.
  intros H Hok. destruct (sync_linear new_fs tr n H) as (ts & HL & HR). destruct (Hok ts) as [H1 H2].
  destruct (fs_run (calls (invoked tr) ts) new_fs) as [rs s] eqn:E.
  destruct (fs_histories _ _ _ H1 H2 E) as (W & HW). exists ts, rs, W. auto.
Qed.
