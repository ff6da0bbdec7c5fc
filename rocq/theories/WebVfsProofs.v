(** Proofs about SQLite database files. *)
From Verif Require Import FileProofs Base BaseLemmas Header Node Store U64 File Chunk WebFile WebSpec WebFs WebFsSpec WebFsSim WebFsProofs
  WebSyncProofs WebFsStaleSpec WebFsStale WebVfs.
Local Open Scope N_scope.

Lemma effects_app l1 : forall rs1 l2 rs2 W W1 W2, fs_effects l1 rs1 W W1 -> fs_effects l2 rs2 W1 W2 -> fs_effects (l1 ++ l2) (rs1 ++ rs2) W W2.
Proof.
  induction l1 as [|e l1 IH]; intros rs1 l2 rs2 W W1 W2 H1 H2; inversion H1; subst; [exact H2|].
  cbn. econstructor; [eassumption|]. eapply IH; eassumption.
Qed.
Lemma read_result d f a e t r W W' : fs_effect (Call (KRead d f a e) t) r W W' ->
  r = Err \/ e <= f_len (contents W d f) /\ r = Ok (RBytes (f_read (contents W d f) a (N.to_nat (e - a)))).
Proof.
  intros H. inversion H; subst; auto;
    match goal with X : change _ _ _ _ _ |- _ => inversion X end.
Qed.
Lemma length_result d f t r W W' : fs_effect (Call (KLength d f) t) r W W' ->
  r = Err \/ exists n, n <= f_len (contents W d f) /\ r = Ok (RNum n).
Proof.
  intros H. inversion H; subst; eauto; try match goal with X : change _ _ _ _ _ |- _ => inversion X end.
Qed.

Theorem db_read_right l d f start n t1 mid t2 r s' :
  let all := l ++ Call (KLength d f) t1 :: mid in
  Forall event_ok all ->
  db_read d f start n t1 mid t2 (snd (fs_run l new_fs)) = (r, s') ->
  r = Err \/ (r = Panic /\ u64_max <= start + n) \/
  exists W D b, fs_effects_any all (fst (fs_run all new_fs)) (new_world, fun _ => false) (W, D) /\
    r = Ok b /\ N.of_nat (length b) <= n /\ (b <> [] -> start + N.of_nat (length b) <= f_len (contents W d f)) /\
    b = f_read (contents W d f) start (length b).
Proof.
  intros all Hok. assert (all = (l ++ [Call (KLength d f) t1]) ++ mid) as Ea by (unfold all; now rewrite <- app_assoc).
  destruct (fs_run all new_fs) as [rs sE] eqn:Er.
  assert (Forall event_ok (l ++ [Call (KLength d f) t1])) as Hok1 by (rewrite Ea in Hok; now apply Forall_app in Hok as [? _]).
  assert (valid f) as Hf by (apply Forall_app in Hok1 as [_ Hk]; inversion Hk; subst; assumption).
  destruct (any_effects all _ _ rs sE any_new Hok Er) as ([W D] & HE & q & lD & IE & AE & _). cbn [fst snd] in IE, AE.
  cbn [fst].
  assert (rs = fst (fs_run l new_fs) ++ fst (fs_run (Call (KLength d f) t1 :: mid) (snd (fs_run l new_fs))) /\
    sE = snd (fs_run (Call (KLength d f) t1 :: mid) (snd (fs_run l new_fs)))) as [Ers EsE].
  { unfold all in Er. rewrite fs_run_app in Er. split; congruence. }
  set (s0 := snd (fs_run l new_fs)) in *. unfold db_read.
  cbn [fs_run] in Ers, EsE. destruct (fs_call (KLength d f) t1 s0) as [r1 s1] eqn:E1.
  destruct (fs_run mid s1) as [rsm s2] eqn:Em. cbn [fst snd] in *. subst sE.
  assert (r1 = Err \/ exists k, r1 = Ok (RNum k)) as Hr1.
  { pose proof HE as HE'. unfold all in HE'. apply any_app in HE' as (q1 & q2 & W1 & Eq & L1 & _ & HE').
    inversion HE' as [|? ? q0 rq ? W2 ? HL _]; subst.
    assert (q0 = r1) as ->.
    { assert (length (fst (fs_run l new_fs)) = length l) as L2 by apply run_length.
      assert (nth (length l) (fst (fs_run l new_fs) ++ r1 :: rsm) Fuel = nth (length l) (q1 ++ q0 :: rq) Fuel) as En by (now rewrite Eq).
      rewrite !app_nth2 in En by lia. rewrite L1, L2, Nat.sub_diag in En. cbn [nth] in En. congruence. }
    inversion HL as [? ? ? ? ? ? _ HL'| | |]; subst. apply length_result in HL' as [->|(k & _ & ->)]; [now left|right; now exists k]. }
  destruct Hr1 as [->|(cur & ->)]; [intros E; injection E as <- _; now left|].
  destruct (N.ltb_spec (start + n) u64_max) as [Ho|Ho]; [|intros E; injection E as <- _; right; left; auto].
  destruct (fs_call (KRead d f start (N.min cur (start + n))) t2 s2) as [r2 s3] eqn:E2.
  destruct (call_alike D _ _ _ _ _ _ AE E2 ltac:(discriminate)) as (q3 & E3 & _).
  destruct (call_effect q W (KRead d f start (N.min cur (start + n))) t2 r2 q3 IE Hf ltac:(discriminate) E3) as (W' & HR & _).
  apply read_result in HR as [->|(He & ->)]; [intros E; injection E as <- _; now left|].
  set (k := N.to_nat (N.min cur (start + n) - start)) in *.
  rewrite f_read_length, Nat.leb_refl, firstn_all2 by (rewrite f_read_length; lia).
  intros E. injection E as <- _. right. right. exists W, D, (f_read (contents W d f) start k).
  rewrite f_read_length. repeat split; auto.
  - unfold k. lia.
  - intros Hb. unfold k. destruct (N.le_gt_cases start (N.min cur (start + n))) as [A|A]; [lia|].
    exfalso. apply Hb. assert (k = 0%nat) as -> by (unfold k; lia). reflexivity.
Qed.
