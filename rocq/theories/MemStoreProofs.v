(** [MemStore] satisfies the contract of a store. *)
From Verif Require Import Base BaseLemmas Header Node Store StoreSpec StoreProofs Logged U64 MemStore.
From Coq Require Import Sorting.Sorted.

(** Keys ascending and below [2^64]. *)
Definition mem_inv (m : mem_st) : Prop :=
  StronglySorted (fun a b : N * bytes => (fst a < fst b)%N) m /\
  Forall (fun e => (fst e < u64_max)%N) m.

Definition top (m : mem_st) : N := match bt_last m with Some k => k | None => 0%N end.

Lemma bt_last_snoc m k v : bt_last (m ++ [(k, v)]) = Some k.
Proof. unfold bt_last. now rewrite rev_app_distr. Qed.

Lemma snoc_cases (m : mem_st) : m = [] \/ exists m' k v, m = m' ++ [(k, v)].
Proof.
  induction m as [|[k v] m _] using rev_ind; [now left|right]. eauto.
Qed.

Lemma SSorted_app_last m k v : StronglySorted (fun a b : N * bytes => (fst a < fst b)%N) (m ++ [(k, v)]) ->
  Forall (fun e => (fst e < k)%N) m.
Proof.
  induction m as [|e m IH]; cbn; intros H; constructor; inversion H as [|? ? H1 H2]; subst; auto.
  rewrite Forall_app in H2. destruct H2 as [_ H2]. now inversion H2.
Qed.

Lemma top_max m : mem_inv m -> Forall (fun e => (fst e <= top m)%N) m.
Proof.
  intros [H _]. destruct (snoc_cases m) as [->|(m' & k & v & ->)]; [constructor|].
  unfold top. rewrite bt_last_snoc. apply Forall_app. split.
  - eapply Forall_impl; [|eapply SSorted_app_last; exact H]. cbn. intros. lia.
  - constructor; [cbn; lia|constructor].
Qed.

Lemma top_lt m : mem_inv m -> (top m < u64_max)%N.
Proof.
  intros [_ H]. destruct (snoc_cases m) as [->|(m' & k & v & ->)]; [reflexivity|].
  unfold top. rewrite bt_last_snoc. apply Forall_app in H as [_ H]. now inversion H.
Qed.

Lemma bt_insert_top m k d : Forall (fun e => (fst e < k)%N) m -> bt_insert k d m = m ++ [(k, d)].
Proof.
  induction 1 as [|[k' v'] m H _ IH]; cbn; [reflexivity|]. cbn in H.
  replace (k ?= k')%N with Gt; [now rewrite IH|]. symmetry. apply N.compare_gt_iff. exact H.
Qed.

Lemma bt_get_app m k k' v : bt_get k (m ++ [(k', v)]) =
  match bt_get k m with Some x => Some x | None => if N.eqb k k' then Some v else None end.
Proof. induction m as [|[k0 v0] m IH]; cbn; [reflexivity|]. destruct (N.eqb k k0); auto. Qed.

Lemma bt_get_none m k : Forall (fun e => (fst e < k)%N) m -> bt_get k m = None.
Proof.
  induction 1 as [|[k' v'] m H _ IH]; cbn; [reflexivity|]. cbn in H.
  replace (k =? k')%N with false; auto. symmetry. apply N.eqb_neq. lia.
Qed.

Lemma SSorted_snoc m k v : StronglySorted (fun a b : N * bytes => (fst a < fst b)%N) m ->
  Forall (fun e => (fst e < k)%N) m -> StronglySorted (fun a b : N * bytes => (fst a < fst b)%N) (m ++ [(k, v)]).
Proof.
  induction 1 as [|e m H IH F]; cbn; intros G; [constructor; constructor|].
  inversion G; subst. constructor; auto. apply Forall_app. split; auto.
Qed.

Lemma below_top m : mem_inv m -> Forall (fun e => (fst e < top m + 1)%N) m.
Proof. intros H. eapply Forall_impl; [|apply top_max, H]. cbn. intros. lia. Qed.

(** What a write does below the capacity. *)
Lemma mem_write_eq dbg m d : mem_inv m -> (top m + 1 < u64_max)%N ->
  mem_write dbg m d = (Ok (to_be 8 (top m + 1)), m ++ [((top m + 1)%N, d)]) /\
  mem_inv (m ++ [((top m + 1)%N, d)]).
Proof.
  intros H Hc. unfold mem_write. fold (top m).
  replace (top m + 1 =? u64_max)%N with false by (symmetry; apply N.eqb_neq; lia).
  rewrite andb_false_r, N.mod_small by exact Hc.
  rewrite bt_insert_top by (apply below_top, H). split; [reflexivity|].
  destruct H as [Hs Hb]. split.
  - apply SSorted_snoc; [exact Hs|]. apply below_top. split; auto.
  - apply Forall_app. split; auto.
Qed.

Lemma mem_read_own m d : mem_inv m -> (top m + 1 < u64_max)%N ->
  mem_read (m ++ [((top m + 1)%N, d)]) (to_be 8 (top m + 1)) = Ok d.
Proof.
  intros H Hc. unfold mem_read. rewrite to_be_length. cbn [Nat.eqb].
  rewrite of_to_be by (rewrite u64_pow; exact Hc).
  rewrite bt_get_app, bt_get_none by (apply below_top, H). now rewrite N.eqb_refl.
Qed.

Lemma mem_read_keep m k d id x : mem_read m id = Ok x -> mem_read (m ++ [(k, d)]) id = Ok x.
Proof.
  unfold mem_read. destruct (length id =? 8); [|discriminate]. rewrite bt_get_app.
  destruct (bt_get (of_be id) m); [auto|discriminate].
Qed.

Theorem mem_strict : strict mem_store mem_inv.
Proof.
  split.
  - intros m d r m' H. cbn [st_write st_read mem_store]. fold (top m). destruct (top m + 1 =? u64_max)%N eqn:E.
    + intros [= <- <-]. auto.
    + apply N.eqb_neq in E. pose proof (top_lt m H).
      destruct (mem_write_eq false m d H ltac:(lia)) as [-> H']. intros [= <- <-].
      split; [exact H'|]. right. exists (to_be 8 (top m + 1)). split; [reflexivity|].
      rewrite to_be_length. split; [lia|]. apply mem_read_own; auto. lia.
  - intros m d r m' id x H. cbn [st_write st_read mem_store]. fold (top m). destruct (top m + 1 =? u64_max)%N eqn:E.
    + intros [= <- <-]. auto.
    + apply N.eqb_neq in E. pose proof (top_lt m H).
      destruct (mem_write_eq false m d H ltac:(lia)) as [-> _]. intros [= <- <-]. apply mem_read_keep.
  - intros m id x _. cbn [st_read mem_store]. unfold mem_read. destruct (length id =? 8) eqn:E; [|discriminate].
    apply Nat.eqb_eq in E. intros _. lia.
Qed.

Theorem mem_lawful : lawful mem_store mem_inv.
Proof. exact (strict_lawful _ _ mem_strict). Qed.

Lemma mem_inv_empty : mem_inv [].
Proof. split; constructor. Qed.

(** Any sequence of writes: the ids returned, in order, and the final state. *)
Fixpoint mem_writes (dbg : bool) (m : mem_st) (ds : list bytes) : res (list bytes) * mem_st :=
  match ds with
  | [] => (Ok [], m)
  | d :: ds =>
      match mem_write dbg m d with
      | (Ok id, m') =>
          match mem_writes dbg m' ds with
          | (Ok ids, m'') => (Ok (id :: ids), m'')
          | (r, m'') => (r, m'')
          end
      | (Err, m') => (Err, m')
      | (Panic, m') => (Panic, m')
      | (Fuel, m') => (Fuel, m')
      end
  end.

Lemma mem_writes_ok dbg ds : forall m, mem_inv m -> (top m + N.of_nat (length ds) < u64_max)%N ->
  exists ids m', mem_writes dbg m ds = (Ok ids, m') /\ mem_inv m' /\ NoDup ids /\
    (forall id x, mem_read m id = Ok x -> mem_read m' id = Ok x /\ ~ In id ids) /\
    Forall2 (fun id d => mem_read m' id = Ok d) ids ds /\
    (forall id, mem_read m id = Err -> ~ In id ids -> mem_read m' id = Err).
Proof.
  induction ds as [|d ds IH]; intros m H Hc.
  - exists [], m. cbn. repeat split; auto; try apply H. constructor.
  - cbn [mem_writes length] in *. rewrite Nat2N.inj_succ in Hc.
    destruct (mem_write_eq dbg m d H ltac:(lia)) as [-> H'].
    assert (top (m ++ [((top m + 1)%N, d)]) = top m + 1)%N as Et by (unfold top at 1; now rewrite bt_last_snoc).
    destruct (IH _ H' ltac:(rewrite Et; lia)) as (ids & m' & -> & I' & Nd & K & F & Er).
    assert (mem_read (m ++ [((top m + 1)%N, d)]) (to_be 8 (top m + 1)) = Ok d) as Own by (apply mem_read_own; auto; lia).
    exists (to_be 8 (top m + 1) :: ids), m'. split; [reflexivity|]. split; [exact I'|]. split; [|split; [|split]].
    + constructor; [|exact Nd]. apply (K _ _ Own).
    + intros id x Hx. destruct (K id x (mem_read_keep _ _ _ _ _ Hx)) as [K1 K2]. split; [exact K1|].
      intros [<-|Hin]; [|auto]. unfold mem_read in Hx. rewrite to_be_length in Hx. cbn [Nat.eqb] in Hx.
      rewrite of_to_be in Hx by (rewrite u64_pow; lia). rewrite bt_get_none in Hx by (apply below_top, H). discriminate.
    + constructor; [|exact F]. apply K, Own.
    + intros id Hid Hn. apply Er; [|intros Hin; apply Hn; now right].
      unfold mem_read in *. destruct (length id =? 8) eqn:El; [|reflexivity]. rewrite bt_get_app.
      destruct (bt_get (of_be id) m); [discriminate|]. destruct (of_be id =? top m + 1)%N eqn:E; [|reflexivity].
      apply N.eqb_eq in E. apply Nat.eqb_eq in El. destruct Hn. left. rewrite <- E.
      rewrite <- El. apply to_of_be.
Qed.
