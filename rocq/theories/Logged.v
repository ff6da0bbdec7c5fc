(** From strict stores to lawful stores: a store with a log of the writes, which
    answers only reads of logged ids. *)
From Verif Require Import Base BaseLemmas Header Node Combine Iter Api Tree Rep Sim Spec Client Top TopOps MemLemmas
  Store StoreSpec StoreProofs World WorldProofs FailSpec FailProofs.
From Verif Require SimErr.

Fixpoint lfind (l : list (bytes * bytes)) (id : bytes) : res bytes :=
  match l with
  | [] => Err
  | (i, d) :: l => if beq i id then Ok d else lfind l id
  end.
Definition logs (r : res bytes) (d : bytes) : list (bytes * bytes) :=
  match r with Ok id => [(id, d)] | _ => [] end.

Lemma lfind_app l l' id d : lfind l id = Ok d -> lfind (l ++ l') id = Ok d.
Proof. induction l as [|[i x] l IH]; cbn; [discriminate|]. destruct (beq i id); auto. Qed.
Lemma lfind_in l id d : lfind l id = Ok d -> In (id, d) l.
Proof.
  induction l as [|[i x] l IH]; cbn; [discriminate|]. destruct (beq_spec i id) as [->|]; [|auto]. intros [= ->]. now left.
Qed.
Lemma lfind_some l id d : In (id, d) l -> exists d', lfind l id = Ok d'.
Proof.
  induction l as [|[i x] l IH]; cbn; [tauto|]. intros [E|H]; [|destruct (beq i id); eauto].
  injection E as -> ->. rewrite beq_refl. eauto.
Qed.
Lemma lfind_err l id : lfind l id = Err \/ exists d, lfind l id = Ok d.
Proof. induction l as [|[i x] l IH]; cbn; [now left|]. destruct (beq i id); eauto. Qed.

Section Logged.
Context (S : store) (inv : st S -> Prop) (L : lawful S inv).

Definition logged : store := {|
  st := st S * list (bytes * bytes);
  st_read := fun s => lfind (snd s);
  st_write := fun s d =>
    let (r, s') := st_write S (fst s) d in (r, (s', snd s ++ logs r d))
|}.

Definition linv (s : st logged) : Prop :=
  inv (fst s) /\
  Forall (fun e => exists s0 s1 ds, inv s0 /\ st_write S s0 (snd e) = (Ok (fst e), s1) /\ fst s = after S s1 ds) (snd s).

Lemma after_snoc s ds d : after S s (ds ++ [d]) = snd (st_write S (after S s ds) d).
Proof. revert s. induction ds as [|x ds IH]; intros s; cbn; [reflexivity|apply IH]. Qed.

Lemma linv_read s id d : linv s -> In (id, d) (snd s) -> st_read S (fst s) id = Ok d.
Proof.
  intros [_ F] H. rewrite Forall_forall in F. destruct (F _ H) as (s0 & s1 & ds & I0 & E & ->).
  exact (law_read _ _ L _ _ _ _ ds I0 E).
Qed.
Lemma linv_find s id d : linv s -> lfind (snd s) id = Ok d -> st_read S (fst s) id = Ok d.
Proof. intros I H. apply linv_read; [exact I|]. now apply lfind_in. Qed.
Lemma linv_flaky s : linv s -> flaky (st_read logged s) (st_read S (fst s)).
Proof.
  intros I id. cbn. destruct (lfind_err (snd s) id) as [E|[d E]]; [now left|right].
  rewrite E. symmetry. now apply linv_find.
Qed.

Lemma logged_strict : strict logged linv.
Proof.
  split.
  - intros [s l] d r [s' l']. cbn [logged st_write st_read fst snd]. intros I E.
    destruct (st_write S s d) as [r1 s1] eqn:Ew. injection E as <- <- <-.
    destruct (law_write _ _ L _ _ _ _ (proj1 I) Ew) as [I1 H].
    assert (linv (s1, l ++ logs r1 d)) as I2.
    { split; [exact I1|]. cbn [fst snd]. apply Forall_app. split.
      - eapply Forall_impl; [|exact (proj2 I)]. intros e (s0 & s2 & ds & A & B & C). exists s0, s2, (ds ++ [d]).
        split; [exact A|]. split; [exact B|]. cbn [fst] in C. rewrite after_snoc, <- C. now rewrite Ew.
      - destruct r1 as [id| | |]; cbn [logs]; constructor; [|constructor]. exists s, s1, []. cbn [fst snd]. split; [apply I|]. auto. }
    split; [exact I2|]. destruct H as [->|(id & -> & Hl)]; [now left|right]. exists id. split; [reflexivity|]. split; [exact Hl|].
    assert (In (id, d) (l ++ logs (Ok id) d)) as Hi by (apply in_or_app; right; now left).
    destruct (lfind_some _ _ _ Hi) as [d' Ef]. rewrite Ef. f_equal.
    pose proof (linv_find _ _ _ I2 Ef) as E1. pose proof (linv_read _ _ _ I2 Hi) as E2. congruence.
  - intros [s l] d r [s' l'] id x _. cbn [logged st_write st_read fst snd]. destruct (st_write S s d) as [r1 s1].
    intros [= <- <- <-]. apply lfind_app.
  - intros [s l] id x I E. cbn [logged st_read snd] in E. apply lfind_in in E. destruct I as [_ F].
    rewrite Forall_forall in F. destruct (F _ E) as (s0 & s1 & ds & I0 & Ew & _). cbn [fst snd] in Ew.
    destruct (law_write _ _ L _ _ _ _ I0 Ew) as [_ [H|(i & H & Hl)]]; [discriminate|]. injection H as <-. lia.
Qed.

Lemma logged_refuse : may_refuse logged linv -> may_refuse S inv.
Proof.
  intros ([s l] & d & [s' l'] & I & E). cbn [logged st_write fst snd] in E. destruct (st_write S s d) as [r1 s1] eqn:Ew.
  injection E as -> <- <-. exists s, d, s1. split; [apply I|exact Ew].
Qed.
Lemma linv_start s : inv s -> linv (s, []).
Proof. intros I. split; [exact I|constructor]. Qed.

(** The log does not change what is written. *)
Definition fwd {A} (m' : wm (st logged) A) (m : wm (st S) A) : Prop :=
  forall s, m (fst s) = (fst (m' s), fst (snd (m' s))) /\ (linv s -> linv (snd (m' s))).
Lemma fwd_ret {A} (r : res A) : fwd (wret r) (wret r).
Proof. intros s. split; [reflexivity|auto]. Qed.
Lemma fwd_bind {A B} (m' : wm (st logged) A) m (k' : A -> wm (st logged) B) k :
  fwd m' m -> (forall a, fwd (k' a) (k a)) -> fwd (wbind m' k') (wbind m k).
Proof.
  intros H K s. unfold wbind. destruct (H s) as [E I]. rewrite E.
  destruct (m' s) as [[a| | |] s']; cbn [fst snd] in *; auto. destruct (K a s') as [E' I']. split; auto.
Qed.
Lemma fwd_write d : fwd (w_write logged d) (w_write S d).
Proof.
  intros s. split.
  - unfold w_write. cbn [logged st_write fst snd]. now destruct (st_write S (fst s) d).
  - intros I. unfold w_write. destruct (st_write logged s d) as [r s'] eqn:E.
    exact (proj1 (str_write _ _ logged_strict _ _ _ _ I E)).
Qed.
Lemma fwd_blob n b : fwd (ser_blob logged n b) (ser_blob S n b).
Proof.
  unfold ser_blob. destruct (_ || _); [apply fwd_ret|]. apply fwd_bind; [apply fwd_write|]. intros id.
  apply fwd_bind; [apply fwd_ret|]. intros h. apply fwd_ret.
Qed.
Lemma fwd_serialize n : fwd (serialize logged n) (serialize S n).
Proof.
  induction n as [p v cs IH|p v id] using node_ind'; rewrite !serialize_eq;
    (apply fwd_bind; [apply fwd_blob|]; intros pb; apply fwd_bind; [apply fwd_blob|]; intros vb;
     apply fwd_bind; [|intros; apply fwd_ret]); [|apply fwd_ret].
  destruct cs as [|c cs]; cbn [ser_kids]; [apply fwd_ret|].
  apply fwd_bind.
  - generalize (Some 0). induction IH as [|c' l Hc _ IHl]; intros rs; cbn [sers]; [apply fwd_ret|].
    apply fwd_bind; [apply Hc|]. intros b. apply fwd_bind; [apply IHl|]. intros x. apply fwd_ret.
  - intros x. apply fwd_bind; [apply fwd_write|]. intros id. apply fwd_bind; [apply fwd_ret|]. intros h. apply fwd_ret.
Qed.
Lemma fwd_attached t : fwd (t_attached logged t) (t_attached S t).
Proof. apply fwd_bind; [apply fwd_serialize|]. intros b. apply fwd_ret. Qed.
Lemma fwd_reattach t : fwd (t_reattach logged t) (t_reattach S t).
Proof.
  apply fwd_bind; [apply fwd_serialize|]. intros b. apply fwd_bind; [apply fwd_write|]. intros id.
  apply fwd_bind; [apply fwd_ret|]. intros t'. apply fwd_ret.
Qed.

(** Histories. *)
Definition fw (w : world logged) : world S := World (fst (w_st w)) (w_trees w) (w_ids w).
Definition simw {X} (x : res (X * world logged)) (y : res (X * world S)) : Prop :=
  x = Err \/ ((p <- x ;; Ok (fst p, fw (snd p))) = y /\ match x with Ok p => linv (w_st (snd p)) | _ => True end).
Lemma simw_ok {X} (b : X) w w' : linv (w_st w) -> fw w = w' -> simw (Ok (b, w)) (Ok (b, w')).
Proof. intros I <-. now right. Qed.
Lemma simw_bind {X A} (x y : res A) (k : A -> res (X * world logged)) k' :
  SimErr.sim x y -> (forall a, simw (k a) (k' a)) -> simw (bind x k) (bind y k').
Proof. intros [->| ->] H; [now left|]. destruct y; cbn; try (right; now split). apply H. Qed.
Lemma simw_write {A} w w' (m' : wm (st logged) A) m k k' : linv (w_st w) -> w' = fw w -> fwd m' m ->
  (forall a s, fw (k a s) = k' a (fst s) /\ w_st (k a s) = s) ->
  simw (on_write logged w (m' (w_st w)) k) (on_write S w' (m (fst (w_st w))) k').
Proof.
  intros I -> Hf H. destruct (Hf (w_st w)) as [E I']. rewrite E. specialize (I' I).
  destruct (m' (w_st w)) as [[a| | |] s]; cbn [on_write fst snd] in *; try (right; now split).
  destruct (H a s) as [H1 H2]. apply simw_ok; [|exact H1]. now rewrite H2.
Qed.
Lemma simw_tree w w' i k k' : linv (w_st w) -> w' = fw w -> (forall t, simw (k t) (k' t)) ->
  simw (with_tree logged w i k) (with_tree S w' i k').
Proof. intros I -> H. unfold with_tree. cbn [fw w_trees]. destruct (nth_error _ i); [apply H|]. now apply simw_ok. Qed.

Context (dbg : bool).
Lemma exec1_simw w c n : linv (w_st w) -> simw (exec1 dbg logged w c n) (exec1 dbg S (fw w) c n).
Proof.
  intros I. pose proof (linv_flaky _ I) as F. pose proof (flaky_refl mem) as Fm.
  assert (forall (f : nat -> res node) f' (k : node -> world logged) k', SimErr.sim (f n) (f' n) ->
    (forall t, fw (k t) = k' t) -> (forall t, w_st (k t) = w_st w) ->
    simw (t <- f n ;; Ok (true, k t)) (t <- f' n ;; Ok (true, k' t))) as Step.
  { intros f f' k k' H1 H2 H3. apply simw_bind; [exact H1|]. intros t. apply simw_ok; [|apply H2]. now rewrite H3. }
  destruct c; cbn [exec1]; cbn [fw w_st];
    try (apply simw_bind; [apply SimErr.sim_refl|]; intros u);
    try (apply simw_tree; [exact I|reflexivity|]; intros t).
  - now apply simw_ok.
  - eapply simw_write; [exact I|reflexivity|apply fwd_attached|auto].
  - cbn [fw w_ids]. destruct (nth_error (w_ids w) j) as [id|]; [|now apply simw_ok]. apply simw_bind; [|intros; now apply simw_ok].
    unfold t_load. apply SimErr.sim_bind; [apply F|]. intros; apply SimErr.sim_refl.
  - now apply simw_ok.
  - apply Step; auto. unfold t_insert. apply SimErr.outer_combine_with_sim; auto using SimErr.sim_refl; intros; subst; apply SimErr.sim_refl.
  - apply Step; auto. apply SimErr.outer_combine_with_sim; auto using combiner_with_sim, SimErr.sim_refl.
    + intros. now apply SimErr.r_detached_sim.
    + intros. now apply SimErr.detach_conv_sim.
  - apply Step; auto. now apply SimErr.filter_prefix_sim.
  - eapply simw_write; [exact I|reflexivity|apply fwd_reattach|auto].
  - apply (simw_write w (fw w) (w_write logged d) (w_write S d)); [exact I|reflexivity|apply fwd_write|auto].
  - apply Step; auto. unfold t_remove. apply SimErr.left_combine_with_sim; auto using SimErr.sim_refl; intros; subst; apply SimErr.sim_refl.
  - apply Step; auto. unfold t_remove_prefix, t_remove_prefix_with.
    apply SimErr.remove_prefix_with_sim; auto using SimErr.sim_refl; intros; subst; apply SimErr.sim_refl.
  - apply Step; auto. apply SimErr.outer_combine_with_sim; auto using combiner_with_sim, SimErr.sim_refl.
    + intros. now apply SimErr.r_detached_sim.
    + intros. now apply SimErr.detach_conv_sim.
  - apply Step; auto. apply SimErr.inner_combine_with_sim; auto using combiner_with_sim.
  - apply Step; auto. apply SimErr.left_combine_with_sim; auto using combiner_with_sim.
  - apply Step; auto. apply SimErr.remove_prefix_with_sim; auto using selector_sim.
  - apply Step; auto. apply SimErr.retain_prefix_with_sim; auto using selector_sim.
Qed.

Lemma exec_simw h n : forall w, linv (w_st w) -> simw (exec dbg logged w h n) (exec dbg S (fw w) h n).
Proof.
  induction h as [|c h IH]; intros w I; cbn [exec]; [now apply simw_ok|].
  destruct (exec1_simw w c n I) as [->|[<- I']]; [now left|].
  destruct (exec1 dbg logged w c n) as [[b w1]| | |]; cbn [bind fst snd] in *; try (right; now split).
  destruct (IH w1 I') as [->|[<- I2]]; [now left|].
  destruct (exec dbg logged w1 h n) as [[bs w2]| | |]; cbn [bind fst snd] in *; try (right; now split).
Qed.

Lemma exec_logged w h oks w' : linv (w_st w) -> exec dbg logged w h ⇓ Ok (oks, w') ->
  exec dbg S (fw w) h ⇓ Ok (oks, fw w') /\ linv (w_st w').
Proof.
  intros I (_ & n0 & C).
  assert (forall n, n0 <= n -> exec dbg S (fw w) h n = Ok (oks, fw w') /\ linv (w_st w')) as A.
  { intros n Hn. pose proof (exec_simw h n w I) as H. rewrite (C n Hn) in H. destruct H as [H|[<- H]]; [discriminate|]. auto. }
  split; [|exact (proj2 (A n0 (le_n _)))]. split; [discriminate|]. exists n0. intros n Hn. apply A, Hn.
Qed.

Lemma linv_more s id d : linv s -> st_read logged s id = Ok d -> st_read S (fst s) id = Ok d.
Proof. apply linv_find. Qed.

Lemma tok_logged ids s t m : linv s -> tok logged ids s t m -> tok S ids (fst s) t m.
Proof.
  intros I (g & (R & C & E) & H). exists g. split; [|exact H]. repeat split; auto.
  eapply Rep_mono; [|intros X; exact X|exact R]. intros id x. now apply linv_more.
Qed.
Lemma iok_logged ids s id m : linv s -> iok logged ids s id m -> iok S ids (fst s) id m.
Proof.
  intros I (t & E & H). exists t. split; [|now apply tok_logged].
  unfold t_load in *. destruct (st_read logged s id) eqn:Er; try discriminate. now rewrite (linv_more _ _ _ I Er).
Qed.
Lemma wok_logged ids w a : wok logged linv ids w a -> wok S inv ids (fw w) a.
Proof.
  intros (I & T & J). split; [apply I|]. split; (eapply Forall2_imp; [|eassumption]); intros; cbn [fw w_st].
  - now apply tok_logged.
  - now apply iok_logged.
Qed.
End Logged.

(** The main theorem about histories. *)
Theorem history dbg (S : store) inv (L : lawful S inv) (s : st S) h : inv s -> history_ok dbg h ->
  exists oks w, exec dbg S (start s) h ⇓ Ok (oks, w) /\ length oks = length h /\
    (In false oks -> may_refuse S inv) /\
    exists ids, wok S inv ids w (model no_maps h oks).
Proof.
  intros I H.
  destruct (strict_history dbg (logged S) (linv S inv) (logged_strict S inv L) (s, []) h (linv_start S inv s I) H)
    as (oks & w & C & Hl & M & ids & W).
  destruct (exec_logged S inv L dbg (start (S:=logged S) (s, [])) _ _ _ (linv_start S inv s I) C) as [C' _].
  exists oks, (fw S w). split; [exact C'|]. split; [exact Hl|]. split; [intros X; apply (logged_refuse S inv), M, X|].
  exists ids. now apply wok_logged.
Qed.
Lemma exec_short dbg (S : store) inv (L : lawful S inv) (s : st S) h : inv s -> short_history dbg h ->
  exists oks w, exec dbg S (start s) h ⇓ Ok (oks, w) /\ wok S inv false w (model no_maps h oks).
Proof.
  intros I H.
  destruct (exec_ok dbg (logged S) (linv S inv) (logged_strict S inv L) false h (start (S:=logged S) (s, [])) no_maps)
    as (oks & w & C & W & _).
  - split; [exact (linv_start S inv s I)|]. split; constructor.
  - eapply Forall_impl; [|exact H]. intros c [Hc _]. exact Hc.
  - eapply Forall_impl; [|exact H]. intros c [_ Hc]. exact Hc.
  - destruct (exec_logged S inv L dbg (start (S:=logged S) (s, [])) _ _ _ (linv_start S inv s I) C) as [C' _].
    exists oks, (fw S w). split; [exact C'|]. now apply wok_logged.
Qed.

(** Computations that write. *)
Lemma wpost_logged S inv (L : lawful S inv) {A} (m' : wm (st (logged S)) A) m s (Q : A -> st S -> Prop) :
  fwd S inv m' m -> wpost (logged S) (linv S inv) m' (s, []) (fun a s' => linv S inv s' -> Q a (fst s')) ->
  (exists a s', m s = (Ok a, s') /\ inv s' /\ Q a s') \/
  (exists s', m s = (Err, s') /\ inv s' /\ may_refuse S inv).
Proof.
  intros F (r & s' & E & I & _ & H). destruct (F (s, [])) as [E' _]. rewrite E in E'. cbn [fst snd] in E'.
  destruct H as [[-> M]|(a & -> & H)].
  - right. exists (fst s'). split; [exact E'|]. split; [apply I|]. eapply logged_refuse; eauto.
  - left. exists a, (fst s'). split; [exact E'|]. split; [apply I|]. auto.
Qed.

Lemma strict_lawful S inv : strict S inv -> lawful S inv.
Proof.
  intros L. split.
  - intros s d r s' I E. destruct (str_write _ _ L _ _ _ _ I E) as [I' [->|(id & -> & Hl & _)]]; eauto.
  - intros s d id s' ds I E. destruct (str_write _ _ L _ _ _ _ I E) as [I' [X|(i & X & Hl & Hr)]]; [discriminate|].
    injection X as <-. clear E I. revert s' I' Hr. induction ds as [|x ds IH]; intros s' I' Hr; cbn [after]; [exact Hr|].
    destruct (st_write S s' x) as [r2 s2] eqn:E2. apply IH.
    + exact (proj1 (str_write _ _ L _ _ _ _ I' E2)).
    + exact (str_keep _ _ L _ _ _ _ _ _ I' E2 Hr).
Qed.
