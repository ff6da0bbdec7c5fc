(** Concrete attached trees used by the examples and counterexamples. *)
From Verif Require Import MemExamples Base BaseLemmas Header Node Combine Iter Api Tree Rep Sim Spec Client Top TopOps MemLemmas
  Store StoreSpec StoreProofs World WorldProofs U64 MemStore MemStoreProofs StoreLemmas.

Lemma mono_with_tree S w i f : (forall t, mono (fun n => f t n)) -> mono (fun n => with_tree S w i (fun t => f t n)).
Proof. intros H. unfold with_tree. destruct (nth_error _ _); [apply H|apply mono_const]. Qed.
Lemma mono_then {A B} (f : nat -> res A) (k : A -> res B) : mono f -> mono (fun n => x <- f n ;; k x).
Proof. intros H. apply mono_bind; auto. intros; apply mono_const. Qed.

Lemma exec1_mono dbg S w c : mono (exec1 dbg S w c).
Proof.
  destruct c; unfold exec1; try apply mono_const;
    try (apply mono_bind; [apply run_mono|intros u]); try apply mono_const;
    try (destruct (nth_error _ _); apply mono_const);
    try (apply mono_with_tree; intros t); try apply mono_const; try apply mono_then.
  all: intros a b L'; 
    first [apply outer_combine_with_sim|apply left_combine_with_sim|apply inner_combine_with_sim|apply remove_prefix_with_sim
      |apply retain_prefix_with_sim|apply filter_prefix_sim|idtac]; auto using rsim_refl, sim_refl;
    try (intros; apply r_detached_sim; auto using rsim_refl);
    try (intros; apply detach_conv_sim; auto using rsim_refl).
Qed.

Lemma exec_mono dbg S h : forall w, mono (exec dbg S w h).
Proof.
  induction h as [|c h IH]; intros w; cbn [exec]; [apply mono_const|].
  apply mono_bind; [apply exec1_mono|]. intros x. apply mono_bind; [apply IH|]. intros; apply mono_const.
Qed.

Lemma attached_eval (P : list cmd -> Prop) dbg S (inv : st S -> Prop) s0 h n oks w i t m : inv s0 -> P h ->
  exec dbg S (start s0) h n = Ok (oks, w) -> nth_error (w_trees w) i = Some t ->
  nth_error (m_trees (model no_maps h oks)) i = Some m -> attached_by P dbg S inv (w_st w) t m.
Proof.
  intros I0 HP E Ht Hm. exists s0, h, oks, w, i. repeat split; auto; try discriminate. eapply conv_mono; [apply exec_mono|exact E].
Qed.

(** Runs of histories that start with an empty [MemStore]. *)
Definition ex_exec (dbg : bool) (h : list cmd) : list bool * world mem_store :=
  match exec dbg mem_store (start (S:=mem_store) []) h 400 with Ok x => x | _ => ([], start (S:=mem_store) []) end.
Definition ex_state (dbg : bool) (h : list cmd) : mem_st := w_st (snd (ex_exec dbg h)).
Definition ex_tree (dbg : bool) (h : list cmd) (i : nat) : node := nth i (w_trees (snd (ex_exec dbg h))) n_empty.
Definition ex_map (dbg : bool) (h : list cmd) (i : nat) : kmap :=
  nth i (m_trees (model no_maps h (fst (ex_exec dbg h)))) m_empty.
Definition ex_id (dbg : bool) (h : list cmd) (j : nat) : bytes := nth j (w_ids (snd (ex_exec dbg h))) [].
Definition ex_saved (dbg : bool) (h : list cmd) (i : nat) : kmap :=
  nth i (m_saved (model no_maps h (fst (ex_exec dbg h)))) m_empty.

(** A history with every kind of extending command, a long key and a long value. *)
Definition long (n : nat) (c : byte) : bytes := repeat c n.
Definition ex_hist : list cmd :=
  [CAttach ex_p; CInsert 0 (B"abx") (long 200 x01); CReattach 0; CInsert 0 (B"k" ++ long 150 x02) (B"v");
   CReattach 0; CWrite (B"other"); CLoad 0; CMerge 1 (fun x y => x ++ y) ex_q; CReattach 1;
   CFilterPrefix 0 (B"ab") (B"q")].
Lemma ex_hist_ok dbg : history_ok dbg ex_hist.
Proof. left. unfold ex_hist. repeat (apply Forall_cons; [cbn; try tauto; left; discriminate|]). apply Forall_nil. Qed.

Definition ex_s : mem_st := Eval vm_compute in ex_state true ex_hist.
Definition ex_a : node := Eval vm_compute in ex_tree true ex_hist 0.
Definition ex_am : kmap := ex_map true ex_hist 0.
Lemma ex_attached : attached true mem_store mem_inv ex_s ex_a ex_am.
Proof.
  assert (exec true mem_store (start (S:=mem_store) []) ex_hist 400 = Ok (ex_exec true ex_hist)) as E by (vm_compute; reflexivity).
  apply (attached_eval (history_ok true) true mem_store mem_inv [] ex_hist 400 (fst (ex_exec true ex_hist)) (snd (ex_exec true ex_hist)) 0).
  - exact mem_inv_empty.
  - exact (ex_hist_ok true).
  - now rewrite <- surjective_pairing.
  - vm_compute. reflexivity.
  - reflexivity.
Qed.
Lemma ex_inv : mem_inv ex_s.
Proof. exact (proj1 (attached_inv true mem_store mem_inv mem_lawful _ _ _ _ (fun h H => H) ex_attached)). Qed.

Definition ex_saved_id : bytes := Eval vm_compute in ex_id true ex_hist 0.
Definition ex_saved_map : kmap := ex_saved true ex_hist 0.
Lemma ex_saved_ok : saved true mem_store mem_inv ex_s ex_saved_id ex_saved_map.
Proof.
  assert (exec true mem_store (start (S:=mem_store) []) ex_hist 400 = Ok (ex_exec true ex_hist)) as E by (vm_compute; reflexivity).
  exists [], ex_hist, (fst (ex_exec true ex_hist)), (snd (ex_exec true ex_hist)), 0.
  split; [exact mem_inv_empty|]. split; [exact (ex_hist_ok true)|]. split.
  - eapply conv_mono; [apply exec_mono|]. rewrite <- surjective_pairing. exact E.
  - split; [vm_compute; reflexivity|]. split; [vm_compute; reflexivity|reflexivity].
Qed.

(** A tree with short keys, attached by one call. *)
Lemma ex_attach1 (P : list cmd -> Prop) dbg p : P [CAttach p] ->
  exec dbg mem_store (start (S:=mem_store) []) [CAttach p] 400 = Ok (ex_exec dbg [CAttach p]) ->
  nth_error (w_trees (snd (ex_exec dbg [CAttach p]))) 0 = Some (ex_tree dbg [CAttach p] 0) ->
  fst (ex_exec dbg [CAttach p]) = [true] ->
  attached_by P dbg mem_store mem_inv (ex_state dbg [CAttach p]) (ex_tree dbg [CAttach p] 0) (meaning p).
Proof.
  intros HP E Ht Ho.
  apply (attached_eval P dbg mem_store mem_inv [] [CAttach p] 400 (fst (ex_exec dbg [CAttach p])) (snd (ex_exec dbg [CAttach p])) 0); auto.
  - exact mem_inv_empty.
  - now rewrite <- surjective_pairing.
  - rewrite Ho. reflexivity.
Qed.
Lemma short_attach dbg p : allowed p -> short_keys (meaning p) -> short_history dbg [CAttach p].
Proof. intros A H. constructor; [|constructor]. split; [now split|]. intros _ X; exact X. Qed.
Lemma short_ok dbg h : short_history dbg h -> history_ok dbg h.
Proof. intros H. right. exact H. Qed.

Definition p_abc : prog := PCollect [(B"a", B"1"); (B"ab", B"1"); (B"ac", B"2")].
Lemma p_abc_short : short_keys (meaning p_abc).
Proof.
  intros k. cbn. unfold m_of_list. cbn [fold_left fst snd]. unfold m_insert, m_empty, short.
  repeat match goal with |- context [beq k ?x] => destruct (beq_spec k x); [subst; cbn; intros _; lia|] end. congruence.
Qed.
Definition abc_s : mem_st := Eval vm_compute in ex_state true [CAttach p_abc].
Definition abc_t : node := Eval vm_compute in ex_tree true [CAttach p_abc] 0.
Lemma abc_attached dbg : attached_by (short_history dbg) dbg mem_store mem_inv abc_s abc_t (meaning p_abc).
Proof.
  pose proof (ex_attach1 (short_history dbg) dbg p_abc (short_attach dbg p_abc Logic.I p_abc_short)) as H.
  destruct dbg; apply H; vm_compute; reflexivity.
Qed.
Lemma abc_attached' dbg : attached dbg mem_store mem_inv abc_s abc_t (meaning p_abc).
Proof.
  destruct (abc_attached dbg) as (s0 & h & oks & w & i & H & P & R). exists s0, h, oks, w, i.
  split; [exact H|]. split; [now apply short_ok|exact R].
Qed.

(** Debug builds: removing a key that is not there panics. *)
Lemma remove_debug_bad : exists s t m k, attached true mem_store mem_inv s t m /\ m k = None /\
  t_remove true (mem_read s) t k ⇓ Panic.
Proof.
  exists abc_s, abc_t, (meaning p_abc), (B"b"). split; [apply abc_attached'|]. split; [reflexivity|].
  apply (conv_mono_panic _ 50); [apply mono_remove|vm_compute; reflexivity].
Qed.
Lemma remove_prefix_debug_bad : exists s t m k, attached true mem_store mem_inv s t m /\
  t_remove_prefix true (mem_read s) t k ⇓ Panic.
Proof.
  exists abc_s, abc_t, (meaning p_abc), (B"b"). split; [apply abc_attached'|].
  apply (conv_mono_panic _ 50); [apply mono_remove_prefix_with|vm_compute; reflexivity].
Qed.

(** Release builds: removing changes another key, when keys are long. *)
Definition p_long : prog :=
  PCollect [(B"x" ++ long 130 x61 ++ B"1", B"1"); (B"x" ++ long 130 x61 ++ B"2", B"2"); (B"y", B"3")].
Definition long_s : mem_st := Eval vm_compute in ex_state false [CAttach p_long].
Definition long_t : node := Eval vm_compute in ex_tree false [CAttach p_long] 0.
Lemma long_attached : attached false mem_store mem_inv long_s long_t (meaning p_long).
Proof.
  apply (ex_attach1 (history_ok false) false p_long); try (vm_compute; reflexivity).
  left. constructor; [exact Logic.I|constructor].
Qed.
Definition long_t' : node := Eval vm_compute in
  match t_remove false (mem_read long_s) long_t (B"y") 400 with Ok t => t | _ => n_empty end.

Lemma remove_release_bad : exists s t m k t', attached false mem_store mem_inv s t m /\
  t_remove false (mem_read s) t k ⇓ Ok t' /\ ~ holds (mem_read s) t' (m_remove m k).
Proof.
  exists long_s, long_t, (meaning p_long), (B"y"), long_t'. split; [exact long_attached|]. split.
  - eapply conv_mono; [apply mono_remove|]. instantiate (1 := 400). vm_compute. reflexivity.
  - intros H. destruct (H (B"x" ++ long 130 x61 ++ B"1")) as (_ & n0 & E).
    assert (get_bytes (mem_read long_s) long_t' (B"x" ++ long 130 x61 ++ B"1") ⇓ Ok None) as C.
    { apply conv_bind with (f := t_get (mem_read long_s) long_t' (B"x" ++ long 130 x61 ++ B"1"))
        (g := fun o _ => load_opt (mem_read long_s) o) (x := None).
      - eapply conv_mono; [intros a b Lab; apply get_sim; auto using rsim_refl, sim_refl|].
        instantiate (1 := 400). vm_compute. reflexivity.
      - apply conv_const. discriminate. }
    pose proof (conv_unique _ _ _ (H _) C) as X. vm_compute in X. discriminate.
Qed.
Lemma remove_prefix_release_bad : exists s t m k t', attached false mem_store mem_inv s t m /\
  t_remove_prefix false (mem_read s) t k ⇓ Ok t' /\ ~ holds (mem_read s) t' (m_remove_prefix m k).
Proof.
  exists long_s, long_t, (meaning p_long), (B"y"), long_t'. split; [exact long_attached|]. split.
  - eapply conv_mono; [apply mono_remove_prefix_with|]. instantiate (1 := 400). vm_compute. reflexivity.
  - intros H.
    assert (get_bytes (mem_read long_s) long_t' (B"x" ++ long 130 x61 ++ B"1") ⇓ Ok None) as C.
    { apply conv_bind with (f := t_get (mem_read long_s) long_t' (B"x" ++ long 130 x61 ++ B"1"))
        (g := fun o _ => load_opt (mem_read long_s) o) (x := None).
      - eapply conv_mono; [intros a b Lab; apply get_sim; auto using rsim_refl, sim_refl|].
        instantiate (1 := 400). vm_compute. reflexivity.
      - apply conv_const. discriminate. }
    pose proof (conv_unique _ _ _ (H _) C) as X. vm_compute in X. discriminate.
Qed.

(** Combining: the calls that reach a [todo!()]. *)
Definition keep (x y : bytes) : option bytes := Some x.
Lemma combine_bad : exists s t m u mu, attached false mem_store mem_inv s t m /\ reachable false u /\
  holds detached_read u mu /\
  t_outer_combine false (mem_read s) detached_read t u (combiner (mem_read s) detached_read keep) ⇓ Panic /\
  t_left_combine false (mem_read s) detached_read t u (combiner (mem_read s) detached_read keep) ⇓ Panic.
Proof.
  exists abc_s, abc_t, (meaning p_abc), (n_single (B"a") (B"1")), (m_insert m_empty (B"a") (B"1")).
  split; [apply abc_attached'|]. split; [apply (reachable_eval false (PSingle (B"a") (B"1")) 1); [exact Logic.I|reflexivity]|].
  split; [apply holds_single|]. split.
  - apply (conv_mono_panic _ 50); [|vm_compute; reflexivity].
    intros a b L'. apply outer_combine_sim; auto using rsim_refl, sim_refl.
  - apply (conv_mono_panic _ 50); [|vm_compute; reflexivity].
    intros a b L'. apply left_combine_sim; auto using rsim_refl, sim_refl.
Qed.
Definition p_acx : prog := PCollect [(B"a", B"1"); (B"ab", B"1"); (B"ac", B"2"); (B"acxyz", B"2"); (B"acxyw", B"2")].
Definition q_acx : prog := PCollect [(B"acx", B"1"); (B"ac", B"3")].
Definition acx_s : mem_st := Eval vm_compute in ex_state false [CAttach p_acx].
Definition acx_t : node := Eval vm_compute in ex_tree false [CAttach p_acx] 0.
Definition acx_u : node := Eval vm_compute in match run false q_acx 50 with Ok t => t | _ => n_empty end.
Lemma acx_attached : attached false mem_store mem_inv acx_s acx_t (meaning p_acx).
Proof.
  apply (ex_attach1 (history_ok false) false p_acx); try (vm_compute; reflexivity).
  left. constructor; [exact Logic.I|constructor].
Qed.
Lemma acx_reach : reachable false acx_u.
Proof. apply (reachable_eval false q_acx 50); [exact Logic.I|vm_compute; reflexivity]. Qed.
Lemma acx_holds : holds detached_read acx_u (meaning q_acx).
Proof. apply (holds_eval false q_acx 50); [exact Logic.I|vm_compute; reflexivity]. Qed.
Lemma inner_bad : exists s t m u mu, attached false mem_store mem_inv s t m /\ reachable false u /\
  holds detached_read u mu /\
  t_inner_combine false (mem_read s) detached_read t u (combiner (mem_read s) detached_read keep) ⇓ Panic /\
  t_inner_combine_pred (mem_read s) detached_read t u (predicate (mem_read s) detached_read (fun _ _ => false)) ⇓ Panic.
Proof.
  exists acx_s, acx_t, (meaning p_acx), acx_u, (meaning q_acx).
  split; [exact acx_attached|]. split; [exact acx_reach|]. split; [exact acx_holds|]. split.
  - apply (conv_mono_panic _ 50); [|vm_compute; reflexivity].
    intros a b L'. apply inner_combine_sim; auto using rsim_refl, sim_refl.
  - apply (conv_mono_panic _ 50); [|vm_compute; reflexivity].
    intros a b L'. apply inner_combine_pred_sim; auto using rsim_refl, sim_refl.
Qed.
Definition p_xcd : prog := PCollect [(B"xcd", B"1"); (B"y", B"2")].
Definition q_xcd : prog := PCollect [(B"xc", B"1"); (B"xcd", B"3"); (B"y", B"4")].
Definition xcd_s : mem_st := Eval vm_compute in ex_state false [CAttach p_xcd].
Definition xcd_t : node := Eval vm_compute in ex_tree false [CAttach p_xcd] 0.
Definition xcd_u : node := Eval vm_compute in match run false q_xcd 50 with Ok t => t | _ => n_empty end.
Lemma xcd_attached : attached false mem_store mem_inv xcd_s xcd_t (meaning p_xcd).
Proof.
  apply (ex_attach1 (history_ok false) false p_xcd); try (vm_compute; reflexivity).
  left. constructor; [exact Logic.I|constructor].
Qed.
Lemma left_pred_bad : exists s t m u mu, attached false mem_store mem_inv s t m /\ reachable false u /\
  holds detached_read u mu /\
  t_left_combine_pred (mem_read s) detached_read t u (predicate (mem_read s) detached_read (fun _ _ => false)) ⇓ Panic.
Proof.
  exists xcd_s, xcd_t, (meaning p_xcd), xcd_u, (meaning q_xcd).
  split; [exact xcd_attached|]. split; [apply (reachable_eval false q_xcd 50); [exact Logic.I|vm_compute; reflexivity]|].
  split; [apply (holds_eval false q_xcd 50); [exact Logic.I|vm_compute; reflexivity]|].
  apply (conv_mono_panic _ 50); [|vm_compute; reflexivity].
  intros a b L'. apply left_combine_pred_sim; auto using rsim_refl, sim_refl.
Qed.

Lemma ex_hist_extending : Forall extending ex_hist.
Proof. unfold ex_hist. repeat (apply Forall_cons; [cbn; try tauto; left; discriminate|]). apply Forall_nil. Qed.
Lemma abc_inv : mem_inv abc_s.
Proof. exact (proj1 (attached_inv true mem_store mem_inv mem_lawful _ _ _ _ (fun h H => H) (abc_attached' true))). Qed.

(** Malformed blobs. *)
Definition one_blob (d : bytes) : mem_st := [(1%N, d)].
Lemma one_blob_inv d : mem_inv (one_blob d).
Proof. split; repeat constructor. Qed.
Lemma load_bad : exists s id data, mem_inv s /\ mem_read s id = Ok data /\ t_load mem_store s (Some id) = Panic.
Proof.
  exists (one_blob [x00; x80; x00]), (to_be 8 1), [x00; x80; x00]. split; [apply one_blob_inv|]. split; vm_compute; reflexivity.
Qed.
Lemma load_bad_later : exists s id t, mem_inv s /\ t_load mem_store s (Some id) = Ok t /\
  forall k, t_get (mem_read s) t k ⇓ Panic.
Proof.
  exists (one_blob [x80; x80; x80]), (to_be 8 1), (Node (Id []) (Id []) (KId [])). split; [apply one_blob_inv|].
  split; [vm_compute; reflexivity|]. intros k.
  apply (conv_mono_panic _ 1); [intros a b Lab; apply get_sim; auto using rsim_refl, sim_refl|]. reflexivity.
Qed.
