(** C29 and C30 in debug builds. *)
From Verif Require Import Base BaseLemmas Header Node Combine Iter Api Tree Rep Sim Spec Client Top TopOps MemLemmas
  Store StoreSpec World StoreLemmas StoreTop GroupSpec PanicSpec PanicProofs.

Lemma just_read_fresh t : just_read t -> fresh t.
Proof.
  intros (data & E). unfold deserialize in E. destruct (read_one data) as [[b [|]]|]; try discriminate.
  unfold b_to_owned in E. destruct (b_children b); try discriminate. injection E as <-. eexists. reflexivity.
Qed.

Lemma strays_ext m m' k : same m m' -> strays m k -> strays m' k.
Proof.
  intros E (q & c & w & x & y & H1 & H2 & H3 & H4 & H5 & H6). exists q, c, w, x, y. rewrite <- !E.
  repeat split; auto; [intros z; rewrite <- E; auto|]. intros H. apply H3.
  destruct H as [H|(c1 & c2 & z1 & z2 & H)]; [left|right; exists c1, c2, z1, z2]; rewrite !E; auto.
Qed.

Section Debug.
Context (S : store) (inv : st S -> Prop) (L : lawful S inv) (dbg : bool) (s : st S) (t : node) (m : kmap).
Context (A : attached_by (short_history dbg) dbg S inv s t m).
Notation rd := (st_read S s).

Lemma build_cases {X} (f : bool -> nat -> res X) (P : Prop) (Q : X -> Prop) : mono (f true) -> 
  (forall n, f true n = f false n \/ P) -> ok_or_panic (f true) Q -> (exists x, f false ⇓ Ok x) ->
  (exists x, f true ⇓ Ok x /\ Q x) \/ (f true ⇓ Panic /\ P).
Proof.
  intros M E [H|H] (x & Hx); [now left|]. right. split; [exact H|].
  destruct H as (_ & n & H), Hx as (_ & n' & Hx). destruct (E (max n n')) as [X1|X1]; [|exact X1].
  rewrite H, Hx in X1 by lia. discriminate.
Qed.

Lemma debug_remove k :
  (exists t', t_remove true rd t k ⇓ Ok t' /\ holds rd t' (m_remove m k)) \/ (t_remove true rd t k ⇓ Panic /\ strays m k).
Proof.
  destruct (short_attached_good dbg S inv L s t m A) as (_ & g & G & E).
  apply (build_cases (fun d => t_remove d rd t k)).
  - apply mono_remove.
  - intros n. destruct G as (R & C & _). destruct (remove1_builds rd n t g k (Data []) R) as [H|H]; [now left|right].
    eapply strays_ext; [exact E|]. now apply Stray_strays.
  - eapply oop_imp; [|exact (p_remove true rd t g G k)]. cbv beta. intros x. apply holds_ext. now apply same_ext_remove.
  - destruct (yields_holds _ _ _ _ (y_remove false false rd t g G eq_refl (fun X => False_ind _ (Bool.diff_false_true X)) k))
      as (t' & X & _). eauto.
Qed.

Lemma debug_remove_prefix k :
  (exists t', t_remove_prefix true rd t k ⇓ Ok t' /\ holds rd t' (m_remove_prefix m k)) \/
  (t_remove_prefix true rd t k ⇓ Panic /\ strays m k).
Proof.
  destruct (short_attached_good dbg S inv L s t m A) as (_ & g & G & E).
  apply (build_cases (fun d => t_remove_prefix d rd t k)).
  - intros a b Lab. apply remove_prefix_with_sim; auto using rsim_refl, sim_refl.
  - intros n. destruct G as (R & C & _). destruct (removep_builds rd n t g k [] R) as [H|H]; [now left|right].
    eapply strays_ext; [exact E|]. now apply Stray_strays.
  - eapply oop_imp; [|exact (p_remove_prefix true rd t g G k)]. cbv beta. intros x. apply holds_ext. now apply same_ext_remove_prefix.
  - destruct (yields_holds _ _ _ _ (y_remove_prefix false false rd t g k G eq_refl (fun X => False_ind _ (Bool.diff_false_true X))))
      as (t' & X & _). eauto.
Qed.

Lemma debug_strays k : just_read t -> strays m k -> t_remove true rd t k ⇓ Panic /\ t_remove_prefix true rd t k ⇓ Panic.
Proof.
  intros J H. destruct (short_attached_good dbg S inv L s t m A) as (_ & g & (R & C & _) & E).
  assert (Stray g k) as HS. { apply strays_Stray; auto. eapply strays_ext; [|exact H]. intros x. symmetry. apply E. }
  apply just_read_fresh in J. split.
  - apply (conv_mono_panic _ (Datatypes.S (size g))); [apply mono_remove|].
    apply (remove1_panics rd g k HS); auto.
  - apply (conv_mono_panic _ (Datatypes.S (size g))).
    + intros a b Lab. apply remove_prefix_with_sim; auto using rsim_refl, sim_refl.
    + apply (removep_panics rd g k HS); auto.
Qed.
End Debug.

(** Keys that are there, and prefixes of such keys, never stray. *)
Lemma present_not_strays m k z : m (k ++ z) <> None -> ~ strays m k.
Proof.
  intros H (q & c & w & x & y & -> & Hn & _). rewrite <- app_assoc in H. cbn [app] in H. now rewrite Hn in H.
Qed.

Section Debug2.
Context (S : store) (inv : st S -> Prop) (s : st S) (t : node) (m : kmap) (k : bytes).
Notation rd := (st_read S s).
Lemma remove_debug : lawful S inv -> attached_by (short_history true) true S inv s t m -> ~ strays m k ->
  exists t', t_remove true rd t k ⇓ Ok t' /\ holds rd t' (m_remove m k).
Proof. intros L A N. destruct (debug_remove S inv L true s t m A k) as [H|[_ H]]; [exact H|now destruct N]. Qed.
Lemma remove_prefix_debug : lawful S inv -> attached_by (short_history true) true S inv s t m -> ~ strays m k ->
  exists t', t_remove_prefix true rd t k ⇓ Ok t' /\ holds rd t' (m_remove_prefix m k).
Proof. intros L A N. destruct (debug_remove_prefix S inv L true s t m A k) as [H|[_ H]]; [exact H|now destruct N]. Qed.
Lemma remove_debug_exact : lawful S inv -> attached_by (short_history true) true S inv s t m -> just_read t ->
  (t_remove true rd t k ⇓ Panic <-> strays m k).
Proof.
  intros L A J. split; [|intros H; now apply (debug_strays S inv L true s t m A k J H)].
  intros H. destruct (debug_remove S inv L true s t m A k) as [(x & X & _)|[_ Y]]; [|exact Y].
  pose proof (conv_unique _ _ _ H X). discriminate.
Qed.
Lemma remove_prefix_debug_exact : lawful S inv -> attached_by (short_history true) true S inv s t m -> just_read t ->
  (t_remove_prefix true rd t k ⇓ Panic <-> strays m k).
Proof.
  intros L A J. split; [|intros H; now apply (debug_strays S inv L true s t m A k J H)].
  intros H. destruct (debug_remove_prefix S inv L true s t m A k) as [(x & X & _)|[_ Y]]; [|exact Y].
  pose proof (conv_unique _ _ _ H X). discriminate.
Qed.
End Debug2.
