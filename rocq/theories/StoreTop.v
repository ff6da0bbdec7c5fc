(** The theorems about attached trees, in the form in which they are stated. *)
From Verif Require Import Base BaseLemmas Header Node Combine Iter Api Tree Rep JoinBase JoinProofs Canon Sim Spec Client Top TopOps
  MemLemmas Store StoreSpec StoreProofs World WorldProofs Logged StoreLemmas Format FormatProofs DecodeProofs FailSpec FailProofs.

Section Reads.
Context (dbg : bool) (S : store) (inv : st S -> Prop) (L : lawful S inv).
Context (s : st S) (t : node) (m : kmap) (A : attached dbg S inv s t m).
Notation rd := (st_read S s).

Lemma at_good : exists ids g, good ids rd t g /\ holds rd t m.
Proof.
  destruct (attached_good dbg S inv L s t m A) as (_ & ids & g & G & _). exists ids, g. split; [exact G|].
  exact (attached_holds dbg S inv L s t m A).
Qed.
Lemma at_contains k : exists b, t_contains_key rd t k ⇓ Ok b /\ (b = true <-> m k <> None).
Proof.
  destruct at_good as (ids & g & (R & C & _) & H). eexists. split; [exact (g_contains ids rd t g m R C H k)|].
  destruct (m k); split; congruence.
Qed.
Lemma at_has_prefix p : (p <> [] \/ exists k, m k <> None) ->
  exists b, t_has_prefix rd t p ⇓ Ok b /\ (b = true <-> exists k, m k <> None /\ starts_with p k = true).
Proof. destruct at_good as (ids & g & (R & C & _) & H). exact (g_has_prefix ids rd t g m R C H p). Qed.
Lemma at_iter : exists l, iter_bytes rd t ⇓ Ok l /\ lists l m.
Proof. destruct at_good as (ids & g & (R & C & _) & H). exact (g_iter ids rd t g m R C H). Qed.
Lemma at_values : exists l, lists l m /\ values_bytes rd t ⇓ Ok (map snd l).
Proof. destruct at_good as (ids & g & (R & C & _) & H). exact (g_values ids rd t g m R C H). Qed.
Lemma at_scan p : (p = [] \/ (m p = None /\ forall c1 c2 z1 z2, m (p ++ c1 :: z1) <> None ->
    m (p ++ c2 :: z2) <> None -> c1 = c2)) ->
  exists l, scan_bytes rd t p ⇓ Ok l /\ lists_where (fun k => starts_with p k = true) l m.
Proof. destruct at_good as (ids & g & (R & C & _) & H). exact (g_scan ids rd t g m R C H p). Qed.
Lemma at_first_last p : exists l, lists l m /\
  first_entry_bytes rd t p ⇓ Ok (option_map (fun e => (p ++ fst e, snd e)) (first_of l)) /\
  last_entry_bytes rd t p ⇓ Ok (option_map (fun e => (p ++ fst e, snd e)) (last_of l)) /\
  first_value_bytes rd t ⇓ Ok (option_map snd (first_of l)) /\
  last_value_bytes rd t ⇓ Ok (option_map snd (last_of l)).
Proof. destruct at_good as (ids & g & (R & C & _) & H). exact (g_first_last ids rd t g m R C H p). Qed.
Lemma at_group_by d : (forall path r, exists b, d path r = Ok b) ->
  exists ts ls, t_group_by rd t d ⇓ Ok ts /\
    Forall2 (fun u l => exists mu, holds rd u mu /\ lists l mu) ts ls /\ lists (concat ls) m.
Proof. destruct at_good as (ids & g & (R & C & _) & H). exact (g_group_by ids rd t g m R C H d). Qed.
Lemma at_filter p s' : (p <> [] \/ s' = [] \/ exists x, m x <> None) ->
  exists t', t_filter_prefix rd t p s' ⇓ Ok t' /\ holds rd t' (m_filter_prefix m p s').
Proof.
  intros Hp. destruct at_good as (ids & g & (R & C & E) & H).
  destruct (g_filter_prefix ids rd t g m R C H p s' Hp E) as (t' & g' & X & _ & Y). eauto.
Qed.
Lemma at_insert k v : exists t', t_insert dbg rd t k v ⇓ Ok t' /\ holds rd t' (m_insert m k v).
Proof.
  destruct at_good as (ids & g & G & H).
  destruct (yields_holds _ _ _ _ (y_insert dbg ids rd t g G k v)) as (t' & X & Y). exists t'. split; [exact X|].
  eapply holds_ext; [|exact Y]. intros x. unfold m_insert. destruct (beq x k); [reflexivity|].
  symmetry. apply (holds_lookup ids rd t g m); auto; apply G.
Qed.
Lemma at_detached : exists u, t_detached rd t ⇓ Ok u /\ holds mem u m.
Proof.
  destruct at_good as (ids & g & G & H). destruct (detach_good ids rd t g G) as (u & X & Y). exists u. split; [exact X|].
  eapply holds_ext; [|apply (good_holds false mem u g); [exact Y|apply G]].
  intros x. symmetry. apply (holds_lookup ids rd t g m); auto; apply G.
Qed.
End Reads.

Section Removes.
Context (S : store) (inv : st S -> Prop) (L : lawful S inv).

Lemma same_ext_remove a b k : same a b -> same (m_remove a k) (m_remove b k).
Proof. intros H x. unfold m_remove. destruct (beq x k); auto. Qed.
Lemma same_ext_remove_prefix a b k : same a b -> same (m_remove_prefix a k) (m_remove_prefix b k).
Proof. intros H x. unfold m_remove_prefix. destruct (starts_with k x); auto. Qed.

Lemma at_remove s t m k : attached_by (short_history false) false S inv s t m ->
  exists t', t_remove false (st_read S s) t k ⇓ Ok t' /\ holds (st_read S s) t' (m_remove m k).
Proof.
  intros A. destruct (short_attached_good false S inv L s t m A) as (_ & g & G & E).
  destruct (yields_holds _ _ _ _ (y_remove false false (st_read S s) t g G eq_refl (fun X => False_ind _ (Bool.diff_false_true X)) k))
    as (t' & X & Y).
  exists t'. split; [exact X|]. eapply holds_ext; [|exact Y]. now apply same_ext_remove.
Qed.
Lemma at_remove_prefix s t m k : attached_by (short_history false) false S inv s t m ->
  exists t', t_remove_prefix false (st_read S s) t k ⇓ Ok t' /\ holds (st_read S s) t' (m_remove_prefix m k).
Proof.
  intros A. destruct (short_attached_good false S inv L s t m A) as (_ & g & G & E).
  destruct (yields_holds _ _ _ _ (y_remove_prefix false false (st_read S s) t g k G eq_refl (fun X => False_ind _ (Bool.diff_false_true X))))
    as (t' & X & Y).
  exists t'. split; [exact X|]. eapply holds_ext; [|exact Y]. now apply same_ext_remove_prefix.
Qed.
Lemma oop_imp {B} (f : nat -> res B) (P Q : B -> Prop) : (forall x, P x -> Q x) -> ok_or_panic f P -> ok_or_panic f Q.
Proof. intros H [(x & C & Hx)|C]; [left; eauto|now right]. Qed.
Lemma at_remove_any dbg s t m k : attached_by (short_history dbg) dbg S inv s t m ->
  ok_or_panic (t_remove dbg (st_read S s) t k) (fun t' => holds (st_read S s) t' (m_remove m k)).
Proof.
  intros A. destruct (short_attached_good dbg S inv L s t m A) as (_ & g & G & E).
  eapply oop_imp; [|exact (p_remove dbg (st_read S s) t g G k)]. cbv beta. intros x. apply holds_ext. now apply same_ext_remove.
Qed.
Lemma at_remove_prefix_any dbg s t m k : attached_by (short_history dbg) dbg S inv s t m ->
  ok_or_panic (t_remove_prefix dbg (st_read S s) t k) (fun t' => holds (st_read S s) t' (m_remove_prefix m k)).
Proof.
  intros A. destruct (short_attached_good dbg S inv L s t m A) as (_ & g & G & E).
  eapply oop_imp; [|exact (p_remove_prefix dbg (st_read S s) t g G k)]. cbv beta. intros x. apply holds_ext. now apply same_ext_remove_prefix.
Qed.
End Removes.

Section Combines.
Context (dbg : bool) (S S' : store) (inv : st S -> Prop) (inv' : st S' -> Prop) (L : lawful S inv) (L' : lawful S' inv').
Context (s : st S) (s' : st S') (t u : node) (m mu : kmap).
Context (A : attached dbg S inv s t m) (U : attached dbg S' inv' s' u mu).
Notation rd := (st_read S s).
Notation rd' := (st_read S' s').

Lemma at_outer h : ok_or_panic (t_outer_combine dbg rd rd' t u (combiner rd rd' h)) (fun x => holds mem x (m_outer h m mu)).
Proof.
  destruct (attached_good dbg S inv L s t m A) as (_ & ids & g & G & E).
  destruct (attached_good dbg S' inv' L' s' u mu U) as (_ & ids' & g' & G' & E').
  eapply oop_imp; [|exact (p_outer dbg ids ids' rd rd' t u g g' G G' h)]. cbv beta. intros x. apply holds_ext.
  intros k. unfold m_outer. now rewrite E, E'.
Qed.
Lemma at_inner h : ok_or_panic (t_inner_combine dbg rd rd' t u (combiner rd rd' h)) (fun x => holds mem x (m_inner h m mu)).
Proof.
  destruct (attached_good dbg S inv L s t m A) as (_ & ids & g & G & E).
  destruct (attached_good dbg S' inv' L' s' u mu U) as (_ & ids' & g' & G' & E').
  eapply oop_imp; [|exact (p_inner dbg ids ids' rd rd' t u g g' G G' h)]. cbv beta. intros x. apply holds_ext.
  intros k. unfold m_inner. now rewrite E, E'.
Qed.
Lemma at_left h : ok_or_panic (t_left_combine dbg rd rd' t u (combiner rd rd' h)) (fun x => holds mem x (m_left h m mu)).
Proof.
  destruct (attached_good dbg S inv L s t m A) as (_ & ids & g & G & E).
  destruct (attached_good dbg S' inv' L' s' u mu U) as (_ & ids' & g' & G' & E').
  eapply oop_imp; [|exact (p_left dbg ids ids' rd rd' t u g g' G G' h)]. cbv beta. intros x. apply holds_ext.
  intros k. unfold m_left. now rewrite E, E'.
Qed.
Lemma at_inner_pred p : ok_or_panic (t_inner_combine_pred rd rd' t u (predicate rd rd' p)) (fun b =>
  b = true <-> exists k x y, m k = Some x /\ mu k = Some y /\ p x y = true).
Proof.
  destruct (attached_good dbg S inv L s t m A) as (_ & ids & g & G & E).
  destruct (attached_good dbg S' inv' L' s' u mu U) as (_ & ids' & g' & G' & E').
  eapply oop_imp; [|exact (p_inner_pred ids ids' rd rd' t u g g' G G' p)]. cbv beta. intros b ->.
  split; intros (k & x & y & H); exists k, x, y; rewrite E, E' in *; exact H.
Qed.
Lemma at_left_pred p : ok_or_panic (t_left_combine_pred rd rd' t u (predicate rd rd' p)) (fun b =>
  b = true <-> exists k x, m k = Some x /\ match mu k with Some y => p x y = true | None => True end).
Proof.
  destruct (attached_good dbg S inv L s t m A) as (_ & ids & g & G & E).
  destruct (attached_good dbg S' inv' L' s' u mu U) as (_ & ids' & g' & G' & E').
  eapply oop_imp; [|exact (p_left_pred ids ids' rd rd' t u g g' G G' p)]. cbv beta. intros b ->.
  split; intros (k & x & H); exists k, x; rewrite E, E' in *; exact H.
Qed.
End Combines.

(** Serialization. *)
Lemma at_encodes dbg S inv (L : lawful S inv) s t : inv s -> reachable dbg t ->
  (exists bs s', serialize S t s = (Ok bs, s') /\ inv s' /\ encodes (fun id d => st_read S s' id = Ok d) (shape_of t) bs) \/
  (exists s', serialize S t s = (Err, s') /\ inv s' /\ may_refuse S inv).
Proof.
  intros I0 R. destruct (reachable_good dbg t R) as (g & G).
  apply (wpost_logged S inv L _ _ s _ (fwd_serialize S inv L t)).
  eapply wpost_imp; [apply (serialize_enc (logged S) (linv S inv) (logged_strict S inv L) g t (s, []) (linv_start S inv s I0)), G|].
  cbv beta. intros bs s' _ _ H I'. rewrite (DRep_shape g t) by apply G.
  eapply encodes_mono; [|exact H]. intros id d. now apply (linv_more S inv L).
Qed.

Lemma at_node_back S inv (L : lawful S inv) p v c s : inv s ->
  (blob_is_id p = true -> length (blob_slice p) < 128) -> (blob_is_id v = true -> length (blob_slice v) < 128) ->
  length c < 128 ->
  (exists bs s' p' v', serialize S (Node p v (KId c)) s = (Ok bs, s') /\ inv s' /\
    deserialize bs = Ok (Node p' v' (KId c)) /\ field_back S s' 1 p p' /\ field_back S s' 0 v v') \/
  (exists s', serialize S (Node p v (KId c)) s = (Err, s') /\ inv s' /\ may_refuse S inv).
Proof.
  intros I0 Hp Hv Hc. pose proof (node_back (logged S) (linv S inv) (logged_strict S inv L) p v c (s, [])
    (linv_start S inv s I0) Hp Hv Hc) as H.
  destruct (fwd_serialize S inv L (Node p v (KId c)) (s, [])) as [E _]. cbn [fst] in E.
  assert (forall s' k b b', linv S inv s' -> field_back (logged S) s' k b b' -> field_back S (fst s') k b b') as Fb.
  { intros s' k b b' I' [X|(X1 & X2 & id & X3 & X4)]; [now left|right]. split; [exact X1|]. split; [exact X2|].
    exists id. split; [exact X3|]. eapply linv_more; eauto. }
  destruct H as [(bs & s' & p' & v' & Es & I' & D & F1 & F2)|(s' & Es & I' & M)]; rewrite Es in E; cbn [fst snd] in E.
  - left. exists bs, (fst s'), p', v'. split; [exact E|]. split; [apply I'|]. auto.
  - right. exists (fst s'). split; [exact E|]. split; [apply I'|]. eapply logged_refuse; eauto.
Qed.

Lemma load_any S (s : st S) id data : st_read S s id = Ok data ->
  (three_fields true data -> exists t, t_load S s (Some id) = Ok t) /\
  (three_fields false data -> t_load S s (Some id) = Panic) /\
  (~ three_fields true data -> ~ three_fields false data -> t_load S s (Some id) = Err).
Proof. intros E. cbn. rewrite E. exact (decode_any data). Qed.

(** Histories. *)
Lemma extending_holds dbg S inv (L : lawful S inv) s h : inv s -> Forall extending h ->
  exists oks w, exec dbg S (start s) h ⇓ Ok (oks, w) /\ (In false oks -> may_refuse S inv) /\
    Forall2 (holds (st_read S (w_st w))) (w_trees w) (m_trees (model no_maps h oks)).
Proof.
  intros I0 H. destruct (history_holds dbg S inv L s h I0 (or_introl H)) as (oks & w & C & _ & M & _ & T & _).
  exists oks, w. auto.
Qed.

(** Failing reads. *)
Lemma fails_reads rd' rd t : flaky rd' rd ->
  (forall k, same_or_error (get_bytes rd' t k) (get_bytes rd t k)) /\
  (forall k, same_or_error (t_contains_key rd' t k) (t_contains_key rd t k)) /\
  (forall p, same_or_error (t_has_prefix rd' t p) (t_has_prefix rd t p)) /\
  same_or_error (iter_bytes rd' t) (iter_bytes rd t) /\
  same_or_error (values_bytes rd' t) (values_bytes rd t) /\
  (forall p, same_or_error (scan_bytes rd' t p) (scan_bytes rd t p)) /\
  (forall p, same_or_error (first_entry_bytes rd' t p) (first_entry_bytes rd t p)) /\
  (forall p, same_or_error (last_entry_bytes rd' t p) (last_entry_bytes rd t p)) /\
  same_or_error (first_value_bytes rd' t) (first_value_bytes rd t) /\
  same_or_error (last_value_bytes rd' t) (last_value_bytes rd t) /\
  (forall d, same_or_error (t_group_by rd' t d) (t_group_by rd t d)) /\
  (forall p s, same_or_error (t_filter_prefix rd' t p s) (t_filter_prefix rd t p s)) /\
  same_or_error (t_detached rd' t) (t_detached rd t).
Proof.
  intros F. repeat split; intros;
    eauto using f_get, f_contains, f_has_prefix, f_iter, f_values, f_scan, f_first_entry, f_last_entry, f_first_value,
    f_last_value, f_group, f_filter, f_detached.
Qed.
Lemma fails_mutations dbg rd' rd t : flaky rd' rd ->
  (forall k v, same_or_error (t_insert dbg rd' t k v) (t_insert dbg rd t k v)) /\
  (forall k, same_or_error (t_remove dbg rd' t k) (t_remove dbg rd t k)) /\
  (forall p, same_or_error (t_remove_prefix dbg rd' t p) (t_remove_prefix dbg rd t p)).
Proof. intros F. repeat split; intros; eauto using f_insert, f_remove, f_remove_prefix. Qed.
Lemma fails_combines dbg rdA' rdA rdB' rdB t u : flaky rdA' rdA -> flaky rdB' rdB ->
  (forall h, same_or_error (t_outer_combine dbg rdA' rdB' t u (combiner rdA' rdB' h)) (t_outer_combine dbg rdA rdB t u (combiner rdA rdB h))) /\
  (forall h, same_or_error (t_inner_combine dbg rdA' rdB' t u (combiner rdA' rdB' h)) (t_inner_combine dbg rdA rdB t u (combiner rdA rdB h))) /\
  (forall h, same_or_error (t_left_combine dbg rdA' rdB' t u (combiner rdA' rdB' h)) (t_left_combine dbg rdA rdB t u (combiner rdA rdB h))) /\
  (forall p, same_or_error (t_inner_combine_pred rdA' rdB' t u (predicate rdA' rdB' p)) (t_inner_combine_pred rdA rdB t u (predicate rdA rdB p))) /\
  (forall p, same_or_error (t_left_combine_pred rdA' rdB' t u (predicate rdA' rdB' p)) (t_left_combine_pred rdA rdB t u (predicate rdA rdB p))) /\
  (forall h, same_or_error (t_outer_combine_with dbg rdA' rdB' (detach_converter rdB') t u (combiner_with rdA' rdB' h))
     (t_outer_combine_with dbg rdA rdB (detach_converter rdB) t u (combiner_with rdA rdB h))) /\
  (forall h, same_or_error (t_inner_combine_with dbg rdA' rdB' t u (combiner_with rdA' rdB' h)) (t_inner_combine_with dbg rdA rdB t u (combiner_with rdA rdB h))) /\
  (forall h, same_or_error (t_left_combine_with dbg rdA' rdB' t u (combiner_with rdA' rdB' h)) (t_left_combine_with dbg rdA rdB t u (combiner_with rdA rdB h))) /\
  (forall s, same_or_error (t_retain_prefix_with dbg rdA' rdB' t u (selector rdB' s)) (t_retain_prefix_with dbg rdA rdB t u (selector rdB s))) /\
  (forall s, same_or_error (t_remove_prefix_with dbg rdA' rdB' t u (selector rdB' s)) (t_remove_prefix_with dbg rdA rdB t u (selector rdB s))).
Proof.
  intros FA FB. repeat split; intros;
    eauto using f_outer, f_inner, f_left, f_inner_pred, f_left_pred, f_outer_with, f_inner_with, f_left_with, f_retain, f_remove_with.
Qed.
Lemma fails_iterators rd' rd : flaky rd' rd ->
  (forall s n ys, pulls (kv_next rd) n s ⇓ Ok ys -> exists ys', pulls (kv_next rd') n s ⇓ Ok ys' /\ cut_by_error ys' ys) /\
  (forall s n ys, pulls (vi_next rd) n s ⇓ Ok ys -> exists ys', pulls (vi_next rd') n s ⇓ Ok ys' /\ cut_by_error ys' ys) /\
  (forall d s n ys, pulls (gb_next rd d) n s ⇓ Ok ys -> exists ys', pulls (gb_next rd' d) n s ⇓ Ok ys' /\ cut_by_error ys' ys).
Proof.
  intros F. split; [|split].
  - exact (f_pull_kv rd' rd F).
  - exact (f_pull_vi rd' rd F).
  - exact (f_pull_gb rd' rd F).
Qed.

(** [try_load] without an id. *)
Lemma load_nothing dbg S inv s : lawful S inv -> inv s ->
  exists t, t_load S s None = Ok t /\ holds (st_read S s) t m_empty /\
    forall k v, exists t', t_insert dbg (st_read S s) t k v ⇓ Ok t' /\ holds (st_read S s) t' (m_insert m_empty k v).
Proof.
  intros _ _. exists n_empty. split; [reflexivity|].
  assert (forall k, lookup tempty k = m_empty k) as E by (intros; apply tempty_lookup). split.
  - eapply holds_ext; [exact E|]. apply (good_holds false); apply (good_empty false (st_read S s)).
  - intros k v. destruct (yields_holds _ _ _ _ (y_insert dbg false (st_read S s) n_empty tempty (good_empty _ _) k v)) as (t' & X & Y).
    exists t'. split; [exact X|]. eapply holds_ext; [|exact Y]. intros x. unfold m_insert. now rewrite E.
Qed.
