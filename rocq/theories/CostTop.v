(** The number of blocks written by a history. *)
From Verif Require Import Base BaseLemmas Header Node Combine Iter Api Tree Entries Rep Sim Store StoreSpec StoreProofs Spec Client
  Top TopOps MemLemmas World WorldProofs Logged AcceptProofs CostSpec CostProofs.

(** ** Keys and edges *)
Fixpoint psum (g : tree) : nat := match g with T p _ cs => length p + list_sum (map psum cs) end.
Definition psums (gs : list tree) : nat := list_sum (map psum gs).
Lemma psum_T p v cs : psum (T p v cs) = length p + psums cs.
Proof. reflexivity. Qed.
Lemma psums_cons g gs : psums (g :: gs) = psum g + psums gs.
Proof. reflexivity. Qed.
Lemma tweight_psum g : tweight g = psum g + 4 * size g.
Proof.
  induction g as [p v cs IH] using tree_ind'. rewrite tweight_T, psum_T, size_T.
  assert (tweights cs = psums cs + 4 * sizes cs); [|lia].
  induction IH as [|c cs H _ IHc]; [reflexivity|]. rewrite tweights_cons, sizes_cons, psums_cons, H, IHc. lia.
Qed.
Lemma key_bytes_app l l' : key_bytes (l ++ l') = key_bytes l + key_bytes l'.
Proof. unfold key_bytes. now rewrite map_app, list_sum_app. Qed.
Lemma kids_bytes path cs (F : Forall (fun c => psum c + length path * length (entries path c) <= key_bytes (entries path c)) cs) :
  psums cs + length path * length (entriesl path cs) <= key_bytes (entriesl path cs).
Proof.
  induction F as [|c cs H F IH]; [cbn; lia|]. rewrite psums_cons. unfold entriesl in *. cbn [flat_map].
  rewrite app_length, key_bytes_app. lia.
Qed.
Lemma node_bytes path p v cs : live v cs -> Forall cc cs ->
  Forall (fun c => psum c + length (path ++ p) * length (entries (path ++ p) c) <= key_bytes (entries (path ++ p) c)) cs ->
  psum (T p v cs) + length path * length (entries path (T p v cs)) <= key_bytes (entries path (T p v cs)).
Proof.
  intros Lv Fc F. apply kids_bytes in F. rewrite psum_T, entries_T, app_length, key_bytes_app. rewrite app_length in *.
  assert (v = None -> 1 <= length (entriesl (path ++ p) cs)) as L.
  { intros ->. destruct Lv as [Lv|Lv]; [congruence|]. destruct Fc as [|c cs Hc _]; [cbn in Lv; lia|].
    rewrite entries_len_kids. cbn [map list_sum fold_right]. pose proof (cc_size c Hc (path ++ p)). pose proof (size_pos c). lia. }
  destruct v as [x|].
  - change (key_bytes [(path ++ p, x)]) with (length (path ++ p) + 0). rewrite app_length. cbn [length]. unfold bytes in *. nia.
  - change (key_bytes []) with 0. cbn [length]. specialize (L eq_refl). unfold bytes in *. nia.
Qed.
Lemma cc_bytes g : cc g -> forall path, psum g + length path * length (entries path g) <= key_bytes (entries path g).
Proof.
  induction g as [p v cs IH] using tree_ind'. intros C path. inversion C as [? ? ? Np Lv So Fc]; subst.
  apply node_bytes; auto. rewrite Forall_forall in *. intros c Hc. apply IH; auto.
Qed.
Lemma croot_bytes g : croot g -> psum g <= key_bytes (entries [] g).
Proof.
  intros [->|(Lv & _ & F)]; [cbn; lia|]. destruct g as [p v cs]. cbn [tv tc] in *.
  assert (psum (T p v cs) + length (@nil byte) * length (entries [] (T p v cs)) <= key_bytes (entries [] (T p v cs))); [|cbn [length] in *; lia].
  apply node_bytes; auto. eapply Forall_impl; [|exact F]. intros c Hc. now apply cc_bytes.
Qed.
Lemma tree_sizes g m l : croot g -> same (lookup g) m -> lists l m ->
  3 * size g <= attach_cost (length l, key_bytes l) /\ tweight g + 1 <= tree_cost (length l, key_bytes l).
Proof.
  intros C E Hl.
  assert (lists (entries [] g) m) as Hg by (apply lists_entries; [exact C|]; intros k; symmetry; apply E).
  assert (l = entries [] g) as -> by exact (lists_where_unique _ _ _ _ Hl Hg).
  rewrite tweight_psum. unfold attach_cost, tree_cost. cbn [fst snd].
  pose proof (croot_size g C). pose proof (croot_bytes g C). unfold bytes in *. lia.
Qed.

(** ** Looking up a subtree *)
Definition rdirty (M : nat) (r : noderef) : Prop := forall n, r_to_owned r = Ok n -> dirty n <= M.
Lemma In_dirties n ns : In n ns -> dirty n <= dirties ns.
Proof. induction ns as [|m ns IH]; [intros []|]. rewrite dirties_cons. intros [->|H]; [lia|specialize (IH H); lia]. Qed.
Lemma bsearch_In ns c : forall fuel l r n, bsearch ns c fuel l r = Some n -> In n ns.
Proof.
  induction fuel as [|fuel IH]; cbn [bsearch]; [discriminate|]. intros l r n. destruct (l <? r); [|discriminate].
  destruct (nth_error ns _) as [x|] eqn:E; [|discriminate]. destruct (cmp_ob _ _); [|apply IH|apply IH].
  intros [= <-]. eapply nth_error_In; eauto.
Qed.
Lemma find_owned_In ns c n : find_owned ns c = Some n -> In n ns.
Proof. unfold find_owned. destruct (_ =? _); [apply nth_error_In|apply bsearch_In]. Qed.
Lemma find_borrowed_clean c : forall fuel data b, find_borrowed fuel data c = Some b -> rdirty 0 (RBorrowed b).
Proof.
  induction fuel as [|fuel IH]; cbn [find_borrowed]; [discriminate|]. intros data b. destruct (read_one data) as [[b0 r]|] eqn:E; [|discriminate].
  destruct (cmp_ob _ _); [|apply IH|discriminate]. intros [= <-] n H. cbn in H. rewrite (read_one_dirty _ _ _ _ E H). lia.
Qed.
Lemma find_dirty rd M : forall fuel r k, rdirty M r -> ifok (fun x => match x with Found t | Prefix t _ => rdirty M t | NotFound => True end) (find rd fuel r k).
Proof.
  induction fuel as [|fuel IH]; intros r k H; [exact Logic.I|]. cbn [find]. apply ifok_bind'. intros tp _.
  destruct (_ && _); [exact H|]. destruct (_ =? 0); [exact H|]. destruct (_ =? 0); [|exact Logic.I].
  destruct (nth_error k _) as [c|]; [|exact Logic.I]. apply ifok_bind'. intros [it|] El; [|exact Logic.I].
  destruct (it_find it c) as [child|] eqn:Ef; [|exact Logic.I]. apply IH.
  destruct it as [ns|data]; cbn [it_find] in Ef.
  - destruct (find_owned ns c) as [n|] eqn:En; [|discriminate]. injection Ef as <-. apply find_owned_In in En.
    intros n' [= <-]. destruct r as [m|b]; cbn in El.
    + specialize (H m eq_refl). rewrite dirty_eq in H. unfold load_children in El. destruct (n_kids m) as [l|id].
      * destruct l as [|x l]; [discriminate|]. injection El as <-. cbn [kdirty] in H. pose proof (In_dirties _ _ En). lia.
      * unfold it_load in El. destruct id as [|z id]; [discriminate|]. destruct (rd id); discriminate.
    + unfold b_load_children, it_load in El. destruct (b_children b) as [|[|z id]]; try discriminate. destruct (rd id); discriminate.
  - destruct (find_borrowed _ data c) as [b|] eqn:Eb; [|discriminate]. injection Ef as <-. apply find_borrowed_clean in Eb.
    intros n Hn. specialize (Eb n Hn). lia.
Qed.
Lemma filter_dirty rd fuel t k s : ifok (fun r => dirty r <= dirty t + 1) (t_filter_prefix rd t k s fuel).
Proof.
  assert (forall m p, dirty m <= dirty t -> dirty (set_prefix_slice m p) <= dirty t + 1) as A.
  { intros m p H. rewrite dirty_eq in H. rewrite (dirty_eq (set_prefix_slice m p)). cbn [set_prefix_slice n_prefix n_value n_kids].
    pose proof (dblob_le (Data p)). lia. }
  unfold t_filter_prefix, filter_prefix. eapply ifok_bind; [apply (find_dirty rd (dirty t))|].
  { intros n [= ->]. lia. }
  intros [r|r n|] H; cbn beta iota in H.
  - destruct (r_to_owned r) as [m| | |] eqn:E; try exact Logic.I. cbn [bind ifok]. apply A. auto.
  - apply ifok_bind'. intros tp _. destruct (r_to_owned r) as [m| | |] eqn:E; try exact Logic.I. cbn [bind].
    apply ifok_bind'. intros rest _. cbn [ifok]. apply A. auto.
  - cbn. lia.
Qed.

(** ** Commands *)
Lemma ifok_eq {A} (P : A -> Prop) r x : ifok P r -> r = Ok x -> P x.
Proof. intros H ->. exact H. Qed.

Section Cost.
Context (dbg : bool) (S : store) (sz : prog -> nat * nat).
Notation C := (counting S).

Definition balanced (w : world C) (b : books) : Prop :=
  Forall2 (fun t x => dirty t <= x) (w_trees w) (owed b) /\ length (w_ids w) = known b /\ snd (w_st w) <= spent b.
Definition trees_good (w : world C) : Prop :=
  exists ids, Forall (fun t => exists g, good ids (st_read C (w_st w)) t g) (w_trees w).

Lemma bal_add w b t x : balanced w b -> dirty t <= x -> balanced (add_tree C w t) (add_owed b x).
Proof. intros (T & K & Sp) H. split; [apply Forall2_app; auto|split; [exact K|exact Sp]]. Qed.
Lemma bal_set w b i t x : balanced w b -> dirty t <= x -> balanced (set_tree C w i t) (set_owed b i x).
Proof. intros (T & K & Sp) H. split; [apply Forall2_replace; auto|split; [exact K|exact Sp]]. Qed.
Lemma bal_write {A} w b k n ok w' (m : wm (st C) A) kk : balanced w b -> wcost S n m ->
  on_write C w (m (w_st w)) k = Ok (ok, w') ->
  (forall a s', snd s' <= spent b + n -> m (w_st w) = (Ok a, s') -> balanced (k a s') kk) ->
  balanced w' (if ok then kk else spend b n).
Proof.
  intros (T & K & Sp) H E Hk. specialize (H (w_st w)). destruct (m (w_st w)) as [[a| | |] s'] eqn:Em; cbn in E; try discriminate; injection E as <- <-; cbn [snd] in H.
  - apply Hk; [lia|reflexivity].
  - split; [exact T|]. split; [exact K|]. cbn. lia.
Qed.

Lemma bal_tree w b i (f : node -> res (bool * world C)) ok w' (g : nat -> books) : balanced w b ->
  with_tree C w i f = Ok (ok, w') ->
  (forall t x, nth_error (w_trees w) i = Some t -> dirty t <= x -> f t = Ok (ok, w') -> balanced w' (g x)) ->
  balanced w' (on_owed b i g).
Proof.
  intros B E H. pose proof B as (T & _). pose proof (Forall2_nth _ _ _ i T) as N. unfold with_tree in E. unfold on_owed.
  destruct (nth_error (w_trees w) i) as [t|] eqn:Et, (nth_error (owed b) i) as [x|]; try tauto.
  - apply (H t x); auto.
  - injection E as <- <-. exact B.
Qed.
Lemma bal_more w b i (f : node -> res node) ok w' y : balanced w b -> trees_good w ->
  (forall ids t g, good ids (st_read C (w_st w)) t g -> ifok (fun r => dirty r <= dirty t + y) (f t)) ->
  with_tree C w i (fun t => t' <- f t ;; Ok (true, set_tree C w i t')) = Ok (ok, w') ->
  balanced w' (owe_more b i y).
Proof.
  intros B (ids & Fg) H E. unfold owe_more. eapply bal_tree; [exact B|exact E|]. cbn beta. intros t x Et Lx Ef.
  rewrite Forall_forall in Fg. destruct (Fg t (nth_error_In _ _ Et)) as [g G]. specialize (H ids t g G).
  destruct (f t) as [r| | |]; cbn in Ef; try discriminate. injection Ef as <- <-. apply bal_set; [exact B|]. cbn in H. lia.
Qed.

Lemma rec_more ids rd rec y t g u gu : good ids rd t g -> good false detached_read u gu -> tweight gu + 1 <= y ->
  cost_rec ids rd rec -> ifok (fun r => dirty r <= dirty t + y) (rec t (ROwned u)).
Proof.
  intros (R & Cg & _) (Ru & Cu & _) L H. eapply ifok_le; [apply (H t g u gu); auto using edges_croot|]. cbn beta. intros r Lr. lia.
Qed.
Lemma single_good k v : good false detached_read (n_single k v) (T k (Some v) []).
Proof.
  split; [|split].
  - eapply Rep_mk with (ns := []); cbn; auto; [now left|now right; left].
  - right. cbn [tv tc]. split; [left; discriminate|]. split; constructor.
  - reflexivity.
Qed.

Lemma exec1_cost w b c ok w' : balanced w b -> trees_good w -> measured sz c ->
  (match c with CAttach p | CMerge _ _ p | COuterWith _ _ p | CInnerWith _ _ p | CLeftWith _ _ p
   | CRemovePrefixWith _ _ p | CRetainPrefixWith _ _ p => allowed p | _ => True end) ->
  exec1 dbg C w c ⇓ Ok (ok, w') -> balanced w' (book1 sz b c ok).
Proof.
  intros B G M A (_ & n0 & E).
  assert (forall p (k : node -> nat -> res (bool * world C)), allowed p ->
    (exists l, lists l (meaning p) /\ sz p = (length l, key_bytes l)) ->
    (forall n, n0 <= n -> (u <- run dbg p n ;; k u n) = Ok (ok, w')) ->
    exists n u gu, k u n = Ok (ok, w') /\ good false detached_read u gu /\ 3 * size gu <= attach_cost (sz p) /\ tweight gu + 1 <= tree_cost (sz p)) as Run.
  { intros p k Ap (l & Hl & Es) Ek. destruct (run_ok dbg p Ap) as (u & gu & (_ & n1 & Cu) & Gu & Eu).
    exists (Nat.max n0 n1), u, gu. specialize (Ek (Nat.max n0 n1) (Nat.le_max_l _ _)). rewrite (Cu _ (Nat.le_max_r _ _)) in Ek. split; [exact Ek|].
    split; [exact Gu|]. destruct (tree_sizes gu (meaning p) l) as [L1 L2]; auto; [apply Gu|]. rewrite Es. split; auto. }
  assert (forall i p (f : node -> node -> nat -> res node), allowed p ->
    (exists l, lists l (meaning p) /\ sz p = (length l, key_bytes l)) ->
    (forall n, n0 <= n -> (u <- run dbg p n ;; with_tree C w i (fun t => t' <- f u t n ;; Ok (true, set_tree C w i t'))) = Ok (ok, w')) ->
    (forall n ids u, exists rec, f u = (fun t n => rec n t (ROwned u)) /\ cost_rec ids (st_read C (w_st w)) (rec n)) ->
    balanced w' (owe_more b i (tree_cost (sz p)))) as Two.
  { intros i p f Ap Hm Ek Hr. destruct (Run p (fun u n => with_tree C w i (fun t => t' <- f u t n ;; Ok (true, set_tree C w i t'))) Ap Hm Ek) as (n & u & gu & E1 & Gu & _ & L).
    eapply (bal_more w b i (fun t => f u t n)); eauto. intros ids t g Gt. destruct (Hr n ids u) as (rec & Ef & Hc). rewrite Ef. eapply rec_more; eauto. }
  assert (forall i k v (f : node -> nat -> res node), key_cost k = tweight (T k (Some v) []) + 1 ->
    (forall n, n0 <= n -> with_tree C w i (fun t => t' <- f t n ;; Ok (true, set_tree C w i t')) = Ok (ok, w')) ->
    (forall n ids, exists rec, f = (fun t n => rec n t (ROwned (n_single k v))) /\ cost_rec ids (st_read C (w_st w)) (rec n)) ->
    balanced w' (owe_more b i (key_cost k))) as One.
  { intros i k v f Ek E1 Hr. eapply (bal_more w b i (fun t => f t n0)); eauto. intros ids t g Gt.
    destruct (Hr n0 ids) as (rec & -> & Hc). eapply rec_more; eauto using single_good. lia. }
  assert (forall k v, key_cost k = tweight (T k (Some v) []) + 1) as Kc.
  { intros k v. unfold key_cost. rewrite tweight_T. cbn. lia. }
  destruct c; cbn [exec1 book1 measured] in *.
  - specialize (E n0 (le_n _)). injection E as <- <-. apply bal_add; [exact B|]. cbn. lia.
  - destruct (Run p _ A M E) as (n & u & gu & E1 & Gu & L & _). cbn beta in E1.
    pose proof (wcost_attached S u) as W. pose proof (Rep_dirty _ _ _ _ (proj1 Gu)) as Ld.
    apply (wcost_le S _ (attach_cost (sz p))) in W; [|lia].
    eapply bal_write with (kk := add_owed (spend b (attach_cost (sz p))) 0) in E1; [|exact B|exact W|].
    + destruct ok; exact E1.
    + intros t' s' Ls Ew. pose proof (attached_clean C _ _ _ _ Ew) as D. destruct B as (T & K & Sp).
      split; [cbn; apply Forall2_app; auto; constructor; [lia|constructor]|]. split; [exact K|exact Ls].
  - specialize (E n0 (le_n _)). destruct B as (T & K & Sp) eqn:EB. clear EB.
    destruct (nth_error (w_ids w) j) as [id|] eqn:Ej.
    + assert (j < length (w_ids w)) as Lj by (apply nth_error_Some; congruence). rewrite <- K.
      destruct (Nat.ltb_spec j (length (w_ids w))) as [_|]; [|lia].
      unfold t_load in E. destruct (st_read C (w_st w) id) as [d| | |]; cbn [bind] in E; try discriminate.
      destruct (deserialize d) as [t| | |] eqn:Ed; cbn [bind] in E; try discriminate. injection E as <- <-.
      apply bal_add; [repeat split; auto|]. rewrite (deserialize_dirty _ _ Ed). lia.
    + apply nth_error_None in Ej. rewrite <- K. destruct (Nat.ltb_spec j (length (w_ids w))) as [|_]; [lia|].
      injection E as <- <-. repeat split; auto.
  - specialize (E n0 (le_n _)). eapply bal_tree; [exact B|exact E|]. intros t x _ Lx [= <- <-]. now apply bal_add.
  - eapply (One i k v); [apply Kc|exact E|]. intros n ids. eexists. split; [reflexivity|]. apply outer_cost; intros; [now apply downcast_N|now apply downcast_S].
  - eapply (Two i p); [exact A|exact M|exact E|]. intros n ids u. eexists. split; [reflexivity|]. apply outer_cost; intros; [now apply r_detached_dirty|now apply detach_S].
  - specialize (E n0 (le_n _)). eapply bal_tree; [exact B|exact E|]. cbn beta. intros t x _ Lx Ef.
    pose proof (filter_dirty (st_read C (w_st w)) n0 t k s) as D. cbn [counting st_read] in *.
    destruct (t_filter_prefix _ t k s n0) as [t'| | |]; cbn [bind] in Ef; try discriminate. injection Ef as <- <-. apply bal_add; [exact B|]. cbn [ifok] in D. lia.
  - specialize (E n0 (le_n _)). eapply bal_tree; [exact B|exact E|]. cbn beta. intros t x Et Lx Ef.
    pose proof (wcost_reattach S t) as W. apply (wcost_le S _ (x + 1)) in W; [|lia].
    eapply bal_write with (kk := Books (replace i 0 (owed b)) (known b + 1) (spent b + (x + 1))) in Ef; [exact Ef|exact B|exact W|].
    intros [id t'] s' Ls Ew. pose proof (reattach_clean C _ _ _ _ _ Ew) as D. destruct B as (T & K & Sp). cbn [fst snd].
    split; [cbn; apply Forall2_replace; auto; lia|]. split; [cbn; rewrite app_length; cbn; lia|exact Ls].
  - specialize (E n0 (le_n _)). eapply (bal_write w b _ 1 ok w' (w_write C d) (spend b 1)) in E; [destruct ok; exact E|exact B|apply wcost_write|].
    intros a s' Ls _. destruct B as (T & K & Sp). repeat split; auto.
  - eapply (One i k []); [apply Kc|exact E|]. intros n ids. eexists. split; [reflexivity|]. apply left_cost.
  - eapply (One i k []); [apply Kc|exact E|]. intros n ids. eexists. split; [reflexivity|]. apply remove_cost.
  - eapply (Two i p); [exact A|exact M|exact E|]. intros n ids u. eexists. split; [reflexivity|]. apply outer_cost; intros; [now apply r_detached_dirty|now apply detach_S].
  - eapply (Two i p); [exact A|exact M|exact E|]. intros n ids u. eexists. split; [reflexivity|]. apply inner_cost.
  - eapply (Two i p); [exact A|exact M|exact E|]. intros n ids u. eexists. split; [reflexivity|]. apply left_cost.
  - eapply (Two i p); [exact A|exact M|exact E|]. intros n ids u. eexists. split; [reflexivity|]. apply remove_cost.
  - eapply (Two i p); [exact A|exact M|exact E|]. intros n ids u. eexists. split; [reflexivity|]. apply retain_cost.
Qed.
End Cost.

(** ** Counting changes nothing *)
Section Forget.
Context (S : store).
Notation C := (counting S).
Definition cfwd {A} (m' : wm (st C) A) (m : wm (st S) A) : Prop := forall s, m (fst s) = (fst (m' s), fst (snd (m' s))).
Lemma cfwd_ret {A} (r : res A) : cfwd (wret r) (wret r).
Proof. intros s. reflexivity. Qed.
Lemma cfwd_bind {A B} (m' : wm (st C) A) m (k' : A -> wm (st C) B) k :
  cfwd m' m -> (forall a, cfwd (k' a) (k a)) -> cfwd (wbind m' k') (wbind m k).
Proof.
  intros H K s. unfold wbind. rewrite (H s). destruct (m' s) as [[a| | |] s']; cbn [fst snd] in *; auto. apply K.
Qed.
Lemma cfwd_write d : cfwd (w_write C d) (w_write S d).
Proof. intros s. unfold w_write. cbn [counting st_write fst snd]. now destruct (st_write S (fst s) d). Qed.
Lemma cfwd_blob n b : cfwd (ser_blob C n b) (ser_blob S n b).
Proof.
  unfold ser_blob. destruct (_ || _); [apply cfwd_ret|]. apply cfwd_bind; [apply cfwd_write|]. intros id.
  apply cfwd_bind; [apply cfwd_ret|]. intros h. apply cfwd_ret.
Qed.
Lemma cfwd_serialize n : cfwd (serialize C n) (serialize S n).
Proof.
  induction n as [p v cs IH|p v id] using node_ind'; rewrite !serialize_eq;
    (apply cfwd_bind; [apply cfwd_blob|]; intros pb; apply cfwd_bind; [apply cfwd_blob|]; intros vb;
     apply cfwd_bind; [|intros; apply cfwd_ret]); [|apply cfwd_ret].
  destruct cs as [|c cs]; cbn [ser_kids]; [apply cfwd_ret|].
  apply cfwd_bind.
  - generalize (Some 0). induction IH as [|c' l Hc _ IHl]; intros rs; cbn [sers]; [apply cfwd_ret|].
    apply cfwd_bind; [apply Hc|]. intros b. apply cfwd_bind; [apply IHl|]. intros x. apply cfwd_ret.
  - intros x. apply cfwd_bind; [apply cfwd_write|]. intros id. apply cfwd_bind; [apply cfwd_ret|]. intros h. apply cfwd_ret.
Qed.
Lemma cfwd_attached t : cfwd (t_attached C t) (t_attached S t).
Proof. apply cfwd_bind; [apply cfwd_serialize|]. intros b. apply cfwd_ret. Qed.
Lemma cfwd_reattach t : cfwd (t_reattach C t) (t_reattach S t).
Proof.
  apply cfwd_bind; [apply cfwd_serialize|]. intros b. apply cfwd_bind; [apply cfwd_write|]. intros id.
  apply cfwd_bind; [apply cfwd_ret|]. intros t'. apply cfwd_ret.
Qed.

Definition cw (w : world C) : world S := World (fst (w_st w)) (w_trees w) (w_ids w).
Definition back {X} (x : res (X * world C)) : res (X * world S) := p <- x ;; Ok (fst p, cw (snd p)).
Lemma back_bind {X A} (x : res A) (k : A -> res (X * world C)) (k' : A -> res (X * world S)) :
  (forall a, back (k a) = k' a) -> back (bind x k) = bind x k'.
Proof. intros H. destruct x; cbn; auto. Qed.
Lemma back_write {A} w (m' : wm (st C) A) m k k' : cfwd m' m -> (forall a s, cw (k a s) = k' a (fst s)) ->
  back (on_write C w (m' (w_st w)) k) = on_write S (cw w) (m (fst (w_st w))) k'.
Proof.
  intros Hf H. rewrite (Hf (w_st w)). destruct (m' (w_st w)) as [[a| | |] s]; cbn; auto. now rewrite H.
Qed.
Lemma back_tree w i k k' : (forall t, back (k t) = k' t) -> back (with_tree C w i k) = with_tree S (cw w) i k'.
Proof. intros H. unfold with_tree. cbn [cw w_trees]. destruct (nth_error _ i); [apply H|reflexivity]. Qed.

Context (dbg : bool).
Lemma exec1_back w c n : back (exec1 dbg C w c n) = exec1 dbg S (cw w) c n.
Proof.
  destruct c; cbn [exec1]; cbn [cw w_st];
    try (apply back_bind; intros u);
    try (apply back_tree; intros t); try (apply back_bind; intros t'); try reflexivity.
  - apply back_write; [apply cfwd_attached|reflexivity].
  - cbn [cw w_ids]. destruct (nth_error (w_ids w) j) as [id|]; [|reflexivity]. apply back_bind. reflexivity.
  - apply back_write; [apply cfwd_reattach|reflexivity].
  - apply (back_write w (w_write C d) (w_write S d)); [apply cfwd_write|reflexivity].
Qed.
Lemma exec_back h n : forall w, back (exec dbg C w h n) = exec dbg S (cw w) h n.
Proof.
  induction h as [|c h IH]; intros w; cbn [exec]; [reflexivity|].
  rewrite <- exec1_back. destruct (exec1 dbg C w c n) as [[b w1]| | |]; cbn [bind back fst snd]; auto.
  rewrite <- IH. destruct (exec dbg C w1 h n) as [[bs w2]| | |]; cbn [bind back fst snd]; auto.
Qed.

Context (inv : st S -> Prop) (L : lawful S inv).
Lemma after_counting ds : forall s, fst (after C s ds) = after S (fst s) ds.
Proof.
  induction ds as [|d ds IH]; intros s; cbn [after]; [reflexivity|]. rewrite IH. f_equal. cbn. now destruct (st_write S (fst s) d).
Qed.
Lemma counting_lawful : lawful C (fun s => inv (fst s)).
Proof.
  split.
  - intros s d r s' I. cbn. destruct (st_write S (fst s) d) as [r1 s1] eqn:E. intros [= <- <-]. cbn. exact (law_write _ _ L _ _ _ _ I E).
  - intros s d id s' ds I. cbn [counting st_write st_read]. destruct (st_write S (fst s) d) as [r1 s1] eqn:E. intros [= -> <-].
    rewrite after_counting. cbn [fst]. exact (law_read _ _ L _ _ _ _ ds I E).
Qed.
End Forget.

(** ** Histories *)
Lemma exec_snoc dbg S w h c n : exec dbg S w (h ++ [c]) n =
  (x <- exec dbg S w h n ;; y <- exec1 dbg S (snd x) c n ;; Ok (fst x ++ [fst y], snd y)).
Proof.
  revert w. induction h as [|c0 h IH]; intros w; cbn [exec app].
  - cbn [bind fst snd]. destruct (exec1 dbg S w c n) as [[b w1]| | |]; reflexivity.
  - destruct (exec1 dbg S w c0 n) as [[b w1]| | |]; cbn [bind fst snd]; auto. rewrite IH.
    destruct (exec dbg S w1 h n) as [[bs w2]| | |]; cbn [bind fst snd]; auto.
    destruct (exec1 dbg S w2 c n) as [[b3 w3]| | |]; reflexivity.
Qed.
Lemma history_ok_app dbg h c : history_ok dbg (h ++ [c]) -> history_ok dbg h /\ history_ok dbg [c].
Proof. intros [H|H]; apply Forall_app in H as [H H']; split; [left|left|right|right]; auto. Qed.

Section Histories.
Context (dbg : bool) (S : store) (inv : st S -> Prop) (L : lawful S inv) (sz : prog -> nat * nat) (s : st S) (I : inv s).
Notation C := (counting S).
Let IC : (fun x : st C => inv (fst x)) (s, 0) := I.

Lemma history_from h2 : forall h oks w b oks2 w2, history_ok dbg (h ++ h2) -> Forall (measured sz) h2 ->
  exec dbg C (start (S := C) (s, 0)) h ⇓ Ok (oks, w) -> balanced S w b ->
  exec dbg C w h2 ⇓ Ok (oks2, w2) -> balanced S w2 (book sz b h2 oks2) /\ length oks2 = length h2.
Proof.
  induction h2 as [|c h2 IH]; intros h oks w b oks2 w2 Hh Hm E B E2.
  - destruct E2 as (_ & n & E2). specialize (E2 n (le_n _)). injection E2 as <- <-. split; [exact B|reflexivity].
  - replace (h ++ c :: h2) with ((h ++ [c]) ++ h2) in Hh by now rewrite <- app_assoc.
    inversion Hm as [|? ? Mc Hm2]; subst.
    assert (history_ok dbg (h ++ [c])) as Hh1 by (destruct Hh as [Hh|Hh]; apply Forall_app in Hh as [Hh _]; [left|right]; auto).
    pose proof (history_ok_app _ _ _ Hh1) as [Hh0 Hhc].
    destruct (history dbg C _ (counting_lawful S inv L) (s, 0) h IC Hh0) as (oks1 & w1 & E1 & _ & _ & ids & _ & T & _).
    pose proof (conv_unique _ _ _ E E1) as X. injection X as <- <-.
    assert (exists ok w1 oks3, exec1 dbg C w c ⇓ Ok (ok, w1) /\ exec dbg C w1 h2 ⇓ Ok (oks3, w2) /\ oks2 = ok :: oks3) as (ok & w1 & oks3 & Ec & Er & ->).
    { destruct (history dbg C _ (counting_lawful S inv L) (s, 0) (h ++ [c]) IC Hh1) as (o2 & w3 & (_ & n3 & E3) & _).
      destruct E as (_ & n1 & E), E2 as (_ & n2 & E2). set (N := Nat.max n1 (Nat.max n2 n3)).
      assert (forall n, N <= n -> exists ok oks3, exec1 dbg C w c n = Ok (ok, w3) /\ exec dbg C w3 h2 n = Ok (oks3, w2) /\ oks2 = ok :: oks3) as A.
      { intros n Hn. specialize (E n ltac:(lia)). specialize (E2 n ltac:(lia)). specialize (E3 n ltac:(lia)).
        rewrite exec_snoc, E in E3. cbn [bind fst snd] in E3. cbn [exec] in E2.
        destruct (exec1 dbg C w c n) as [[ok w4]| | |]; cbn [bind fst snd] in E2, E3; try discriminate. injection E3 as _ <-.
        destruct (exec dbg C w4 h2 n) as [[oks3 w5]| | |]; cbn [bind fst snd] in E2; try discriminate. injection E2 as <- <-. eauto. }
      destruct (A N (le_n _)) as (ok & oks3 & A1 & A2 & A3). exists ok, w3, oks3.
      split; [|split; [|exact A3]]; (split; [discriminate|]; exists N; intros n Hn; destruct (A n Hn) as (ok' & oks' & B1 & B2 & B3);
        rewrite A3 in B3; injection B3 as <- <-; assumption). }
    destruct (IH (h ++ [c]) (oks ++ [ok]) w1 (book1 sz b c ok) oks3 w2) as [B2 El2]; auto.
    + destruct E as (_ & n1 & E), Ec as (_ & n2 & Ec). split; [discriminate|]. exists (Nat.max n1 n2). intros n Hn.
      rewrite exec_snoc, (E n ltac:(lia)). cbn [bind fst snd]. rewrite (Ec n ltac:(lia)). reflexivity.
    + eapply exec1_cost; eauto.
      * exists ids. clear - T. induction T as [|t m ts ms (g & G & _) T IH]; constructor; eauto.
      * destruct Hhc as [Hhc|Hhc]; inversion Hhc as [|? ? X _]; subst; destruct c; cbn in X; tauto.
    + split; [exact B2|]. cbn. now f_equal.
Qed.
Lemma history_cost h : history_ok dbg h -> Forall (measured sz) h ->
  exists oks w, exec dbg C (start (S := C) (s, 0)) h ⇓ Ok (oks, w) /\ length oks = length h /\ balanced S w (book sz no_books h oks).
Proof.
  intros Hh Hm. destruct (history dbg C _ (counting_lawful S inv L) (s, 0) h IC Hh) as (oks & w & E & _).
  exists oks, w. split; [exact E|].
  destruct (history_from h [] [] (start (S := C) (s, 0)) no_books oks w) as [B El]; auto.
  - apply conv_const. discriminate.
  - repeat split; constructor.
Qed.

Theorem writes_bounded h : history_ok dbg h -> Forall (measured sz) h ->
  exists oks w n, exec dbg S (start s) h ⇓ Ok (oks, w) /\
    exec dbg C (start (S := C) (s, 0)) h ⇓ Ok (oks, World (S := C) (w_st w, n) (w_trees w) (w_ids w)) /\
    n <= spent (book sz no_books h oks).
Proof.
  intros Hh Hm. destruct (history_cost h Hh Hm) as (oks & w & E & _ & _ & _ & Sp).
  exists oks, (cw S w), (snd (w_st w)). split; [|split; [|exact Sp]].
  - destruct E as (_ & n0 & E). split; [discriminate|]. exists n0. intros n Hn.
    change (start s) with (cw S (start (S := C) (s, 0))). rewrite <- exec_back, (E n Hn). reflexivity.
  - destruct w as [[ws wn] wt wi]. exact E.
Qed.

(** Saving a tree again. *)
Lemma reattach_dirty h i oks w : history_ok dbg (h ++ [CReattach i]) ->
  exec dbg C (start (S := C) (s, 0)) (h ++ [CReattach i]) ⇓ Ok (oks ++ [true], w) ->
  match nth_error (w_trees w) i with Some t => dirty t = 0 | None => True end.
Proof.
  intros Hh (_ & n & E). specialize (E n (le_n _)). rewrite exec_snoc in E.
  destruct (exec dbg C _ h n) as [[o1 w1]| | |]; cbn [bind fst snd] in E; try discriminate.
  cbn [exec1] in E. unfold with_tree in E. destruct (nth_error (w_trees w1) i) as [t|] eqn:Et.
  - destruct (t_reattach C t (w_st w1)) as [[[id t']| | |] s'] eqn:Er; cbn [on_write bind fst snd] in E; try discriminate.
    + injection E as _ <-. cbn [w_trees]. assert (i < length (w_trees w1)) as Hi by (apply nth_error_Some; congruence).
      clear - Er Hi. revert i Hi. induction (w_trees w1) as [|x l IH]; intros [|i] Hi; cbn in *; try lia; [exact (reattach_clean C _ _ _ _ _ Er)|]. apply IH. lia.
    + injection E as E _. apply app_inj_tail in E as [_ E]. discriminate.
  - cbn [bind fst snd] in E. injection E as _ <-. now rewrite Et.
Qed.
Lemma nth_replace {A} i (x : A) l : i < length l -> nth_error (replace i x l) i = Some x.
Proof. revert i. induction l as [|y l IH]; intros [|i] H; cbn in *; try lia; [reflexivity|]. apply IH. lia. Qed.
Lemma book_changes i : forall cs xs oks b x, Forall2 (fun c x => change sz i c = Some x) cs xs -> length oks = length cs ->
  nth_error (owed b) i = Some x ->
  let b' := book sz b cs oks in nth_error (owed b') i = Some (x + list_sum xs) /\ spent b' = spent b.
Proof.
  intros cs xs oks b x F. revert oks b x. induction F as [|c y cs xs Hc F IH]; intros [|ok oks] b x El Ex; try discriminate; cbn [book].
  - cbn. rewrite Nat.add_0_r. auto.
  - assert (book1 sz b c ok = owe_more b i y) as ->.
    { destruct c; cbn [change book1] in *; try discriminate; (destruct (Nat.eqb_spec i0 i) as [->|]; [|discriminate]); now injection Hc as <-. }
    unfold owe_more, on_owed. rewrite Ex. destruct (IH oks (set_owed b i (x + y)) (x + y)) as [H1 H2].
    + now injection El.
    + cbn. apply nth_replace. apply nth_error_Some. congruence.
    + split; [|exact H2]. rewrite H1. cbn [list_sum fold_right]. f_equal. unfold list_sum. lia.
Qed.
Lemma book_nothing i : forall cs xs oks b, Forall2 (fun c x => change sz i c = Some x) cs xs -> nth_error (owed b) i = None -> book sz b cs oks = b.
Proof.
  intros cs xs oks b F N. revert oks. induction F as [|c y cs xs Hc F IH]; intros [|ok oks]; cbn [book]; auto.
  assert (book1 sz b c ok = b) as ->; [|apply IH].
  destruct c; cbn [change book1] in *; try discriminate; (destruct (Nat.eqb_spec i0 i) as [->|]; [|discriminate]); unfold owe_more, on_owed; now rewrite N.
Qed.
Lemma book_app : forall cs b c oks ok, length oks = length cs -> book sz b (cs ++ [c]) (oks ++ [ok]) = book1 sz (book sz b cs oks) c ok.
Proof.
  induction cs as [|c0 h IH]; intros b c [|o oks] ok E; try discriminate; [reflexivity|]. cbn. apply IH. now injection E.
Qed.

Lemma dirty_self ts : Forall2 (fun t x => dirty t <= x) ts (map dirty ts).
Proof. induction ts as [|t ts IH]; cbn; constructor; auto. Qed.
Lemma resave_from h i cs xs oks w oks' w' : history_ok dbg (h ++ cs ++ [CReattach i]) ->
  Forall2 (fun c x => change sz i c = Some x) cs xs -> Forall (measured sz) cs ->
  exec dbg C (start (S := C) (s, 0)) h ⇓ Ok (oks, w) ->
  match nth_error (w_trees w) i with Some t => dirty t = 0 | None => True end ->
  exec dbg C w (cs ++ [CReattach i]) ⇓ Ok (oks', w') ->
  snd (w_st w') <= snd (w_st w) + list_sum xs + 1.
Proof.
  intros Hh F Hm E D E2.
  set (b := Books (map dirty (w_trees w)) (length (w_ids w)) (snd (w_st w))).
  assert (balanced S w b) as B.
  { split; [apply dirty_self|]. split; [reflexivity|apply le_n]. }
  destruct (history_from (cs ++ [CReattach i]) _ oks w b oks' w' Hh) as [(_ & _ & Sp) El]; auto.
  { apply Forall_app. split; [exact Hm|]. repeat constructor. }
  rewrite app_length in El. cbn in El.
  destruct (rev oks') as [|ok r] eqn:Er.
  { apply (f_equal (@rev _)) in Er. rewrite rev_involutive in Er. subst. cbn in El. lia. }
  apply (f_equal (@rev _)) in Er. rewrite rev_involutive in Er. cbn in Er. subst oks'. rewrite app_length in El. cbn in El.
  rewrite book_app in Sp by lia. cbn [book1] in Sp. unfold on_owed in Sp.
  destruct (nth_error (w_trees w) i) as [t|] eqn:Et.
  - destruct (book_changes i cs xs (rev r) b 0 F) as [H1 H2]; [lia| |].
    + cbn. rewrite nth_error_map, Et. cbn. now rewrite D.
    + rewrite H1 in Sp. destruct ok; cbn [spent spend] in Sp; rewrite H2 in Sp; cbn in Sp; lia.
  - assert (nth_error (owed b) i = None) as Nb by (cbn; rewrite nth_error_map, Et; reflexivity).
    rewrite (book_nothing i cs xs (rev r) b F Nb), Nb in Sp. cbn in Sp. lia.
Qed.
Theorem resave h i cs xs oks w oks' w' : history_ok dbg (h ++ CReattach i :: cs ++ [CReattach i]) ->
  Forall2 (fun c x => change sz i c = Some x) cs xs -> Forall (measured sz) cs ->
  exec dbg C (start (S := C) (s, 0)) (h ++ [CReattach i]) ⇓ Ok (oks ++ [true], w) ->
  exec dbg C w (cs ++ [CReattach i]) ⇓ Ok (oks', w') ->
  snd (w_st w') <= snd (w_st w) + list_sum xs + 1.
Proof.
  intros Hh F Hm E E2. replace (h ++ CReattach i :: cs ++ [CReattach i]) with ((h ++ [CReattach i]) ++ (cs ++ [CReattach i])) in Hh by now rewrite <- app_assoc.
  assert (history_ok dbg (h ++ [CReattach i])) as Hh1 by (destruct Hh as [Hh|Hh]; apply Forall_app in Hh as [Hh _]; [left|right]; auto).
  exact (resave_from _ _ _ _ _ _ _ _ Hh F Hm E (reattach_dirty h i oks w Hh1 E) E2).
Qed.
Theorem load_save h j cs xs oks w oks' w' : let i := length (w_trees w) in
  history_ok dbg (h ++ CLoad j :: cs ++ [CReattach i]) ->
  Forall2 (fun c x => change sz i c = Some x) cs xs -> Forall (measured sz) cs ->
  exec dbg C (start (S := C) (s, 0)) h ⇓ Ok (oks, w) ->
  exec dbg C w (CLoad j :: cs ++ [CReattach i]) ⇓ Ok (oks', w') ->
  snd (w_st w') <= snd (w_st w) + list_sum xs + 1.
Proof.
  intros i Hh F Hm E (_ & n2 & E2).
  replace (h ++ CLoad j :: cs ++ [CReattach i]) with ((h ++ [CLoad j]) ++ (cs ++ [CReattach i])) in Hh by now rewrite <- app_assoc.
  pose proof (E2 n2 (le_n _)) as E0. cbn [exec] in E0.
  destruct (exec1 dbg C w (CLoad j) n2) as [[ok w1]| | |] eqn:El; cbn [bind fst snd] in E0; try discriminate.
  assert (forall n, exec1 dbg C w (CLoad j) n = Ok (ok, w1)) as Al by (intros n; rewrite <- El; reflexivity).
  destruct (exec dbg C w1 (cs ++ [CReattach i]) n2) as [[oks1 w2]| | |] eqn:E1; cbn [bind fst snd] in E0; try discriminate.
  injection E0 as <- <-.
  assert (w_st w1 = w_st w) as Es.
  { cbn [exec1] in El. destruct (nth_error (w_ids w) j); cbn [bind] in El; [|now injection El as _ <-].
    destruct (t_load C (w_st w) _) as [t| | |]; cbn [bind] in El; try discriminate; now injection El as _ <-. }
  rewrite <- Es. eapply (resave_from (h ++ [CLoad j]) i cs xs (oks ++ [ok]) w1 oks1 w2 Hh F Hm).
  - destruct E as (_ & n1 & E). split; [discriminate|]. exists n1. intros n Hn. rewrite exec_snoc, (E n Hn). cbn [bind fst snd]. now rewrite Al.
  - cbn [exec1] in El. destruct (nth_error (w_ids w) j) as [id|] eqn:Ej; cbn [bind] in El.
    + unfold t_load in El. destruct (st_read C (w_st w) id) as [d| | |]; cbn [bind] in El; try discriminate.
      destruct (deserialize d) as [t| | |] eqn:Et; cbn [bind] in El; try discriminate. injection El as _ <-.
      unfold add_tree. cbn [w_trees]. unfold i. rewrite nth_error_app2, Nat.sub_diag by apply le_n. cbn. exact (deserialize_dirty _ _ Et).
    + injection El as _ <-. unfold i. now rewrite (proj2 (nth_error_None _ _) (le_n _)).
  - split; [discriminate|]. exists n2. intros n Hn. specialize (E2 n Hn). cbn [exec] in E2. rewrite Al in E2. cbn [bind fst snd] in E2.
    destruct (exec dbg C w1 (cs ++ [CReattach i]) n) as [[oks3 w3]| | |]; cbn [bind fst snd] in E2; try discriminate. now injection E2 as <- <-.
Qed.
End Histories.
