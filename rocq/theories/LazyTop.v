(** How many blocks of the store the calls on an attached tree need. *)
From Verif Require Import Base BaseLemmas Header Node Combine Iter Api Tree Entries Rep Sim Store StoreSpec StoreProofs Spec Client
  Top TopOps MemLemmas JoinBase PrefixProofs FindProofs IterProofs ScanProofs World WorldProofs Logged StoreLemmas StoreTop AcceptProofs
  CostSpec CostProofs CostTop LazySpec LazyProofs LazyIter.

Lemma conv_any {A} (f : nat -> res A) n r : mono f -> r <> Fuel -> f n = r -> f ⇓ r.
Proof.
  intros M Hr E. split; [exact Hr|]. exists n. intros k L. destruct (M n k L) as [X|[[X _]|X]]; congruence.
Qed.
Lemma dep_det {A} n rd (f : reader -> nat -> res A) r n1 : f rd ⇓ r -> (forall rd', mono (f rd')) ->
  (forall fuel, n1 <= fuel -> dep rd n (fun rd' => f rd' fuel)) -> determined n rd f r.
Proof.
  intros (Hr & n0 & H0) M D. destruct (D (n0 + n1) ltac:(lia)) as (l & Hl & E). exists l. split; [exact Hl|].
  intros rd' Ha. apply (conv_any _ (n0 + n1)); [apply M|exact Hr|]. rewrite (E rd' Ha). apply H0. lia.
Qed.
Lemma dep_needs {A} n rd (f : reader -> nat -> res A) : (forall rd', mono (f rd')) ->
  (forall fuel, dep rd n (fun rd' => f rd' fuel)) -> needs n rd f.
Proof. intros M D r C. apply (dep_det n rd f r 0 C M). auto. Qed.

Lemma dep_opt rd o : dep rd 1 (fun rd => load_opt rd o).
Proof. destruct o as [b|]; cbn [load_opt]; [|dc]. apply (dep_bind_le _ 1 1 0); [apply dep_value|lia|]. intros; dc. Qed.
Lemma dep_entry rd o : dep rd 1 (fun rd => load_entry rd o).
Proof. destruct o as [[k b]|]; cbn [load_entry]; [|dc]. apply (dep_bind_le _ 1 1 0); [apply dep_value|lia|]. intros; dc. Qed.
Lemma dep_combiner rd h x y : dep rd 1 (fun rd => combiner_with rd detached_read h x y).
Proof.
  unfold combiner_with. apply (dep_bind_le _ 1 1 0); [apply dep_value|lia|]. intros; dc.
Qed.

Section Needs.
Context (dbg : bool) (S : store) (inv : st S -> Prop) (L : lawful S inv).
Context (s : st S) (t : node) (m : kmap) (A : attached dbg S inv s t m).
Notation rd := (st_read S s).

Lemma at_good' : exists ids g, good ids rd t g /\ same m (lookup g).
Proof.
  destruct (attached_good dbg S inv L s t m A) as (_ & ids & g & G & E). exists ids, g. split; [exact G|].
  intros k. symmetry. apply E.
Qed.

Lemma needs_find B (f : find_result -> reader -> res B) k n : (forall x, dep rd n (f x)) ->
  forall fuel, dep rd (2 * length k + 2 + n) (fun rd => x <- find rd fuel (ROwned t) k ;; f x rd).
Proof.
  intros Hf fuel. destruct at_good' as (ids & g & (R & C & _) & _).
  apply (dep_bind_le _ _ (2 * length k + 2) n); [|lia|intros; apply Hf].
  apply (find_dep ids rd fuel (ROwned t) g k); [apply (Rep_NRep _ _ True _ _ R)|exact C|unfold bytes in *; lia].
Qed.
Lemma needs_get k : needs (2 * length k + 3) rd (fun rd => get_bytes rd t k).
Proof.
  apply dep_needs.
  - intros rd'. unfold get_bytes. apply mono_bind; [|intros; apply mono_const]. intros a b Lab. apply get_sim; [apply rsim_refl|exact Lab].
  - intros fuel. destruct (needs_find _ (fun x rd => load_opt rd (match x with Found t => r_value_opt t | _ => None end)) k 1) with (fuel := fuel) as (l & Hl & E).
    { intros x. apply dep_opt. }
    exists l. split; [lia|]. intros rd' Ha. specialize (E rd' Ha). unfold get_bytes, t_get, get.
    destruct (find rd' fuel (ROwned t) k), (find rd fuel (ROwned t) k); cbn [bind] in *; exact E.
Qed.
Lemma needs_contains k : needs (2 * length k + 2) rd (fun rd => t_contains_key rd t k).
Proof.
  apply dep_needs.
  - intros rd' a b Lab. apply contains_key_sim; [apply rsim_refl|exact Lab].
  - intros fuel. rewrite <- (Nat.add_0_r (2 * length k + 2)). apply (needs_find _ (fun x _ => Ok (match x with
      | Found t => match r_value_opt t with Some _ => true | None => false end
      | _ => false
      end)) k 0). intros x; dc.
Qed.
Lemma needs_has_prefix k : needs (2 * length k + 2) rd (fun rd => t_has_prefix rd t k).
Proof.
  apply dep_needs.
  - intros rd' a b Lab. apply has_prefix_sim; [apply rsim_refl|exact Lab].
  - intros fuel. rewrite <- (Nat.add_0_r (2 * length k + 2)). apply (needs_find _ (fun x _ => Ok (match x with
      | Found _ => true | Prefix _ _ => true | NotFound => false end)) k 0). intros x; dc.
Qed.
Lemma needs_filter k s' : needs (2 * length k + 3) rd (fun rd => t_filter_prefix rd t k s').
Proof.
  apply dep_needs.
  - intros rd' a b Lab. apply filter_prefix_sim; [apply rsim_refl|exact Lab].
  - intros fuel. replace (2 * length k + 3) with (2 * length k + 2 + 1) by lia. unfold t_filter_prefix, filter_prefix.
    apply (needs_find _ (fun x rd => match x with
      | Found t => m <- r_to_owned t ;; Ok (set_prefix_slice m s')
      | Prefix t matching => tp <- load_prefix rd (r_prefix t) ;; m <- r_to_owned t ;;
          rest <- slice_from matching tp ;; Ok (set_prefix_slice m (s' ++ rest))
      | NotFound => Ok n_empty end) k 1).
    intros [r|r n|]; try dc. apply (dep_bind_le _ 1 1 0); [apply dep_prefix|lia|]. intros; dc.
Qed.

(** ** Writes *)
Lemma needs_insert k v : needs (2 * length k + 2) rd (fun rd => t_insert dbg rd t k v).
Proof.
  destruct at_good' as (ids & g & (R & C & _) & _). pose proof (good_single false detached_read k v) as (R' & C' & _).
  apply dep_needs; [intros rd'; apply mono_insert|]. intros fuel. unfold t_insert.
  apply (outer_dep dbg ids rd 2 downcast_converter (fun _ _ r => Ok r) 0 ltac:(intros; dc) ltac:(lia) fuel t g _ _ _ R (edges_croot _ C) R' (edges_croot _ C')).
  cbn [psum map list_sum fold_right]. unfold bytes in *. lia.
Qed.
Lemma needs_remove k : needs (2 * length k + 2) rd (fun rd => t_remove dbg rd t k).
Proof.
  destruct at_good' as (ids & g & (R & C & _) & _). pose proof (good_single false detached_read k []) as (R' & C' & _).
  apply dep_needs; [intros rd'; apply mono_remove|]. intros fuel. unfold t_remove.
  apply (left_dep dbg ids rd 2 (fun _ _ _ => Ok bnone) 0 ltac:(intros; dc) ltac:(lia) fuel t g _ _ _ R (edges_croot _ C) R' (edges_croot _ C')).
  cbn [psum map list_sum fold_right]. unfold bytes in *. lia.
Qed.
Lemma needs_remove_prefix k : needs (2 * length k + 2) rd (fun rd => t_remove_prefix dbg rd t k).
Proof.
  destruct at_good' as (ids & g & (R & C & _) & _). pose proof (good_single false detached_read k []) as (R' & C' & _).
  apply dep_needs; [intros rd'; apply mono_remove_prefix_with|]. intros fuel. unfold t_remove_prefix, t_remove_prefix_with.
  apply (remove_dep dbg ids rd 2 (fun _ => Ok true) ltac:(lia) fuel t g _ _ _ R (edges_croot _ C) R' (edges_croot _ C')).
  cbn [psum map list_sum fold_right]. unfold bytes in *. lia.
Qed.

(** ** Combines with an in-memory tree *)
Section With.
Context (u : node) (mu : kmap) (l : list (bytes * bytes)) (U : reachable dbg u) (H : holds detached_read u mu) (Hl : lists l mu).

Lemma second : exists gu, Rep false detached_read u gu /\ croot gu /\ psum gu <= key_bytes l.
Proof.
  destruct (reachable_good dbg u U) as (g & R & C & _). exists g. split; [exact R|]. split; [exact C|].
  assert (lists (entries [] g) mu) as Hg.
  { apply lists_entries; [exact C|]. exact (holds_lookup false detached_read u g mu R C H). }
  assert (l = entries [] g) as -> by exact (lists_where_unique _ _ _ _ Hl Hg).
  now apply croot_bytes.
Qed.
Lemma needs_outer h : needs (3 * (key_bytes l + 1)) rd
  (fun rd => t_outer_combine_with dbg rd detached_read (detach_converter detached_read) t u (combiner_with rd detached_read h)).
Proof.
  destruct at_good' as (ids & g & (R & C & _) & _). destruct second as (gu & R' & C' & Le).
  apply dep_needs.
  { intros rd' a b Lab. apply outer_combine_with_sim; auto using rsim_refl, sim_refl.
    - intros. apply r_detached_sim; auto using rsim_refl.
    - intros. apply detach_conv_sim; auto using rsim_refl. }
  intros fuel. unfold t_outer_combine_with.
  apply (outer_dep dbg ids rd 3 _ _ 1 (dep_combiner rd h) ltac:(lia) fuel t g _ _ _ R (edges_croot _ C) R' (edges_croot _ C')).
  unfold bytes in *. lia.
Qed.
Lemma needs_inner h : needs (3 * (key_bytes l + 1)) rd
  (fun rd => t_inner_combine_with dbg rd detached_read t u (combiner_with rd detached_read h)).
Proof.
  destruct at_good' as (ids & g & (R & C & _) & _). destruct second as (gu & R' & C' & Le).
  apply dep_needs. { intros rd' a b Lab. apply inner_combine_with_sim; auto using rsim_refl, sim_refl. }
  intros fuel. unfold t_inner_combine_with.
  apply (inner_dep dbg ids rd 3 _ 1 (dep_combiner rd h) ltac:(lia) fuel t g _ _ _ R (edges_croot _ C) R' (edges_croot _ C')).
  unfold bytes in *. lia.
Qed.
Lemma needs_left h : needs (3 * (key_bytes l + 1)) rd
  (fun rd => t_left_combine_with dbg rd detached_read t u (combiner_with rd detached_read h)).
Proof.
  destruct at_good' as (ids & g & (R & C & _) & _). destruct second as (gu & R' & C' & Le).
  apply dep_needs. { intros rd' a b Lab. apply left_combine_with_sim; auto using rsim_refl, sim_refl. }
  intros fuel. unfold t_left_combine_with.
  apply (left_dep dbg ids rd 3 _ 1 (dep_combiner rd h) ltac:(lia) fuel t g _ _ _ R (edges_croot _ C) R' (edges_croot _ C')).
  unfold bytes in *. lia.
Qed.
Lemma needs_remove_with f : needs (2 * (key_bytes l + 1)) rd
  (fun rd => t_remove_prefix_with dbg rd detached_read t u (selector detached_read f)).
Proof.
  destruct at_good' as (ids & g & (R & C & _) & _). destruct second as (gu & R' & C' & Le).
  apply dep_needs. { intros rd'. apply mono_remove_prefix_with. }
  intros fuel. unfold t_remove_prefix_with.
  apply (remove_dep dbg ids rd 2 _ ltac:(lia) fuel t g _ _ _ R (edges_croot _ C) R' (edges_croot _ C')).
  unfold bytes in *. lia.
Qed.
Lemma needs_retain_with f : needs (2 * (key_bytes l + 1)) rd
  (fun rd => t_retain_prefix_with dbg rd detached_read t u (selector detached_read f)).
Proof.
  destruct at_good' as (ids & g & (R & C & _) & _). destruct second as (gu & R' & C' & Le).
  apply dep_needs. { intros rd'. apply mono_retain_prefix_with. }
  intros fuel. unfold t_retain_prefix_with.
  apply (retain_dep dbg ids rd 2 _ ltac:(lia) fuel t g _ _ _ R (edges_croot _ C) R' (edges_croot _ C')).
  unfold bytes in *. lia.
Qed.
End With.

(** ** First and last *)
Lemma needs_first_last p : exists l, lists l m /\
  needs (2 * key_len (first_of l) + 3) rd (fun rd => first_entry_bytes rd t p) /\
  needs (2 * key_len (last_of l) + 3) rd (fun rd => last_entry_bytes rd t p) /\
  needs (key_len (first_of l) + 2) rd (fun rd => first_value_bytes rd t) /\
  needs (key_len (last_of l) + 2) rd (fun rd => last_value_bytes rd t).
Proof.
  destruct at_good' as (ids & g & (R & C & _) & E). exists (entries [] g).
  assert (NRep ids rd True (ROwned t) g) as N by (split; [now right|]; exists t; auto).
  split; [now apply lists_entries|]. split; [|split; [|split]].
  - apply dep_needs.
    + intros rd'. unfold first_entry_bytes. apply mono_bind; [|intros; apply mono_const]. intros a b Lab. apply first_entry_sim; [apply rsim_refl|exact Lab].
    + intros fuel. apply (dep_bind_le _ _ (2 * key_len (first_of (entries [] g)) + 2) 1); [|lia|intros; apply dep_entry].
      apply (first_entry_dep ids rd fuel p _ g _ N C). rewrite (entries_path_map g p).
      destruct (entries [] g) as [|e es]; cbn [map first_of hd_error key_len fst]; [lia|]. rewrite app_length. unfold bytes in *. lia.
  - apply dep_needs.
    + intros rd'. unfold last_entry_bytes. apply mono_bind; [|intros; apply mono_const]. intros a b Lab. apply last_entry_sim; [apply rsim_refl|exact Lab].
    + intros fuel. apply (dep_bind_le _ _ (2 * key_len (last_of (entries [] g)) + 2) 1); [|lia|intros; apply dep_entry].
      apply (last_entry_dep ids rd fuel p _ g _ N C). rewrite (entries_path_map g p), last_error_last_of, last_of_map.
      assert (forall o X, match option_map (fun e : bytes * bytes => (p ++ fst e, snd e)) o with
        | Some e => 2 * length (fst e) + 2 <= 2 * key_len o + 2 + 2 * length p + X
        | None => 2 <= 2 * key_len o + 2 end) as Q.
      { intros [e|] X; cbn [option_map key_len fst]; [|lia]. rewrite app_length. unfold bytes in *. lia. }
      exact (Q (last_of (entries [] g)) _).
  - apply dep_needs.
    + intros rd'. unfold first_value_bytes. apply mono_bind; [|intros; apply mono_const]. intros a b Lab. apply first_value_sim; [apply rsim_refl|exact Lab].
    + intros fuel. apply (dep_bind_le _ _ (key_len (first_of (entries [] g)) + 1) 1); [|lia|intros; apply dep_opt].
      apply (first_value_dep ids rd fuel [] _ g _ N C).
      destruct (entries [] g) as [|e es]; cbn [first_of hd_error key_len fst length]; unfold bytes in *; lia.
  - apply dep_needs.
    + intros rd'. unfold last_value_bytes. apply mono_bind; [|intros; apply mono_const]. intros a b Lab. apply last_value_sim; [apply rsim_refl|exact Lab].
    + intros fuel. apply (dep_bind_le _ _ (key_len (last_of (entries [] g)) + 1) 1); [|lia|intros; apply dep_opt].
      apply (last_value_dep ids rd fuel [] _ g _ N C). rewrite last_error_last_of.
      change (@last_of (list byte * list byte) (entries [] g)) with (@last_of (bytes * bytes) (entries [] g)) in *. destruct (@last_of (bytes * bytes) (entries [] g)) as [e|]; cbn [key_len fst length]; unfold bytes in *; lia.
Qed.

(** ** Iterators *)
Lemma erel_len l l' : Forall2 (erel rd) l l' -> length l = length l'.
Proof. apply Forall2_len. Qed.
Lemma sub_collect ids fuel path n' t' l : Rep ids rd n' t' -> croot t' -> length (entries path t') + 3 * size t' + 5 < fuel ->
  (l0 <- collect (kv_next rd) fuel (KV path [(0, Some (IOwned [n']))]) ;; load_entries rd l0) = Ok l ->
  dep rd (5 * length l + 2) (fun rd => l0 <- collect (kv_next rd) fuel (KV path [(0, Some (IOwned [n']))]) ;; load_entries rd l0).
Proof.
  intros R' C' Hf E. destruct (kv_collect_ok ids rd fuel path n' t' R' C') as (l0 & E0 & F); [lia|].
  rewrite E0 in E. cbn [bind] in E.
  assert (length l0 = length l) as Ll.
  { clear -E. revert l E. induction l0 as [|[k b] l0 IH]; intros l E; cbn [load_entries] in E; [injection E as <-; reflexivity|].
    destruct (value_load rd b); try discriminate. cbn [bind] in E. destruct (load_entries rd l0) as [xs| | |]; try discriminate.
    injection E as <-. cbn. f_equal. now apply IH. }
  pose proof (erel_len _ _ F) as Lf. pose proof (croot_size t' C') as Sz.
  rewrite (entries_path path), map_length in Lf.
  apply (dep_bind_le _ _ (2 * size t') (length l)); [|unfold bytes in *; lia|].
  - eapply dep_weaken; [apply (collect_dep ids rd fuel path [(0, Some (IOwned [n']))] (sizes [t'] + 0))|change (sizes [t']) with (size t' + 0); lia].
    apply KS_cons; [|constructor]. cbn [frame]. split; [left; eauto|]. exists [n']. cbn. auto.
  - intros l1 E1. rewrite E0 in E1. injection E1 as <-. rewrite <- Ll. apply entries_dep.
Qed.
Lemma needs_scan k l : scan_bytes rd t k ⇓ Ok l ->
  determined (2 * length k + 5 * length l + 4) rd (fun rd => scan_bytes rd t k) (Ok l).
Proof.
  intros Cl. destruct at_good' as (ids & g & (R & C & _) & _). pose proof Cl as (_ & n0 & Cn).
  apply (dep_det _ _ _ _ (n0 + 4 * size g + 17) Cl).
  { intros rd'. unfold scan_bytes. apply mono_bind; [apply mono_scan|intros; apply mono_const]. }
  intros fuel Hf. specialize (Cn fuel ltac:(lia)). unfold scan_bytes, t_scan_prefix, scan_prefix in *.
  destruct (find_ok ids rd fuel (ROwned t) g k (Rep_NRep _ _ _ _ _ R) C ltac:(lia)) as (x & Ex & Hp).
  apply (dep_ext _ _ _ (fun rd => x <- find rd fuel (ROwned t) k ;; l0 <- (s0 <- (match x with
      | Found t => m <- r_to_owned t ;; Ok (KV k [(0, Some (IOwned [m]))])
      | Prefix t matching => m <- r_to_owned t ;; p <- slice_to (length k - matching) k ;; Ok (KV p [(0, Some (IOwned [m]))])
      | NotFound => Ok (KV [] []) end) ;; collect (kv_next rd) fuel s0) ;; load_entries rd l0)).
  { intros rd'. destruct (find rd' fuel (ROwned t) k); reflexivity. }
  rewrite Ex in Cn. cbn [bind] in Cn.
  apply (dep_bind_le _ _ (2 * length k + 2) (5 * length l + 2)).
  { apply (find_dep ids rd fuel (ROwned t) g k); [apply (Rep_NRep _ _ True _ _ R)|exact C|unfold bytes in *; lia]. }
  { lia. }
  intros x' Ex'. rewrite Ex in Ex'. injection Ex' as <-.
  destruct x as [r|r n|]; cbn [find_post] in Hp.
  - destruct Hp as (t' & N' & C' & (p & Ep) & Sz & Hcc & Hz). destruct N' as [_ (n' & E' & R')]. rewrite E' in *. cbn [bind] in *.
    apply (sub_collect ids fuel k n' t' l R' C'); [|exact Cn]. pose proof (entries_size k t'). lia.
  - destruct Hp as (t' & N' & C' & Ln & (p & Ep) & Lk & Sz & Hz). destruct N' as [_ (n' & E' & R')]. rewrite E' in *. cbn [bind] in *.
    destruct (slice_to _ k) as [p'| | |]; try discriminate. cbn [bind] in *.
    apply (sub_collect ids fuel p' n' t' l R' C'); [|exact Cn]. pose proof (entries_size p' t'). lia.
  - cbn [bind]. apply dep_same. intros rd'. destruct fuel as [|[|fuel]]; reflexivity.
Qed.

Lemma mono_take rd' s0 j : mono (fun fuel => take rd' fuel j s0).
Proof.
  revert s0. induction j as [|j IH]; intros s0; cbn [take]; [apply mono_const|].
  intros a b Lab. destruct (kv_next_sim false rd' rd' (rsim_refl false rd') a b s0 Lab) as [E|[[E _]|E]]; [rewrite E; apply sim_fuel|discriminate|].
  rewrite E. destruct (kv_next rd' b s0) as [[[| |] s1]| | |]; cbn [bind]; try apply sim_refl.
  apply sim_bind; [now apply IH|]. intros; apply sim_refl.
Qed.
Lemma needs_take j : exists l, lists l m /\ first_entries rd t j ⇓ Ok (firstn j l) /\
  determined (2 * key_bytes (firstn j l) + length (firstn j l) + 2) rd (fun rd => first_entries rd t j) (Ok (firstn j l)).
Proof.
  destruct at_good' as (ids & g & (R & C & _) & E). exists (entries [] g). split; [now apply lists_entries|].
  assert (first_entries rd t j ⇓ Ok (firstn j (entries [] g))) as Cv.
  { apply conv_from with (n := 4 + 3 * size g). intros n Hn. unfold first_entries.
    destruct (take_root_ok ids rd n j t g R C ltac:(lia)) as (l & -> & F). cbn [bind]. now apply load_entries_ok. }
  split; [exact Cv|]. apply (dep_det _ _ _ _ (4 + 3 * size g) Cv).
  { intros rd'. unfold first_entries. apply mono_bind; [apply mono_take|intros; apply mono_const]. }
  intros fuel Hf. unfold first_entries.
  apply (dep_bind_le _ _ (2 * klen (firstn j (entries [] g)) + 2) (length (firstn j (entries [] g)))).
  - apply (take_root_dep ids rd fuel j t g R C). lia.
  - unfold klen, key_bytes. lia.
  - destruct (take_root_ok ids rd fuel j t g R C ltac:(lia)) as (l & El & F). intros l' El'. rewrite El in El'. injection El' as <-.
    rewrite <- (erel_len _ _ F). apply entries_dep.
Qed.
End Needs.
