(** What programs on nodes guarantee: values as without sharing, and no memory left. *)
From Verif Require Import Base BaseLemmas Header Node Store Heap HeapSpec HeapProofs HeapOps HeapRun.

Section Ind.
Context (P : node -> Prop).
Context (Harc : forall p v ns, Forall P ns -> P (Node p v (KArc ns))).
Context (Hid : forall p v id, P (Node p v (KId id))).
Fixpoint hnode_ind (n : node) : P n :=
  match n with
  | Node p v (KArc l) => Harc p v l ((fix go (l : list node) : Forall P l :=
      match l with [] => Forall_nil P | x :: l' => Forall_cons x (hnode_ind x) (go l') end) l)
  | Node p v (KId i) => Hid p v i
  end.
End Ind.

Lemma shows_arc h p v ns c : shows h (Node p v (KArc ns)) c <->
  blob_shows h p (c_ph c) (c_p c) /\ blob_shows h v (c_vh c) (c_v c) /\
  exists a cs, h_children c h = Done (RArc a, h) /\ vec_get a h = Done (cs, h) /\ Forall2 (shows h) ns cs.
Proof.
  cbn [shows]. apply and_iff_compat_l, and_iff_compat_l.
  split; intros (a & cs & H1 & H2 & H3); exists a, cs; (split; [exact H1|]); (split; [exact H2|]); clear -H3.
  - revert cs H3. induction ns as [|n ns IH]; intros [|c cs] H; try tauto; constructor; [apply H|apply IH, H].
  - induction H3; auto.
Qed.

Lemma blob_shows_ok h G R b hdr w : inv h G R -> brep G hdr w b -> live h (field_items BytesK hdr w) -> blob_shows h b hdr w.
Proof. intros I B L. split; [apply (blob_read_ok _ _ _ _ _ _ I B L)|apply (brep_is_id _ _ _ _ B)]. Qed.
Lemma shows_ok h G R : inv h G R -> forall n c, crep G c n -> live h (node_items c) -> shows h n c.
Proof.
  intros I. induction n as [p v ns IH|p v id] using hnode_ind; intros c C L.
  - apply shows_arc. pose proof (h_children_ok _ _ _ _ _ I C L) as K. cbn [n_kids] in K. destruct K as (a & Ec & Ga & K).
    assert (0 < cnt h a) as Ca.
    { apply L. destruct C as (_ & _ & C). destruct C as [Hh _].
      rewrite (node_items_arc c a Hh Ec), !occ_app. cbn. rewrite Nat.eqb_refl. lia. }
    destruct (vec_get_ok _ _ _ _ _ I Ca Ga) as (k & cs & En & _ & Vg & Hcs).
    rewrite node_items_split, !live_app in L. destruct C as (P & V & _), L as (L1 & L2 & _).
    split; [apply (blob_shows_ok _ _ _ _ _ _ I P L1)|]. split; [apply (blob_shows_ok _ _ _ _ _ _ I V L2)|].
    exists a, cs. split; [exact K|]. split; [exact Vg|].
    pose proof (inv_live_cell _ _ _ _ _ _ I En) as Lc. cbn [cell_items] in Lc. clear -IH Hcs Lc.
    induction Hcs as [|c n cs ns H1 H2 IH2]; [constructor|]. cbn [flat_map] in Lc. rewrite live_app in Lc.
    inversion IH; subst. destruct Lc. constructor; auto.
  - cbn [shows]. pose proof (h_children_ok _ _ _ _ _ I C L) as K. cbn [n_kids] in K.
    rewrite node_items_split, !live_app in L. destruct C as (P & V & _), L as (L1 & L2 & _).
    split; [apply (blob_shows_ok _ _ _ _ _ _ I P L1)|]. split; [apply (blob_shows_ok _ _ _ _ _ _ I V L2)|exact K].
Qed.
Lemma slot_shows_ok h G R s f : inv h G R -> srep G s f -> live h (slot_items s) -> slot_shows h f s.
Proof.
  intros I Hs L. destruct s as [c|hd w|a|], f as [n|b|ns|]; cbn [srep slot_items slot_shows] in *; try tauto.
  - apply (shows_ok _ _ _ I _ _ Hs L).
  - apply (blob_shows_ok _ _ _ _ _ _ I Hs L).
  - assert (0 < cnt h a) as Ca. { apply L. cbn. rewrite Nat.eqb_refl. lia. }
    destruct (vec_get_ok _ _ _ _ _ I Ca Hs) as (k & cs & En & _ & Vg & Hcs). exists cs. split; [exact Vg|].
    pose proof (inv_live_cell _ _ _ _ _ _ I En) as Lc. cbn [cell_items] in Lc. clear -I Hcs Lc.
    induction Hcs as [|c n cs ns H1 H2 IH2]; [constructor|]. cbn [flat_map] in Lc. rewrite live_app in Lc.
    destruct Lc as [L1 L2]. constructor; [apply (shows_ok _ _ _ I _ _ H1 L1)|auto].
Qed.

Lemma inv_empty G : inv [] G [].
Proof.
  constructor; [|intros [|a]; discriminate|constructor].
  intros a. unfold cnt. destruct a; reflexivity.
Qed.
Definition G0 : ghost := fun _ => GB [].

Lemma run_start dbg p fe l : f_run dbg p [] = Some (fe, l) ->
  exists e h G lk, h_run dbg p [] [] = Done (e, h) /\ inv h G (items e ++ lk) /\ Forall2 (srep G) e fe /\
    leaks_ok G lk /\ length lk = l.
Proof.
  intros F. apply (run_ok dbg p [] [] fe l [] [] G0); [apply inv_empty|constructor|constructor|exact F].
Qed.

Lemma run_shows dbg p fe l : f_run dbg p [] = Some (fe, l) ->
  exists e h, h_run dbg p [] [] = Done (e, h) /\ Forall2 (slot_shows h) fe e.
Proof.
  intros F. destruct (run_start _ _ _ _ F) as (e & h & G & lk & D & I & He & _). exists e, h. split; [exact D|].
  assert (live h (items e)) as L. { apply (inv_live_roots _ _ _ _ I). occ_solve. }
  clear D F. induction He as [|s f e fe H1 H2 IH] in L, I |- *; [constructor|].
  assert (forall e fe, Forall2 (srep G) e fe -> live h (items e) -> Forall2 (slot_shows h) fe e) as A.
  { clear -I. intros e0 fe0 He0 L0. induction He0 as [|s0 f0 e0 fe0 H1 H2 IH]; [constructor|].
    cbn [flat_map] in L0. rewrite live_app in L0. destruct L0 as [L1 L2].
    constructor; [apply (slot_shows_ok _ _ _ _ _ I H1 L1)|auto]. }
  apply A; [constructor; assumption|exact L].
Qed.

(** ** Memory that is left *)
Fixpoint nsize (n : node) : nat :=
  match n with
  | Node _ _ (KArc ns) => 2 + (fix go l := match l with [] => 0 | x :: l' => nsize x + go l' end) ns
  | Node _ _ (KId _) => 1
  end.
Fixpoint lsize (ns : list node) : nat := match ns with [] => 0 | n :: ns => nsize n + lsize ns end.
Lemma nsize_arc p v ns : nsize (Node p v (KArc ns)) = 2 + lsize ns.
Proof. reflexivity. Qed.
Definition gsize (g : gcell) : nat := match g with GB _ => 0 | GN ns => 1 + lsize ns end.

Lemma brep_gb G h w b a : brep G h w b -> In (BytesK, Ptr a) (field_items BytesK h w) -> gsize (G a) = 0.
Proof.
  intros B Hin. pose proof (brep_items _ _ _ _ B) as It. rewrite Forall_forall in It.
  destruct (It _ Hin) as (a' & E & K). cbn in E, K. assert (a' = a) as -> by congruence.
  destruct (G a); [reflexivity|discriminate K].
Qed.
Lemma field_one k h w k' w' : In (k', w') (field_items k h w) -> k' = k /\ w' = w.
Proof. unfold field_items. destruct (is_arc h); cbn; [|tauto]. intros [E|[]]. split; congruence. Qed.
Lemma crep_smaller G c n k a : crep G c n -> In (k, Ptr a) (node_items c) -> gsize (G a) < nsize n.
Proof.
  intros (P & V & K) Hin. rewrite node_items_split, !in_app_iff in Hin.
  assert (0 < nsize n) as Hn. { destruct n as [? ? [|]]; cbn; lia. }
  destruct Hin as [Hin|[Hin|Hin]].
  - destruct (field_one _ _ _ _ _ Hin) as [-> _]. rewrite (brep_gb _ _ _ _ _ P Hin). exact Hn.
  - destruct (field_one _ _ _ _ _ Hin) as [-> _]. rewrite (brep_gb _ _ _ _ _ V Hin). exact Hn.
  - destruct n as [p v [ns|id]]; cbn [n_kids] in K.
    + destruct K as (Hh & a' & Ea & Ga). destruct (field_one _ _ _ _ _ Hin) as [_ E].
      assert (a' = a) as -> by congruence. rewrite Ga, nsize_arc. cbn [gsize]. lia.
    + cbn [krep] in K. unfold c_items, kids_kind in Hin. rewrite (brep_is_id _ _ _ _ K) in Hin. cbn [blob_is_id] in Hin.
      destruct (field_one _ _ _ _ _ Hin) as [-> _]. rewrite (brep_gb _ _ _ _ _ K Hin). exact Hn.
Qed.
Lemma cell_smaller G x g k a : grep G x g -> In (k, Ptr a) (cell_items x) -> gsize (G a) < gsize g.
Proof.
  destruct x as [b|cs], g as [b'|ns]; cbn [grep cell_items]; try easy. intros H Hin.
  assert (gsize (G a) < lsize ns) as L; [|cbn [gsize]; lia].
  induction H as [|c n cs ns H1 H2 IH]; [easy|]. cbn [flat_map] in Hin. rewrite in_app_iff in Hin. cbn [lsize].
  destruct Hin as [Hin|Hin]; [pose proof (crep_smaller _ _ _ _ _ H1 Hin); lia|specialize (IH Hin); lia].
Qed.
Lemma occ_pos_in a l : 0 < occ a l -> exists k, In (k, Ptr a) l.
Proof.
  induction l as [|[k [b|b]] l IH]; cbn [occ]; [lia| |].
  - intros H. destruct (IH H) as (k' & Hk). exists k'. now right.
  - destruct (Nat.eqb_spec b a) as [->|]; [exists k; now left|]. intros H. destruct (IH H) as (k' & Hk). exists k'. now right.
Qed.
Lemma occ_heap_pos a h : 0 < occ_heap a h -> exists b n x k, nth_error h b = Some (Some (n, x)) /\ In (k, Ptr a) (cell_items x).
Proof.
  unfold occ_heap, list_sum. induction h as [|[[n x]|] h IH]; cbn [map fold_right]; [lia| |].
  - cbn [occ_entry]. intros H. destruct (Nat.eq_dec (occ a (cell_items x)) 0) as [E|E].
    + destruct IH as (b & m & y & k & Hb & Hk); [lia|]. exists (S b), m, y, k. auto.
    + destruct (occ_pos_in a (cell_items x)) as (k & Hk); [lia|]. exists 0, n, x, k. auto.
  - intros H. destruct IH as (b & m & y & k & Hb & Hk); [exact H|]. exists (S b), m, y, k. auto.
Qed.

Definition gmax (G : ghost) (h : heap) : nat := list_sum (map (fun a => gsize (G a)) (seq 0 (length h))).
Lemma gmax_le G h a : a < length h -> gsize (G a) <= gmax G h.
Proof.
  intros H. unfold gmax. apply (sum_nth (fun a => gsize (G a)) a a).
  rewrite nth_error_nth' with (d := 0) by (now rewrite seq_length). now rewrite seq_nth.
Qed.

Lemma all_leaked h G lk : inv h G lk -> leaks_ok G lk ->
  forall a n x, nth_error h a = Some (Some (n, x)) -> 0 < occ a lk /\ x = CNodes [].
Proof.
  intros I Lk.
  assert (forall a n x, nth_error h a = Some (Some (n, x)) -> 0 < occ a lk -> x = CNodes []) as Hx.
  { intros a n x En Ho. destruct (occ_pos_in _ _ Ho) as (k & Hin). unfold leaks_ok in Lk. rewrite Forall_forall in Lk.
    destruct (Lk _ Hin) as (a' & E & Ga). assert (a' = a) as -> by congruence.
    destruct (i_cell _ _ _ I _ _ _ En) as [_ Hg]. rewrite Ga in Hg. destruct x as [|cs]; cbn in Hg; [tauto|].
    now inversion Hg. }
  assert (forall s a n x, nth_error h a = Some (Some (n, x)) -> gmax G h <= s + gsize (G a) -> 0 < occ a lk) as Hl.
  { induction s as [|s IH]; intros a n x En Hs; destruct (Nat.eq_dec (occ a lk) 0) as [E|]; try lia.
    all: pose proof (i_cnt _ _ _ I a) as C; unfold cnt in C; rewrite En in C; cbn [count_of] in C;
      destruct (i_cell _ _ _ I _ _ _ En) as [Hn _];
      destruct (occ_heap_pos a h) as (b & m & y & k & Eb & Hin); [lia|];
      destruct (i_cell _ _ _ I _ _ _ Eb) as [_ Hg]; pose proof (cell_smaller _ _ _ _ _ Hg Hin) as Sm.
    - assert (b < length h) as Hb by (apply nth_error_Some; congruence). pose proof (gmax_le G h b Hb). lia.
    - assert (0 < occ b lk) as Ob by (apply (IH b m y Eb); lia). rewrite (Hx b m y Eb Ob) in Hin. destruct Hin. }
  intros a n x En. assert (0 < occ a lk) as Ho by (apply (Hl (gmax G h) a n x En); lia).
  split; [exact Ho|apply (Hx a n x En Ho)].
Qed.

Lemma in_use_in h e : In e (in_use h) -> exists a, nth_error h a = Some (Some e).
Proof.
  unfold in_use. rewrite in_flat_map. intros (o & Ho & He). destruct o as [x|]; [|easy]. destruct He as [->|[]].
  apply (In_nth_error _ _ Ho).
Qed.
Lemma in_use_total h : list_sum (map fst (in_use h)) = total h.
Proof.
  unfold in_use, total. induction h as [|[[n x]|] h IH]; [reflexivity| |exact IH].
  cbn [flat_map map app fst count_of]. change (n + list_sum (map fst (flat_map (fun e => match e with Some x => [x] | None => [] end) h)) = n + list_sum (map count_of h)).
  now rewrite IH.
Qed.
Lemma total_seq h : total h = list_sum (map (cnt h) (seq 0 (length h))).
Proof.
  unfold total. f_equal. apply nth_ext with (d := 0) (d' := 0); [now rewrite !map_length, seq_length|].
  rewrite map_length. intros i Hi. rewrite (nth_indep _ 0 (count_of None)) by now rewrite map_length.
  rewrite map_nth. rewrite (nth_indep _ 0 (cnt h 0)) by now rewrite map_length, seq_length.
  rewrite map_nth, seq_nth by exact Hi. unfold cnt. cbn. rewrite (nth_error_nth' h None Hi). now destruct (nth i h None) as [[? ?]|].
Qed.
Lemma sum_add (f g : nat -> nat) l : list_sum (map (fun a => f a + g a) l) = list_sum (map f l) + list_sum (map g l).
Proof.
  induction l as [|x l IH]; [reflexivity|]. unfold list_sum in *. cbn [map fold_right]. lia.
Qed.
Lemma sum_hit b n : forall s, s <= b -> b < s + n -> list_sum (map (fun a => if b =? a then 1 else 0) (seq s n)) = 1.
Proof.
  induction n as [|n IH]; intros s H1 H2; [lia|]. cbn [seq map]. unfold list_sum in *. cbn [fold_right].
  destruct (Nat.eqb_spec b s) as [->|Hne].
  - assert (forall t, s < t -> fold_right Nat.add 0 (map (fun a => if s =? a then 1 else 0) (seq t n)) = 0) as Z.
    { clear. induction n as [|n IH]; intros t Ht; [reflexivity|]. cbn [seq map fold_right].
      destruct (Nat.eqb_spec s t); [lia|]. rewrite IH; lia. }
    rewrite Z; lia.
  - rewrite IH; lia.
Qed.
Lemma sum_occ n l : Forall (fun it => exists b, snd it = Ptr b /\ b < n) l ->
  list_sum (map (fun a => occ a l) (seq 0 n)) = length l.
Proof.
  induction 1 as [|[k w] l (b & E & Hb) _ IH].
  - cbn [occ length]. generalize 0 at 2. induction n as [|n IH]; intros s; [reflexivity|]. apply IH.
  - cbn in E. subst w. cbn [occ length]. 
    etransitivity; [apply (sum_add (fun a => if b =? a then 1 else 0) (fun a => occ a l))|].
    etransitivity; [apply f_equal2; [apply sum_hit; lia|exact IH]|reflexivity].
Qed.

Lemma left_over h G lk : inv h G lk -> leaks_ok G lk ->
  Forall (fun e => snd e = CNodes []) (in_use h) /\ list_sum (map fst (in_use h)) = length lk.
Proof.
  intros I Lk. pose proof (all_leaked _ _ _ I Lk) as A. split.
  - rewrite Forall_forall. intros [n x] Hin. destruct (in_use_in _ _ Hin) as (a & Ea). apply (A a n x Ea).
  - rewrite in_use_total, total_seq.
    assert (map (cnt h) (seq 0 (length h)) = map (fun a => occ a lk) (seq 0 (length h))) as E.
    { apply map_ext. intros a. rewrite (i_cnt _ _ _ I a).
      destruct (Nat.eq_dec (occ_heap a h) 0) as [|Hz]; [lia|].
      destruct (occ_heap_pos a h) as (b & n & x & k & Eb & Hin); [lia|].
      destruct (A b n x Eb) as [_ ->]. destruct Hin. }
    rewrite E. apply sum_occ. rewrite Forall_forall. intros it Hin.
    unfold leaks_ok in Lk. rewrite Forall_forall in Lk. destruct (Lk it Hin) as (a & -> & Ga). exists a. split; [reflexivity|].
    pose proof (occ_in _ _ _ Hin) as Ho. destruct (inv_live _ _ _ a I (or_introl Ho)) as (n & x & En & _).
    apply nth_error_Some. congruence.
Qed.

Lemma gone_items e : Forall (eq SGone) e -> items e = [].
Proof. induction 1 as [|s e <- _ IH]; [reflexivity|exact IH]. Qed.
Lemma f_gone G e fe : Forall2 (srep G) e fe -> Forall (eq FGone) fe -> Forall (eq SGone) e.
Proof.
  induction 1 as [|s f e fe H1 H2 IH]; intros F; inversion F; subst; constructor; auto.
  destruct s; cbn in H1; tauto.
Qed.

Lemma drop_all_gone dbg fe : exists fe', f_run dbg (drop_all (length fe)) fe = Some (fe', 0) /\
  Forall (eq FGone) fe' /\ length fe' = length fe.
Proof.
  assert (forall n s fe, length fe = s + n -> Forall (eq FGone) (firstn s fe) ->
    exists fe', f_run dbg (map IDrop (seq s n)) fe = Some (fe', 0) /\ Forall (eq FGone) fe' /\ length fe' = length fe) as A.
  { induction n as [|n IH]; intros s fe0 Hl Hg; cbn [seq map f_run f_step].
    - exists fe0. rewrite firstn_all2 in Hg by lia. auto.
    - destruct (IH (S s) (upd s FGone fe0)) as (fe' & -> & H1 & H2).
      + rewrite upd_len. lia.
      + clear -Hl Hg. assert (s < length fe0) as Hs by lia. clear Hl. revert fe0 Hs Hg.
        induction s as [|s IH]; intros [|f fe0] Hs Hg; cbn [length] in Hs; try lia; cbn [upd firstn] in *.
        * constructor; [reflexivity|constructor].
        * inversion Hg; subst. constructor; [reflexivity|]. apply IH; [lia|assumption].
      + exists fe'. rewrite upd_len in H2. auto. }
  apply (A (length fe) 0 fe eq_refl). constructor.
Qed.
Lemma f_run_app dbg p q : forall fe fe1 fe2 l1 l2, f_run dbg p fe = Some (fe1, l1) -> f_run dbg q fe1 = Some (fe2, l2) ->
  f_run dbg (p ++ q) fe = Some (fe2, l1 + l2).
Proof.
  induction p as [|i p IH]; intros fe fe1 fe2 l1 l2 F1 F2; cbn [f_run app] in *.
  - assert (fe1 = fe /\ l1 = 0) as [-> ->] by (split; congruence). exact F2.
  - destruct (f_step dbg i fe) as [[fe' l']|]; [|congruence]. destruct (f_run dbg p fe') as [[fe'' l'']|] eqn:E; [|congruence].
    assert (fe1 = fe'' /\ l1 = l' + l'') as [-> ->] by (split; congruence).
    rewrite (IH fe' fe'' fe2 l'' l2 E F2). now rewrite Nat.add_assoc.
Qed.

Lemma run_freed dbg p fe l : f_run dbg p [] = Some (fe, l) ->
  exists e h, h_run dbg (p ++ drop_all (length fe)) [] [] = Done (e, h) /\
    Forall (fun x => snd x = CNodes []) (in_use h) /\ list_sum (map fst (in_use h)) = l.
Proof.
  intros F. destruct (drop_all_gone dbg fe) as (fe' & F' & Hg & _).
  pose proof (f_run_app _ _ _ _ _ _ _ _ F F') as F2. rewrite Nat.add_0_r in F2.
  destruct (run_start _ _ _ _ F2) as (e & h & G & lk & D & I & He & Lk & Hl).
  exists e, h. split; [exact D|]. rewrite (gone_items e (f_gone _ _ _ He Hg)) in I. cbn [app] in I.
  rewrite <- Hl. apply (left_over _ _ _ I Lk).
Qed.
Lemma run_freed_all dbg p fe : f_run dbg p [] = Some (fe, 0) ->
  exists e h, h_run dbg (p ++ drop_all (length fe)) [] [] = Done (e, h) /\ in_use h = [].
Proof.
  intros F. destruct (drop_all_gone dbg fe) as (fe' & F' & Hg & _).
  pose proof (f_run_app _ _ _ _ _ _ _ _ F F') as F2. cbn [Nat.add] in F2.
  destruct (run_start _ _ _ _ F2) as (e & h & G & lk & D & I & He & Lk & Hl).
  exists e, h. split; [exact D|]. rewrite (gone_items e (f_gone _ _ _ He Hg)) in I. cbn [app] in I.
  destruct lk; [|discriminate Hl]. destruct (in_use h) as [|[n x] u] eqn:E; [reflexivity|].
  destruct (in_use_in h (n, x)) as (a & Ea); [rewrite E; now left|].
  destruct (all_leaked _ _ _ I Lk a n x Ea) as [Ho _]. cbn in Ho. lia.
Qed.

(** ** Variables that a program does not name stay *)
Lemma upd_nth_other {A} r s (x : A) l d : r <> s -> nth r (upd s x l) d = nth r l d.
Proof. revert r s. induction l as [|y l IH]; intros [|r] [|s] H; cbn; try congruence; auto. Qed.
Lemma f_clear_other rs : forall r fe, ~ In r rs -> fvar r (f_clear rs fe) = fvar r fe.
Proof.
  induction rs as [|s rs IH]; intros r fe H; cbn [f_clear]; [reflexivity|].
  rewrite IH by (intros ?; apply H; now right). unfold fvar. apply upd_nth_other. intros ->. apply H. now left.
Qed.
Lemma f_clear_len rs : forall fe, length (f_clear rs fe) = length fe.
Proof. induction rs as [|s rs IH]; intros fe; cbn [f_clear]; [reflexivity|]. now rewrite IH, upd_len. Qed.
Lemma fvar_app r fe x : r < length fe -> fvar r (fe ++ x) = fvar r fe.
Proof. intros H. unfold fvar. now apply app_nth1. Qed.
Lemma f_step_other dbg i fe fe' l r : f_step dbg i fe = Some (fe', l) -> r < length fe -> ~ In r (changed i) ->
  fvar r fe' = fvar r fe /\ length fe <= length fe'.
Proof.
  intros F Hr Hn. destruct i as [|rs|q path|q path|q path|q path o|q]; cbn [f_step changed] in *.
  - assert (fe' = fe ++ [FNode n_empty]) as -> by congruence. rewrite fvar_app, app_length by exact Hr. split; [reflexivity|lia].
  - destruct (f_nodes rs fe) as [ns|]; [|congruence]. assert (fe' = f_clear rs fe ++ [FArc ns]) as -> by congruence.
    rewrite fvar_app, app_length, f_clear_len by now rewrite f_clear_len. rewrite f_clear_other by exact Hn. split; [reflexivity|lia].
  - destruct (f_place _ _) as [n|]; [|congruence]. assert (fe' = fe ++ [FNode n]) as -> by congruence.
    rewrite fvar_app, app_length by exact Hr. split; [reflexivity|lia].
  - destruct (f_place _ _) as [n|]; [|congruence]. assert (fe' = fe ++ [FValue (n_value n)]) as -> by congruence.
    rewrite fvar_app, app_length by exact Hr. split; [reflexivity|lia].
  - destruct (f_place _ _) as [n|]; [|congruence]. destruct (n_kids n) as [ns|]; [|congruence].
    assert (fe' = fe ++ [FArc ns]) as -> by congruence. rewrite fvar_app, app_length by exact Hr. split; [reflexivity|lia].
  - destruct (fvar q _) as [n| | |]; try congruence. cbv zeta in F.
    match type of F with match ?x with _ => _ end = _ => destruct x as [[[n' s] l0]|] end; [|congruence].
    match type of F with Some (?x, _) = _ => assert (fe' = x) as -> by congruence end.
    rewrite fvar_app, app_length, !upd_len, f_clear_len by now rewrite !upd_len, f_clear_len.
    assert (r <> q /\ ~ In r (moved o)) as [Hq Hm] by (split; intros ?; apply Hn; [now left|now right]).
    unfold fvar at 1. rewrite !upd_nth_other by exact Hq. fold (fvar r (f_clear (moved o) fe)).
    rewrite f_clear_other by exact Hm. split; [reflexivity|lia].
  - assert (fe' = upd q FGone fe) as -> by congruence. rewrite upd_len. split; [|lia].
    unfold fvar. apply upd_nth_other. intros ->. apply Hn. now left.
Qed.
Lemma f_run_other dbg p : forall fe fe' l r, f_run dbg p fe = Some (fe', l) -> r < length fe ->
  ~ In r (flat_map changed p) -> fvar r fe' = fvar r fe /\ length fe <= length fe'.
Proof.
  induction p as [|i p IH]; intros fe fe' l r F Hr Hn; cbn [f_run flat_map] in *.
  - assert (fe' = fe) as -> by congruence. split; [reflexivity|lia].
  - rewrite in_app_iff in Hn. destruct (f_step dbg i fe) as [[fe1 l1]|] eqn:F1; [|congruence].
    destruct (f_run dbg p fe1) as [[fe2 l2]|] eqn:F2; [|congruence]. assert (fe' = fe2) as -> by congruence.
    destruct (f_step_other _ _ _ _ _ _ F1 Hr) as [E1 L1]; [tauto|].
    destruct (IH fe1 fe2 l2 r F2) as [E2 L2]; [lia|tauto|]. split; [congruence|lia].
Qed.

Lemma Forall2_nth_def {A B} (P : A -> B -> Prop) l l' r d d' : Forall2 P l l' -> r < length l -> P (nth r l d) (nth r l' d').
Proof. intros H. revert r. induction H; intros [|r] Hr; cbn in *; try lia; auto. apply IHForall2. lia. Qed.

Lemma run_untouched dbg p q r fe l fe' l' : f_run dbg p [] = Some (fe, l) -> f_run dbg q fe = Some (fe', l') ->
  r < length fe -> ~ In r (flat_map changed q) ->
  exists e h, h_run dbg (p ++ q) [] [] = Done (e, h) /\ slot_shows h (fvar r fe) (var r e).
Proof.
  intros F1 F2 Hr Hn. destruct (run_shows _ _ _ _ (f_run_app _ _ _ _ _ _ _ _ F1 F2)) as (e & h & D & Hs).
  exists e, h. split; [exact D|]. destruct (f_run_other _ _ _ _ _ _ F2 Hr Hn) as [E L]. rewrite <- E.
  apply (Forall2_nth_def _ _ _ _ _ _ Hs). lia.
Qed.

(** ** The fields by themselves *)
Lemma nth_error_last {A} (l : list A) x : nth_error (l ++ [x]) (length l) = Some x.
Proof. rewrite nth_error_app2 by lia. now rewrite Nat.sub_diag. Qed.
Lemma field_back b hdr h : hdr_for b hdr -> exists w h', blob_word (blob_slice b) h = Done (w, h') /\
  blob_read hdr w h' = Done (blob_slice b, h') /\ hdr_is_id hdr = blob_is_id b /\
  (is_arc hdr = true <-> exists a, w = Ptr a).
Proof.
  intros Hh. set (d := blob_slice b).
  assert (is_arc hdr = (PTR_SIZE <? length d) /\ (length d <= PTR_SIZE -> hdr_len hdr = length d) /\
          hdr_is_id hdr = blob_is_id b) as (A & Ln & Hi).
  { unfold d. destruct b as [d0|d0]; cbn [hdr_for blob_slice blob_is_id] in *.
    - subst hdr. rewrite data_arc, data_id, data_len. split; [reflexivity|]. split; [|reflexivity].
      intros Hl. unfold PTR_SIZE in Hl. now rewrite (proj2 (Nat.leb_le _ _)) by lia.
    - destruct (id_len _ _ Hh) as [E1 E2]. unfold is_arc. rewrite E1, E2. auto. }
  unfold blob_word, blob_read. rewrite A. destruct (Nat.ltb_spec PTR_SIZE (length d)) as [Hl|Hl].
  - exists (Ptr (length h)), (h ++ [Some (1, CBytes d)]). split; [reflexivity|]. split.
    + unfold mbind, arc_get. rewrite nth_error_last. reflexivity.
    + split; [exact Hi|]. split; [intros _; eauto|reflexivity].
  - exists (Inline (pad d)), h. split; [reflexivity|]. split.
    + rewrite (Ln Hl), pad_firstn by exact Hl. reflexivity.
    + split; [exact Hi|]. split; [discriminate|]. intros (a & E). discriminate E.
Qed.
