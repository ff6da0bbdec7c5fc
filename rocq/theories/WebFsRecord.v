(** Proofs about records at known positions of a file. *)
From Verif Require Import FileProofs Base BaseLemmas Header Node Store U64 File Chunk ChunkProofs WebFile WebProofs WebPlans WebSpec WebTop
  WebAppend WebFs WebFsSpec WebFsSim WebFsProofs WebFsStaleSpec WebFsStale WebFsLike
  WebFsFile WebFsPages WebFsBlobProofs WebFsRecordSpec.
Local Open Scope N_scope.

Section Record.
Context (d f : bytes) (Hf : valid f) (o : N) (b : bytes).
Notation dd := (record b).
Notation n := (record_len b).

Lemma record_length : N.of_nat (length dd) = n.
Proof. unfold record, record_len. rewrite app_length, to_be_length. lia. Qed.

Definition away (c : chunk) : Prop := apart o n (offset c) (len c).
(** The cache has the record as one chunk; the other chunks are elsewhere, but for those
    that the rest of the plan deletes. *)
Definition kept (l : N) (p : list wop) (v : cache) : Prop :=
  cache_match (Chunk l o n) v = Some dd /\
  forall c, cache_match c v <> None -> c = Chunk l o n \/ away c \/ In (WDelete c) p.
Definition safe (l : N) (w : wop) : Prop :=
  match w with
  | WDelete c => c <> Chunk l o n
  | WWrite c _ | WRewrite c => away c
  end.

Lemma not_away l : ~ away (Chunk l o n).
Proof. unfold away, apart, record_len. cbn [offset len]. lia. Qed.
Lemma kept_put l p c x v : away c -> kept l p v -> kept l p (cache_put c x v).
Proof.
  intros Hc [K1 K2]. split.
  - rewrite match_put. destruct (chunk_eqb c (Chunk l o n)) eqn:E; [|exact K1].
    apply eqb_chunk in E as ->. now apply not_away in Hc.
  - intros c'. rewrite match_put. destruct (chunk_eqb c c') eqn:E; [apply eqb_chunk in E as <-; auto|apply K2].
Qed.
Lemma kept_delete l p c v : c <> Chunk l o n -> kept l (WDelete c :: p) v -> kept l p (cache_delete c v).
Proof.
  intros Hc [K1 K2]. split.
  - rewrite match_delete. now rewrite (proj2 (neqb_chunk _ _) Hc).
  - intros c'. rewrite match_delete. destruct (chunk_eqb c c') eqn:E; [congruence|]. apply neqb_chunk in E.
    intros H. destruct (K2 c' H) as [A|[A|[A|A]]]; auto. congruence.
Qed.
Lemma kept_tail l w p v : (forall c, w <> WDelete c) -> kept l (w :: p) v -> kept l p v.
Proof. intros H [K1 K2]. split; [exact K1|]. intros c Hc. destruct (K2 c Hc) as [A|[A|[A|A]]]; auto. now apply H in A. Qed.
Lemma kept_more l p p' v : incl p p' -> kept l p v -> kept l p' v.
Proof. intros H [K1 K2]. split; [exact K1|]. intros c Hc. destruct (K2 c Hc) as [A|[A|A]]; auto. Qed.

Lemma write_kept l p c x g q h : away c -> kept l p (w_cache g) -> write_chunk c x g = (q, h) -> kept l p (w_cache h).
Proof.
  intros Hc K E. unfold write_chunk, js in E.
  destruct (w_faults g) as [|[] t]; try (injection E as <- <-; exact K);
    destruct (_ <? quota); injection E as <- <-; cbn [w_cache]; try exact K; now apply kept_put.
Qed.
Lemma js_cache {A} (m : wm wfile A) g q h : (forall g q h, m g = (q, h) -> w_cache h = w_cache g) -> js m g = (q, h) -> w_cache h = w_cache g.
Proof. intros H E. unfold js in E. destruct (w_faults g) as [|[] t]; try (injection E as <- <-; reflexivity); now apply H in E. Qed.
Lemma load_loop_cache r cs : forall buf g q h, load_loop r cs buf g = (q, h) -> w_cache h = w_cache g.
Proof.
  induction cs as [|c cs IH]; intros buf g q h E; cbn [load_loop] in E; [apply wret_inv in E as [_ ->]; reflexivity|].
  unfold wbind, wret in E. destruct (ranges _ _); try (injection E as _ <-; reflexivity).
  destruct (load_range _ _ g) as [q1 g1] eqn:E1.
  assert (w_cache g1 = w_cache g) as Hg by (apply js_cache in E1; [exact E1|intros ? ? ? X; now injection X as _ <-]).
  destruct q1; try (injection E as _ <-; exact Hg). destruct (copy_to _ _ _); try (injection E as _ <-; exact Hg).
  apply IH in E. congruence.
Qed.
Lemma read_raw_cache r g q h : read_raw r g = (q, h) -> w_cache h = w_cache g.
Proof.
  unfold read_raw, load_chunks, wbind, wret. destruct (to_usize _); try (intros E; injection E as _ <-; reflexivity).
  apply load_loop_cache.
Qed.
Lemma op_kept l p w g q h : safe l w -> kept l (w :: p) (w_cache g) -> exec_op w g = (q, h) ->
  kept l (w :: p) (w_cache h) /\ (q = Ok tt -> kept l p (w_cache h)).
Proof.
  intros Hs K E. destruct w as [c|c|c x]; cbn [exec_op safe] in *.
  - apply wbind_inv in E as (q1 & g1 & E1 & E). apply read_raw_cache in E1. rewrite <- E1 in K.
    assert (kept l (WRewrite c :: p) (w_cache h)) as K'.
    { destruct E as [(x & _ & E)|[(_ & _ & ->)|[(_ & _ & ->)|(_ & _ & ->)]]]; try exact K. now apply (write_kept l _ c x g1 q h Hs K). }
    split; [exact K'|]. intros _. apply (kept_tail l (WRewrite c)); [discriminate|exact K'].
  - unfold js in E. destruct (w_faults g) as [|[] t]; injection E as <- <-; cbn [w_cache];
      try (split; [exact K|discriminate]).
    + pose proof (kept_delete l p c _ Hs K) as K'. split; [apply (kept_more l p); [now apply incl_tl, incl_refl|exact K']|auto].
    + pose proof (kept_delete l p c _ Hs K) as K'. split; [apply (kept_more l p); [now apply incl_tl, incl_refl|exact K']|auto].
  - pose proof (write_kept l _ c x g q h Hs K E) as K'. split; [exact K'|]. intros _. apply (kept_tail l (WWrite c x)); [discriminate|exact K'].
Qed.
Lemma plan_kept l p : forall g q h, Forall (safe l) p -> kept l p (w_cache g) -> execute_plan p g = (q, h) ->
  kept l p (w_cache h) /\ (q = Ok tt -> kept l [] (w_cache h)).
Proof.
  induction p as [|w p IH]; intros g q h Hs K E; [apply wret_inv in E as [-> ->]; auto|].
  inversion Hs as [|? ? Hw Hp]; subst. cbn [execute_plan] in E. apply wbind_inv in E as (q1 & g1 & E1 & E).
  destruct (op_kept l p w g q1 g1 Hw K E1) as [K1 K2].
  destruct E as [([] & -> & E)|[(-> & -> & ->)|[(-> & -> & ->)|(-> & -> & ->)]]]; try (split; [exact K1|discriminate]).
  destruct (IH g1 q h Hp (K2 eq_refl) E) as [K3 K4]. split; [|exact K4].
  apply (kept_more l p); [now apply incl_tl, incl_refl|exact K3].
Qed.
(** A plan that writes elsewhere and does not delete the record, even if it fails. *)
Lemma plan_keeps l p g q h : Forall (safe l) p -> kept l [] (w_cache g) -> execute_plan p g = (q, h) -> kept l [] (w_cache h).
Proof.
  revert g q h. induction p as [|w p IH]; intros g q h Hs K E; [apply wret_inv in E as [-> ->]; auto|].
  inversion Hs as [|? ? Hw Hp]; subst. cbn [execute_plan] in E. apply wbind_inv in E as (q1 & g1 & E1 & E).
  assert (kept l [] (w_cache g1)) as K1.
  { destruct w as [c|c|c x]; cbn [exec_op safe] in *.
    - apply wbind_inv in E1 as (q2 & g2 & E2 & E1). apply read_raw_cache in E2. rewrite <- E2 in K.
      destruct E1 as [(x & _ & E1)|[(_ & _ & ->)|[(_ & _ & ->)|(_ & _ & ->)]]]; try exact K. now apply (write_kept l _ c x g2 q1 g1 Hw K).
    - unfold js in E1. assert (kept l [] (cache_delete c (w_cache g))) as K' by
        (apply kept_delete; [exact Hw|]; apply (kept_more l []); [intros ? []|exact K]).
      destruct (w_faults g) as [|[] t]; injection E1 as <- <-; cbn [w_cache]; assumption.
    - now apply (write_kept l _ c x g q1 g1 Hw K). }
  destruct E as [(u & -> & E)|[(-> & -> & ->)|[(-> & -> & ->)|(-> & -> & ->)]]]; try exact K1. now apply (IH g1 q h Hp K1).
Qed.

(** Writing the record with success. *)
Lemma add_record g h : wf g -> execute_plan (add (w_chunks g) o dd) g = (Ok tt, h) -> exists l, kept l [] (w_cache h).
Proof.
  intros W E. unfold add in E. pose proof record_length as Hl. unfold bytes in *. rewrite Hl in E.
  set (rel := filter _ (w_chunks g)) in *. set (l := next_level rel) in *. exists l.
  set (new := chunk_new (o, o + n) l) in *.
  assert (new = Chunk l o n) as En by (unfold new, chunk_new; cbn [fst snd]; f_equal; lia).
  cbn [execute_plan] in E. apply wbind_inv in E as (q1 & g1 & E1 & E).
  destruct E as [(u & -> & E)|[(-> & ? & _)|[(-> & ? & _)|(-> & ? & _)]]]; try discriminate.
  assert (w_cache g1 = cache_put new dd (w_cache g)) as Ec.
  { cbn [exec_op] in E1. unfold write_chunk, js in E1. destruct (w_faults g) as [|[] t]; try discriminate;
      destruct (_ <? quota); try discriminate; injection E1 as <- <-; reflexivity. }
  assert (forall c, In c rel -> c <> Chunk l o n) as Hne.
  { intros c Hc ->. apply next_level_gt in Hc. fold l in Hc. cbn [level] in Hc. lia. }
  eapply plan_kept in E as [_ E]; [exact (E eq_refl)| |].
  - apply Forall_app. split.
    + rewrite Forall_map, Forall_forall. intros c Hc. apply filter_In in Hc as [Hc _]. cbn [safe]. now apply Hne.
    + rewrite Forall_forall. intros w Hw. apply in_flat_map in Hw as (c & Hc & Hw). apply filter_In in Hc as [Hc _].
      unfold rewrite_ops in Hw. rewrite !in_app_iff in Hw. cbn [crange fst snd] in Hw. destruct Hw as [Hw|[Hw|Hw]].
      * destruct (N.ltb_spec (offset c) o); [|contradiction]. destruct Hw as [<-|[]]. cbn [safe].
        unfold away, apart, chunk_new. cbn [fst snd offset len]. lia.
      * destruct (N.ltb_spec (o + n) (offset c + len c)); [|contradiction]. destruct Hw as [<-|[]]. cbn [safe].
        unfold away, apart, chunk_new. cbn [fst snd offset len]. lia.
      * destruct Hw as [<-|[]]. cbn [safe]. now apply Hne.
  - rewrite Ec, En. split; [now rewrite match_put, eqb_chunk_refl|].
    intros c. rewrite match_put. destruct (chunk_eqb (Chunk l o n) c) eqn:Eq; [apply eqb_chunk in Eq; auto|].
    intros Hc. right. apply (wf_keys _ W) in Hc.
    destruct (overlap (crange c) (o, o + n)) eqn:Ho.
    + right. assert (In c rel) as Hr by (apply filter_In; auto). rewrite in_app_iff, in_map_iff, in_flat_map.
      destruct (contains (o, o + n) (crange c)) eqn:Hcon.
      * left. exists c. split; [reflexivity|]. apply filter_In. split; [exact Hr|]. now rewrite Hcon.
      * right. exists c. split; [apply filter_In; split; [exact Hr|now rewrite Hcon]|].
        unfold rewrite_ops. rewrite !in_app_iff. right. right. now left.
    + left. unfold away, apart. unfold overlap in Ho. cbn [crange fst snd] in Ho.
      apply negb_false_iff, orb_true_iff in Ho. rewrite !N.leb_le in Ho. lia.
Qed.
(** Writing elsewhere. *)
Lemma add_elsewhere l g o' x q h : wf g -> apart o n o' (N.of_nat (length x)) -> kept l [] (w_cache g) ->
  execute_plan (add (w_chunks g) o' x) g = (q, h) -> kept l [] (w_cache h).
Proof.
  intros W Ha K E. apply (plan_keeps l _ _ _ _) in E; [exact E| |exact K]. unfold add.
  set (m := N.of_nat (length x)) in *. set (rel := filter _ (w_chunks g)). set (l' := next_level rel).
  assert (forall c, In c rel -> c <> Chunk l o n /\ away c) as Hrel.
  { intros c Hc. apply filter_In in Hc as [Hc Ho]. apply overlap_iff in Ho. cbn [crange fst snd] in Ho.
    assert (c <> Chunk l o n) as Hne by (intros ->; cbn [offset len] in Ho; unfold apart in Ha; lia).
    split; [exact Hne|]. apply (wf_keys _ W) in Hc. destruct K as [_ K2]. destruct (K2 c Hc) as [A|[A|[]]]; [contradiction|exact A]. }
  constructor; [cbn [safe]; unfold away, chunk_new, apart in *; cbn [fst snd offset len]; lia|].
  apply Forall_app. split.
  - rewrite Forall_map, Forall_forall. intros c Hc. apply filter_In in Hc as [Hc _]. cbn [safe]. now apply Hrel.
  - rewrite Forall_forall. intros w Hw. apply in_flat_map in Hw as (c & Hc & Hw). apply filter_In in Hc as [Hc _].
    destruct (Hrel c Hc) as [Hne Hc2]. apply filter_In in Hc as [_ Ho]. apply overlap_iff in Ho. cbn [crange fst snd] in Ho.
    unfold rewrite_ops in Hw. rewrite !in_app_iff in Hw. cbn [crange fst snd] in Hw. unfold away, apart in Hc2, Ha. destruct Hw as [Hw|[Hw|Hw]].
    + destruct (N.ltb_spec (offset c) o'); [|contradiction]. destruct Hw as [<-|[]]. cbn [safe].
      unfold away, apart, chunk_new. cbn [fst snd offset len]. lia.
    + destruct (N.ltb_spec (o' + m) (offset c + len c)); [|contradiction]. destruct Hw as [<-|[]]. cbn [safe].
      unfold away, apart, chunk_new. cbn [fst snd offset len]. lia.
    + destruct Hw as [<-|[]]. exact Hne.
Qed.
(** Cutting the file after the record. *)
Lemma fold_min_in (cs : list chunk) : forall m, let r := fold_left (fun m c => N.min m (fst (crange c))) cs m in
  r = m \/ exists c, In c cs /\ r = offset c.
Proof.
  induction cs as [|c cs IH]; intros m; cbn [fold_left]; [now left|].
  destruct (IH (N.min m (fst (crange c)))) as [A|(c' & A & B)].
  - cbn zeta in A |- *. rewrite A. cbn [crange fst]. destruct (N.min_spec m (offset c)) as [[_ ->]|[_ ->]]; [now left|].
    right. exists c. split; [now left|reflexivity].
  - right. exists c'. split; [now right|exact B].
Qed.
Lemma truncate_after l g m q h : wf g -> o + n <= m -> kept l [] (w_cache g) -> wf_truncate m g = (q, h) -> kept l [] (w_cache h).
Proof.
  intros W Hm K E. unfold wf_truncate in E. apply (plan_keeps l _ _ _ _) in E; [exact E| |exact K]. unfold truncate.
  set (rel := filter _ (w_chunks g)).
  assert (forall c, In c rel -> c <> Chunk l o n /\ o + n <= offset c) as Hrel.
  { intros c Hc. apply filter_In in Hc as [Hc Ho]. apply N.ltb_lt in Ho. cbn [crange fst snd] in Ho.
    assert (c <> Chunk l o n) as Hne by (intros ->; cbn [offset len] in Ho; lia).
    split; [exact Hne|]. apply (wf_keys _ W) in Hc. destruct K as [_ K2]. destruct (K2 c Hc) as [A|[A|[]]]; [contradiction|].
    unfold away, apart in A. lia. }
  apply Forall_app. split; [|rewrite Forall_map, Forall_forall; intros c Hc; now apply Hrel].
  destruct rel as [|c r]; [constructor|]. set (st := fold_left _ r _).
  assert (o + n <= st) as Hst.
  { destruct (fold_min_in r (fst (crange c))) as [A|(c' & A & B)]; cbn zeta in *; fold st in A || fold st in B.
    - rewrite A. apply (Hrel c). now left.
    - rewrite B. apply (Hrel c'). now right. }
  destruct (st <? m); [|constructor]. constructor; [|constructor]. cbn [safe]. unfold away, apart, chunk_new. cbn [fst snd offset len]. lia.
Qed.

(** Loading it. *)
Lemma load_range_either c r g x : cache_match c (w_cache g) = Some x -> fst r < i32_lim -> snd r < i32_lim ->
  exists h, load_range c r g = (Ok (js_slice x (fst r) (snd r)), h) \/ load_range c r g = (Err, h) /\ w_faults g <> [].
Proof.
  intros H H1 H2. unfold load_range, js. apply N.ltb_lt in H1, H2.
  destruct (w_faults g) as [|[] t]; cbn [tl w_cache]; eexists; [left|right; split; [reflexivity|discriminate]|left];
    rewrite H; unfold to_i32; rewrite H1, H2; reflexivity.
Qed.
Lemma load_record l g : wf g -> kept l [] (w_cache g) -> o + n < i64_lim -> n < i32_lim ->
  fst (wf_load_lp o g) = Ok b \/ fst (wf_load_lp o g) = Err /\ w_faults g <> [].
Proof.
  unfold bytes in *. intros W [Hm K2] Ho Hd. unfold record, record_len in *.
  set (k := N.of_nat (length b)) in *. set (c := Chunk l o (4 + k)) in *.
  assert (In c (w_chunks g)) as Hin by (apply (wf_keys _ W); rewrite Hm; discriminate).
  assert (Hlim : i32_lim < usize_lim /\ i64_lim < u64_max) by (repeat split; reflexivity).
  unfold wf_load_lp.
  assert (intersecting (w_chunks g) (o, o + 4) = [c]) as ->.
  { apply filter_one; [apply W|exact Hin|apply overlap_iff; cbn [c crange offset len fst snd]; lia|].
    intros c' Hc' Hov. apply overlap_iff in Hov. cbn [crange fst snd] in Hov. apply (wf_keys _ W) in Hc'.
    destruct (K2 c' Hc') as [E|[E|[]]]; [exact E|]. unfold away, apart, record_len in E. fold k in E. lia. }
  cbn [fold_left c crange snd offset len].
  unfold wbind, wret, sum_ok. cbv beta.
  assert (o + 4 <? u64_max = true) as -> by (apply N.ltb_lt; lia). cbv iota beta.
  unfold load_chunks, wbind, wret, to_usize. cbn [fst snd].
  assert (o + (4 + k) - o <? usize_lim = true) as -> by (apply N.ltb_lt; lia). cbv iota beta.
  cbn [load_loop]. unfold wbind, wret. cbv beta. rewrite ranges_eq; cbn [c crange fst snd offset len];
    [|lia|lia|lia|lia|lia|lia|apply overlap_iff; cbn [c crange offset len fst snd]; lia].
  cbv beta iota. cbn [fst snd].
  change ({| level := l; offset := o; len := 4 + k |}) with c.
  match goal with |- context [load_range c ?r g] =>
    destruct (load_range_either c r g _ Hm) as (h & [Er|[Er Hg]]); [cbn [fst snd]; lia|cbn [fst snd]; lia| |]; rewrite Er end;
    [left|right; now split].
  cbv beta iota. cbn [fst snd].
  set (x := to_be 4 k ++ b) in *.
  assert (length x = 4 + length b)%nat as Hdd by (unfold x; rewrite app_length, to_be_length; lia).
  replace (N.max o o - o) with 0 by lia. replace (N.min (o + (4 + k)) (o + (4 + k)) - o) with (4 + k) by lia.
  assert (js_slice x 0 (4 + k) = x) as ->.
  { unfold js_slice. cbn [N.to_nat skipn]. rewrite firstn_all2; [reflexivity|]. subst k. lia. }
  unfold copy_to. cbn [fst snd]. rewrite repeat_length.
  match goal with |- context [if ?x then Ok (_ ++ _) else Panic] => assert (x = true) as -> end.
  { rewrite !andb_true_iff, !N.leb_le, N.eqb_eq. lia. }
  cbn [N.to_nat firstn app]. rewrite skipn_all2 by (rewrite repeat_length; lia). rewrite app_nil_r.
  unfold slice_to. assert (4 <=? length x = true)%nat as -> by (apply Nat.leb_le; lia).
  assert (firstn 4 x = to_be 4 k) as ->.
  { unfold x. rewrite firstn_app, to_be_length, firstn_all2 by (rewrite to_be_length; lia).
    cbn [Nat.sub firstn]. apply app_nil_r. }
  rewrite of_to_be by (change (256 ^ N.of_nat 4) with usize_lim; lia).
  assert (k + 4 <=? N.of_nat (length x) = true) as -> by (apply N.leb_le; lia).
  assert (skipn 4 x = b) as ->.
  { unfold x. rewrite skipn_app, to_be_length, skipn_all2 by (rewrite to_be_length; lia). reflexivity. }
  rewrite firstn_all2 by lia. reflexivity.
Qed.

(** ** Histories *)
Lemma execute_ok {A} p (k : A) g x h : (_ <~ execute_plan p ;; wret (Ok k)) g = (Ok x, h) -> execute_plan p g = (Ok tt, h) /\ x = k.
Proof.
  intros E. apply wbind_inv in E as (q1 & g1 & E1 & E).
  destruct E as [([] & -> & E)|[(-> & ? & _)|[(-> & ? & _)|(-> & ? & _)]]]; try discriminate.
  apply wret_inv in E as [E ->]. injection E as ->. auto.
Qed.
Lemma execute_any {A} p (k : A) g q h : (_ <~ execute_plan p ;; wret (Ok k)) g = (q, h) -> exists q', execute_plan p g = (q', h).
Proof.
  intros E. apply wbind_inv in E as (q1 & g1 & E1 & E). exists q1.
  destruct E as [(u & -> & E)|[(-> & ? & ->)|[(-> & ? & ->)|(-> & ? & ->)]]]; try exact E1.
  now apply wret_inv in E as [_ ->].
Qed.
Lemma wf_faults t g : wf g -> wf (with_faults t g).
Proof. intros W. eapply same_wf; [|exact W]. now split. Qed.

Lemma stores_evolves c t r x y : evolves d f c r x y -> (forall cs, fst x = Some cs -> wf (WFile cs (snd x) [])) ->
  stores d f o b (Call c t) r -> exists l, kept l [] (snd y).
Proof.
  intros E Hwf Hs. destruct E as [c r x Hc|r v|c z x Hc|c k w t0 q cs v cs' v' Hch Hk Es].
  - inversion Hs; subst; destruct (Hc (conj eq_refl eq_refl)); discriminate.
  - inversion Hs.
  - inversion Hs.
  - cbn [fst snd] in *. pose proof (Hwf cs eq_refl) as W. apply (wf_faults t0) in W. unfold step, with_faults in Es. cbn [fst snd w_chunks w_cache] in *.
    remember (x <- q ;; Ok (w x)) as r eqn:Er. destruct Hch as [d1 f1 o1 b1|d1 f1 b1 Hb|d1 f1 m].
    + inversion Hs; subst. destruct q as [x| | |]; try discriminate.
      unfold wf_write in Es. apply wbind_inv in Es as (q1 & g1 & E1 & Es).
      destruct Es as [(u & -> & Es)|[(-> & ? & _)|[(-> & ? & _)|(-> & ? & _)]]]; try discriminate.
      apply wret_inv in Es as [_ <-].
      apply wbind_inv in E1 as (q2 & g2 & E2 & E1). apply wret_inv in E2 as [-> ->].
      destruct (sum_ok _ _) as [[]| | |]; destruct E1 as [(u' & ? & E1)|[(? & ? & _)|[(? & ? & _)|(? & ? & _)]]]; try discriminate.
      destruct u. apply (add_record _ _ W) in E1 as (l & K). now exists l.
    + inversion Hs; subst. destruct q as [[x|]| | |]; try discriminate. cbn [bind] in *.
      match goal with H : Ok (RNum _) = Ok (RNum _) |- _ => injection H as Ex end.
      apply wbind_inv in Es as (q1 & g1 & E1 & Es).
      destruct Es as [(u & -> & Es)|[(-> & ? & _)|[(-> & ? & _)|(-> & ? & _)]]]; try discriminate.
      apply wret_inv in Es as [Eu <-]. injection Eu as Eu.
      unfold wf_append in E1. cbn [w_chunks] in E1. apply wbind_inv in E1 as (q2 & g2 & E2 & E1). apply wret_inv in E2 as [-> ->].
      destruct (sum_ok _ _) as [[]| | |]; destruct E1 as [(u' & ? & E1)|[(? & ? & _)|[(? & ? & _)|(? & ? & _)]]]; try discriminate.
      apply execute_ok in E1 as [E1 Eo]. assert (snd (crange (prev cs)) = o) as Ep by congruence. rewrite Ep in E1. apply (add_record _ _ W) in E1 as (l & K). now exists l.
    + inversion Hs.
Qed.
Lemma leaves_evolves l c t r x y : evolves d f c r x y -> (forall cs, fst x = Some cs -> wf (WFile cs (snd x) [])) ->
  leaves d f o n (Call c t) r -> kept l [] (snd x) -> kept l [] (snd y).
Proof.
  intros E Hwf Hs K. destruct E as [c r x Hc|r v|c z x Hc|c k w t0 q cs v cs' v' Hch Hk Es]; try exact K.
  - exfalso. destruct Hc as [-> | ->]; cbn [leaves] in Hs; [now apply (Hs eq_refl eq_refl (RBool z))|now apply (Hs eq_refl (RBool z))].
  - cbn [fst snd] in *. pose proof (Hwf cs eq_refl) as W. apply (wf_faults t0) in W. unfold step, with_faults in Es. cbn [fst snd w_chunks w_cache] in *.
    destruct Hch as [d1 f1 o1 b1|d1 f1 b1 Hb|d1 f1 m]; cbn [leaves] in Hs.
    + specialize (Hs eq_refl eq_refl). apply wbind_inv in Es as (q1 & g1 & E1 & Es).
      assert (g1 = WFile cs' v' []) as -> by (destruct Es as [(u & _ & Es)|[(_ & _ & ->)|[(_ & _ & ->)|(_ & _ & ->)]]]; [now apply wret_inv in Es as [_ ->]|reflexivity..]).
      unfold wf_write in E1. apply wbind_inv in E1 as (q2 & g2 & E2 & E1). apply wret_inv in E2 as [-> ->].
      destruct E1 as [(u' & ? & E1)|[(_ & _ & Ew)|[(_ & _ & Ew)|(_ & _ & Ew)]]]; try (injection Ew as -> -> _; exact K).
      exact (add_elsewhere l _ _ _ _ _ W Hs K E1).
    + destruct (Hs eq_refl eq_refl) as (o1 & Eq & Ha). destruct q as [[x|]| | |]; try discriminate. cbn [bind] in Eq. injection Eq as ->.
      apply wbind_inv in Es as (q1 & g1 & E1 & Es).
      destruct Es as [(u & -> & Es)|[(-> & ? & _)|[(-> & ? & _)|(-> & ? & _)]]]; try discriminate.
      apply wret_inv in Es as [Eu <-]. injection Eu as ->.
      unfold wf_append in E1. cbn [w_chunks] in E1. apply wbind_inv in E1 as (q2 & g2 & E2 & E1). apply wret_inv in E2 as [-> ->].
      destruct E1 as [(u' & ? & E1)|[(? & ? & _)|[(? & ? & _)|(? & ? & _)]]]; try discriminate.
      apply execute_ok in E1 as [E1 Eo]. rewrite <- Eo in E1.
      refine (add_elsewhere l _ _ _ _ _ W _ K E1). rewrite app_length, to_be_length. unfold apart, record_len in *. lia.
    + specialize (Hs eq_refl eq_refl). apply wbind_inv in Es as (q1 & g1 & E1 & Es).
      assert (g1 = WFile cs' v' []) as -> by (destruct Es as [(u & _ & Es)|[(_ & _ & ->)|[(_ & _ & ->)|(_ & _ & ->)]]]; [now apply wret_inv in Es as [_ ->]|reflexivity..]).
      exact (truncate_after l _ _ _ _ W Hs K E1).
Qed.

Lemma snap_wf s W : Inv s W -> forall cs, fst (snap s d f) = Some cs -> wf (WFile cs (snd (snap s d f)) []).
Proof.
  intros I cs. unfold snap. cbn [fst snd]. intros H. pose proof (i_rep _ _ I d f Hf) as R. unfold file_rep in R. rewrite H in R.
  apply R.
Qed.
(** One event. *)
Lemma event_record e s WD r s' : Inv_any s WD -> event_ok e -> snd WD d = false ->
  (forall t, e = Call (KDeleteDir d) t -> dir_open (fst WD) d = false) -> fs_run [e] s = ([r], s') ->
  (stores d f o b e r -> exists l, kept l [] (snd (snap s' d f))) /\
  (forall l, leaves d f o n e r -> kept l [] (snd (snap s d f)) -> kept l [] (snd (snap s' d f))).
Proof.
  intros IA He HD Hdel E. destruct (any_like d s WD IA HD) as (s1 & I & LK). destruct e as [c t|]; cbn [fs_run] in E.
  2:{ injection E as <- <-. split; [intros H; inversion H|]. intros l _ K. exact K. }
  destruct (fs_call c t s) as [r0 s0] eqn:Ec. injection E as -> ->.
  assert ((exists d', c = KDeleteDir d' /\ d' <> d) \/ forall d', c = KDeleteDir d' -> get d' (fs_dirs s) = None) as [(d' & -> & Hne)|Hc].
  { destruct c as [d'|d'|d' f'|d' f'|d' f'|d' f'|d' f' o' b'|d' f' a e|d' f'|d' f' n'|d' f' b'|d' f' o'|]; try (right; discriminate).
    destruct (beq_dec d' d) as [->|Hne]; [right|left; eauto]. intros d2 Ed. injection Ed as <-.
    specialize (Hdel t eq_refl). rewrite (i_dir _ _ I) in Hdel. destruct LK as (D & l & A & _). rewrite (al_dirs _ _ _ A) in Hdel.
    destruct (get d (fs_dirs s)); [discriminate|reflexivity]. }
  - assert (Inv_but d s (fst WD)) as IB by now exists s1.
    destruct (but_delete d d' t s _ r s' IB Hne Ec) as (_ & _ & _ & B1 & B2).
    split; [intros H; inversion H|]. intros l _ K. unfold snap in *. now rewrite B1, B2.
  - destruct (like_call d c t s s1 r s' LK Ec Hc) as (s1' & E1 & LK').
    rewrite <- (snap_like d f _ _ LK). rewrite <- (snap_like d f _ _ LK').
    assert (forall d', c = KDeleteDir d' -> get d' (fs_dirs s1) = None) as Hc1
      by (intros d' X; destruct LK as (D & l & A & _); rewrite (al_dirs _ _ _ A); now apply Hc).
    pose proof (call_evolves s1 _ c t r s1' d f I Hf He Hc1 E1) as EV. pose proof (snap_wf s1 _ I) as Hwf. split.
    + exact (stores_evolves c t r _ _ EV Hwf).
    + intros l. exact (leaves_evolves l c t r _ _ EV Hwf).
Qed.

(** Any history: the state is as it should be, and what was kept before it is kept if all events leave it alone. *)
Lemma run_record l : forall a s WD rs s', Inv_any s WD -> Forall event_ok l -> deleted_closed d (a ++ l) ->
  snd WD d = false -> (dir_open (fst WD) d = true -> opened a d) -> fs_run l s = (rs, s') ->
  exists WD', Inv_any s' WD' /\ snd WD' d = false /\
    (dir_open (fst WD') d = true -> opened (a ++ l) d) /\
    forall l', Forall2 (leaves d f o n) l rs -> kept l' [] (snd (snap s d f)) -> kept l' [] (snd (snap s' d f)).
Proof.
  induction l as [|e l IH]; intros a s WD rs s' I Hok Hdc HD Hop E.
  { injection E as <- <-. exists WD. rewrite app_nil_r. auto. }
  inversion Hok as [|? ? He Hl]; subst.
  assert (a ++ e :: l = (a ++ [e]) ++ l) as Ea by (now rewrite <- app_assoc).
  assert (exists r s1 rs1, fs_run [e] s = ([r], s1) /\ fs_run l s1 = (rs1, s') /\ rs = r :: rs1) as (r & s1 & rs1 & E1 & E2 & ->).
  { destruct e as [c t|]; cbn [fs_run] in E |- *.
    - destruct (fs_call c t s) as [r s1]. destruct (fs_run l s1) as [rs1 s2] eqn:Er. injection E as <- <-. eexists _, _, _. eauto.
    - destruct (fs_run l (fs_restart s)) as [rs1 s2] eqn:Er. injection E as <- <-. eexists _, _, _. eauto. }
  destruct (event_any e s WD r s1 I He E1) as (WD1 & HE & I1).
  assert (fs_effects_any [e] [r] WD WD1) as HE1 by (econstructor; [exact HE|constructor]).
  destruct (event_record e s WD r s1 I He HD) as (_ & K1); auto.
  { intros t ->. destruct (dir_open (fst WD) d) eqn:Hd; [|reflexivity]. exfalso.
    destruct (Hop eq_refl) as (a1 & t1 & a2 & Ha & Hn). apply Hn. exact (Hdc a l t eq_refl a1 a2 t1 Ha). }
  rewrite Ea in Hdc |- *.
  destruct (IH (a ++ [e]) s1 WD1 rs1 s' I1 Hl Hdc) as (WD2 & I2 & HD2 & Hop2 & K2).
  - exact (not_doomed d [e] a _ _ _ (closed_front _ _ _ Hdc) HE1 Hop HD).
  - exact (opens_any d [e] a _ _ _ HE1 Hop).
  - exact E2.
  - exists WD2. split; [exact I2|]. split; [exact HD2|]. split; [exact Hop2|].
    intros l' H K. inversion H as [|? ? ? ? H1 H2]; subst. apply K2; [exact H2|]. now apply K1.
Qed.

Lemma load_kept s W l : Inv_but d s W -> fs_up s = true -> (exists cs, open_chunks s d f = Some cs) ->
  kept l [] (snd (snap s d f)) -> o + n < i64_lim -> n < i32_lim ->
  fst (fs_call (KLoad d f o) [] s) = Ok (RBytes b) /\
  forall t, fst (fs_call (KLoad d f o) t s) = Ok (RBytes b) \/ fst (fs_call (KLoad d f o) t s) = Err.
Proof.
  intros (s1 & I & LK) Hup (cs & Ho) K H1 H2.
  assert (forall t, fst (fs_call (KLoad d f o) t s) = fst (fs_call (KLoad d f o) t s1)) as X.
  { intros t. destruct (fs_call (KLoad d f o) t s) as [r s'] eqn:E.
    destruct (like_call d _ _ _ _ _ _ LK E ltac:(discriminate)) as (s1' & E1 & _). now rewrite E1. }
  rewrite X. rewrite <- (snap_like d f _ _ LK) in K. rewrite <- (like_chunks _ f _ _ LK) in Ho. rewrite <- (like_up _ _ _ LK) in Hup.
  assert (fst (fs_call (KLoad d f o) [] s1) = Ok (RBytes b) /\
    forall t, fst (fs_call (KLoad d f o) t s1) = Ok (RBytes b) \/ fst (fs_call (KLoad d f o) t s1) = Err) as [Y1 Y2];
    [|split; [exact Y1|intros t; rewrite X; apply Y2]].
  clear X LK. unfold snap in K. cbn [snd] in K.
  pose proof (snap_wf s1 W I cs Ho) as Wf. unfold snap in Wf. cbn [snd] in Wf.
  pose proof (fun t => load_record l _ (wf_faults t _ Wf) K H1 H2) as EL. unfold with_faults in EL. cbn [w_chunks w_cache w_faults] in EL.
  unfold open_chunks in Ho. destruct (get d (fs_dirs s1)) as [[x files]|] eqn:Hd; [|discriminate].
  destruct (open_inv _ _ _ _ _ _ _ I Hf Hd Ho) as (_ & Hm & Hc & R).
  assert (view f (obj s1 d) = view f (nth x (fs_objs s1) [])) as Ev by (unfold obj; now rewrite (i_dirs _ _ I _ _ _ Hd)).
  rewrite Ev in EL. split.
  - destruct (sim0_load_lp (changes W) f Hf o (jfile_of s1 x cs []) Hm Hc eq_refl) as (q & E1 & E2).
    cbn [jfile_of j_chunks j_cache] in E2. destruct (EL []) as [E3|[_ E3]]; [|contradiction].
    rewrite E2 in E3. cbn [fst] in E3. subst q.
    unfold fs_call. rewrite Hup. cbn [fs_exec]. unfold on_file. rewrite Hd, Ho, E1. reflexivity.
  - intros t. unfold fs_call. rewrite Hup. cbn [fs_exec]. unfold on_file. rewrite Hd, Ho.
    destruct (j_load_lp f o (jfile_of s1 x cs t)) as [q j'] eqn:E1.
    destruct (sim_load_lp (changes W) f Hf o (jfile_of s1 x cs t) q j' Hm Hc E1) as (_ & _ & _ & A4).
    destruct (A4 []) as (t' & Et). cbn [jfile_of j_chunks j_cache] in Et.
    destruct (EL t') as [E3|[E3 _]]; rewrite Et in E3; cbn [fst] in E3; subst q; cbn [bind]; [now left|now right].
Qed.
End Record.

Lemma fs_run_app l : forall s l' rs s', fs_run (l ++ l') s = (rs, s') ->
  exists rs1 s1 rs2, fs_run l s = (rs1, s1) /\ fs_run l' s1 = (rs2, s') /\ rs = rs1 ++ rs2 /\ length rs1 = length l.
Proof.
  induction l as [|e l IH]; intros s l' rs s' E; [exists [], s, rs; auto|].
  destruct e as [c t|]; cbn [app fs_run] in E |- *.
  - destruct (fs_call c t s) as [r s1]. destruct (fs_run (l ++ l') s1) as [q s2] eqn:E2. injection E as <- <-.
    destruct (IH _ _ _ _ E2) as (rs1 & s3 & rs2 & -> & E3 & -> & L). eexists _, _, _. split; [reflexivity|]. split; [exact E3|]. split; [reflexivity|]. cbn. now rewrite L.
  - destruct (fs_run (l ++ l') (fs_restart s)) as [q s2] eqn:E2. injection E as <- <-.
    destruct (IH _ _ _ _ E2) as (rs1 & s3 & rs2 & -> & E3 & -> & L). eexists _, _, _. split; [reflexivity|]. split; [exact E3|]. split; [reflexivity|]. cbn. now rewrite L.
Qed.

Theorem fs_record_kept d f o b l1 e l2 rs1 r rs2 s : ~ In quest f ->
  Forall event_ok (l1 ++ e :: l2) -> deleted_closed d (l1 ++ e :: l2) ->
  fs_run (l1 ++ e :: l2) new_fs = (rs1 ++ r :: rs2, s) -> length rs1 = length l1 ->
  stores d f o b e r -> Forall2 (leaves d f o (record_len b)) l2 rs2 ->
  record_len b < i32_lim -> o + record_len b < i64_lim ->
  fst (fs_call (KFlush d f) [] s) = Ok RUnit ->
  fst (fs_call (KLoad d f o) [] s) = Ok (RBytes b) /\
  forall t, fst (fs_call (KLoad d f o) t s) = Ok (RBytes b) \/ fst (fs_call (KLoad d f o) t s) = Err.
Proof.
  intros Hf Hok Hdc E Hlen Hs Hl Hb Ho Hfl.
  apply fs_run_app in E as (q1 & s1 & q2 & E1 & E2 & Eq & L1).
  apply app_eq_app in Eq as (z & Ez). assert (rs1 = q1 /\ r :: rs2 = q2) as [<- <-].
  { assert (z = []) as -> by (destruct Ez as [[-> _]|[-> _]]; rewrite app_length in *; destruct z; [reflexivity|cbn in *; lia|reflexivity|cbn in *; lia]).
    rewrite !app_nil_r in Ez. cbn [app] in Ez. destruct Ez as [[-> ->]|[-> ->]]; auto. }
  clear Ez. change (e :: l2) with ([e] ++ l2) in *. apply fs_run_app in E2 as (q3 & s2 & q4 & E2 & E3 & Eq & L3).
  destruct q3 as [|r' [|]]; try discriminate. cbn [app] in Eq. injection Eq as <- <-.
  apply Forall_app in Hok as [Hok1 Hok2]. apply Forall_app in Hok2 as [Hoke Hok2].
  destruct (run_record d f Hf o b l1 [] new_fs (new_world, fun _ => false) rs1 s1 any_new Hok1) as (WD1 & I1 & HD1 & Hop1 & _);
    [apply closed_front in Hdc; exact Hdc|reflexivity|discriminate|exact E1|]. cbn [app] in Hop1.
  inversion Hoke as [|? ? He _]; subst.
  assert (forall t, e = Call (KDeleteDir d) t -> dir_open (fst WD1) d = false) as Hdel.
  { intros t ->. inversion Hs. }
  destruct (event_record d f Hf o b e s1 WD1 r s2 I1 He HD1 Hdel E2) as (K & _). destruct (K Hs) as (l & K1).
  rewrite app_assoc in Hdc.
  destruct (run_record d f Hf o b [e] l1 s1 WD1 [r] s2 I1 Hoke) as (WD2 & I2 & HD2 & Hop2 & _);
    [apply closed_front in Hdc; exact Hdc|exact HD1|exact Hop1|exact E2|].
  destruct (run_record d f Hf o b l2 (l1 ++ [e]) s2 WD2 rs2 s I2 Hok2 Hdc HD2 Hop2 E3) as (WD3 & I3 & HD3 & _ & K2).
  specialize (K2 l Hl K1). destruct (flushed _ _ _ Hfl) as (Hup & Hop).
  destruct (any_like d s WD3 I3 HD3) as (s0 & I0 & LK). assert (Inv_but d s (fst WD3)) as IB by now exists s0.
  exact (load_kept d f Hf o b s _ l IB Hup Hop K2 Ho Hb).
Qed.
