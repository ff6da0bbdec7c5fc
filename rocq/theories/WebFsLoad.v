(** Proofs about what loading at a position gives, for files whose chunks do not overlap. *)
From Verif Require Import FileProofs Base BaseLemmas Header Node Store U64 File Chunk ChunkProofs WebFile WebProofs WebPlans WebSpec WebTop
  WebAppend WebFs WebFsSpec WebFsSim WebFsProofs WebFsStaleSpec WebFsStale WebFsLike
  WebFsFile WebFsPages WebFsBlobProofs WebFsRecordSpec WebFsRecord.
Local Open Scope N_scope.

Definition capart (c c' : chunk) : Prop := apart (offset c) (len c) (offset c') (len c').
Definition tidy (v : cache) : Prop := forall c c', cache_match c v <> None -> cache_match c' v <> None -> c = c' \/ capart c c'.
Definition only (Q : chunk -> Prop) (p : list wop) (v : cache) : Prop :=
  forall c, cache_match c v <> None -> Q c \/ In (WDelete c) p.
Definition puts (Q : chunk -> Prop) (w : wop) : Prop :=
  match w with
  | WDelete _ => True
  | WWrite c _ | WRewrite c => Q c
  end.

Lemma only_put (Q : chunk -> Prop) w p c x v : (forall c, w <> WDelete c) -> Q c -> only Q (w :: p) v -> only Q p (cache_put c x v).
Proof.
  intros Hw Hc K c'. rewrite match_put. destruct (chunk_eqb c c') eqn:E; [apply eqb_chunk in E as <-; auto|].
  intros H. destruct (K c' H) as [A|[A|A]]; auto. now apply Hw in A.
Qed.
Lemma write_ok c x g h : write_chunk c x g = (Ok tt, h) -> w_cache h = cache_put c x (w_cache g).
Proof.
  intros E. unfold write_chunk, js in E. destruct (w_faults g) as [|[] t]; try discriminate;
    destruct (_ <? quota); try discriminate; injection E as <-; reflexivity.
Qed.
Lemma plan_only Q p : forall g h, Forall (puts Q) p -> only Q p (w_cache g) -> execute_plan p g = (Ok tt, h) -> only Q [] (w_cache h).
Proof.
  induction p as [|w p IH]; intros g h Hs K E; [apply wret_inv in E as [_ ->]; exact K|].
  inversion Hs as [|? ? Hw Hp]; subst. cbn [execute_plan] in E. apply wbind_inv in E as (q1 & g1 & E1 & E).
  destruct E as [([] & -> & E)|[(_ & ? & _)|[(_ & ? & _)|(_ & ? & _)]]]; try discriminate.
  apply (IH g1 h Hp); [|exact E]. clear IH E. destruct w as [c|c|c x]; cbn [exec_op puts] in *.
  - apply wbind_inv in E1 as (q1 & g2 & E2 & E1). apply read_raw_cache in E2. rewrite <- E2 in K.
    destruct E1 as [(x & -> & E1)|[(_ & ? & _)|[(_ & ? & _)|(_ & ? & _)]]]; try discriminate.
    rewrite (write_ok _ _ _ _ E1). now apply (only_put Q (WRewrite c)).
  - assert (w_cache g1 = cache_delete c (w_cache g)) as ->.
    { unfold js in E1. destruct (w_faults g) as [|[] t]; try discriminate; now injection E1 as <-. }
    intros c'. rewrite match_delete. destruct (chunk_eqb c c') eqn:E; [congruence|]. apply neqb_chunk in E.
    intros H. destruct (K c' H) as [A|[A|A]]; auto. congruence.
  - rewrite (write_ok _ _ _ _ E1). now apply (only_put Q (WWrite c x)).
Qed.

(** Writing with success. *)
Lemma add_tidy g o x h : wf g -> tidy (w_cache g) -> execute_plan (add (w_chunks g) o x) g = (Ok tt, h) -> tidy (w_cache h).
Proof.
  intros W T E. unfold add in E. set (m := N.of_nat (length x)) in *.
  set (rel := filter _ (w_chunks g)) in *. set (l := next_level rel) in *. set (new := chunk_new (o, o + m) l) in *.
  set (from := fun c p => In p rel /\ (c = chunk_new (offset p, o) l /\ offset p < o \/ c = chunk_new (o + m, offset p + len p) l /\ o + m < offset p + len p)).
  set (Q := fun c => c = new \/ (In c (w_chunks g) /\ overlap (crange c) (o, o + m) = false) \/ exists p, from c p).
  assert (forall c, In c rel -> In c (w_chunks g) /\ o < offset c + len c /\ offset c < o + m) as Hrel.
  { intros c Hc. apply filter_In in Hc as [Hc Ho]. apply overlap_iff in Ho. cbn [crange fst snd] in Ho. auto. }
  apply (plan_only Q) in E.
  - assert (forall c, cache_match c (w_cache h) <> None -> Q c) as HQ by (intros c Hc; destruct (E c Hc) as [A|[]]; exact A).
    assert (forall c, overlap (crange c) (o, o + m) = false -> offset c + len c <= o \/ o + m <= offset c) as Hov.
    { intros c Hc. unfold overlap in Hc. cbn [crange fst snd] in Hc. apply negb_false_iff, orb_true_iff in Hc. now rewrite !N.leb_le in Hc. }
    assert (forall c c', In c (w_chunks g) -> In c' (w_chunks g) -> c = c' \/ capart c c') as T'.
    { intros c c' Hc Hc'. apply T; now apply (wf_keys _ W). }
    intros c c' Hc Hc'. apply HQ in Hc, Hc'. unfold capart, apart in *.
    destruct Hc as [->|[[Hc Ho]|(p & Hp & Hc)]], Hc' as [->|[[Hc' Ho']|(p' & Hp' & Hc')]].
    + now left.
    + right. unfold new, chunk_new. cbn [fst snd offset len]. destruct (Hov _ Ho'); lia.
    + right. pose proof (Hrel _ Hp'). unfold new, chunk_new in *. cbn [fst snd offset len].
      destruct Hc' as [[-> ?]|[-> ?]]; cbn [fst snd offset len]; lia.
    + right. unfold new, chunk_new. cbn [fst snd offset len]. destruct (Hov _ Ho); lia.
    + auto.
    + right. destruct (Hrel _ Hp') as (Hi & H1 & H2). destruct (Hov _ Ho) as [H3|H3];
      (destruct (T' _ _ Hc Hi) as [->|H4]; [lia|]); unfold capart, apart in H4; unfold chunk_new in Hc'; cbn [fst snd] in Hc';
      destruct Hc' as [[-> ?]|[-> ?]]; cbn [fst snd offset len]; lia.
    + right. pose proof (Hrel _ Hp). unfold new, chunk_new in *. cbn [fst snd offset len].
      destruct Hc as [[-> ?]|[-> ?]]; cbn [fst snd offset len]; lia.
    + right. destruct (Hrel _ Hp) as (Hi & H1 & H2). destruct (Hov _ Ho') as [H3|H3];
      (destruct (T' _ _ Hc' Hi) as [->|H4]; [lia|]); unfold capart, apart in H4; unfold chunk_new in Hc; cbn [fst snd] in Hc;
      destruct Hc as [[-> ?]|[-> ?]]; cbn [fst snd offset len]; lia.
    + destruct (Hrel _ Hp) as (Hi & H1 & H2), (Hrel _ Hp') as (Hi' & H1' & H2').
      destruct (T' _ _ Hi Hi') as [->|H4]; unfold capart, apart in *; unfold chunk_new in *; cbn [fst snd] in *;
      destruct Hc as [[-> ?]|[-> ?]], Hc' as [[-> ?]|[-> ?]]; cbn [fst snd offset len]; auto; right; lia.
  - constructor; [now left|]. apply Forall_app. split.
    + rewrite Forall_map, Forall_forall. intros c _. exact Logic.I.
    + rewrite Forall_forall. intros w Hw. apply in_flat_map in Hw as (c & Hc & Hw). apply filter_In in Hc as [Hc _].
      unfold rewrite_ops in Hw. rewrite !in_app_iff in Hw. cbn [crange fst snd] in Hw. destruct Hw as [Hw|[Hw|Hw]].
      * destruct (N.ltb_spec (offset c) o); [|contradiction]. destruct Hw as [<-|[]]. right. right. exists c. split; auto.
      * destruct (N.ltb_spec (o + m) (offset c + len c)); [|contradiction]. destruct Hw as [<-|[]]. right. right. exists c. split; auto.
      * destruct Hw as [<-|[]]. exact Logic.I.
  - intros c Hc. apply (wf_keys _ W) in Hc.
    destruct (overlap (crange c) (o, o + m)) eqn:Ho; [|left; right; left; auto].
    right. right. assert (In c rel) as Hr by (apply filter_In; auto). rewrite in_app_iff, in_map_iff, in_flat_map.
    destruct (contains (o, o + m) (crange c)) eqn:Hcon.
    + left. exists c. split; [reflexivity|]. apply filter_In. split; [exact Hr|]. now rewrite Hcon.
    + right. exists c. split; [apply filter_In; split; [exact Hr|now rewrite Hcon]|].
      unfold rewrite_ops. rewrite !in_app_iff. right. right. now left.
Qed.
(** Cutting with success. *)
Lemma truncate_tidy g m h : wf g -> tidy (w_cache g) -> wf_truncate m g = (Ok tt, h) -> tidy (w_cache h).
Proof.
  intros W T E. unfold wf_truncate, truncate in E.
  set (rel := filter _ (w_chunks g)) in *. set (l := next_level rel) in *.
  set (Q := fun c => (In c (w_chunks g) /\ offset c + len c <= m) \/
                     exists p, In p rel /\ offset p < m /\ c = chunk_new (offset p, m) l /\ forall p', In p' rel -> offset p <= offset p').
  assert (forall c, In c rel -> In c (w_chunks g) /\ m < offset c + len c) as Hrel.
  { intros c Hc. apply filter_In in Hc as [Hc Ho]. apply N.ltb_lt in Ho. cbn [crange fst snd] in Ho. auto. }
  assert (forall c c', In c (w_chunks g) -> In c' (w_chunks g) -> c = c' \/ capart c c') as T'.
  { intros c c' Hc Hc'. apply T; now apply (wf_keys _ W). }
  apply (plan_only Q) in E.
  - intros c c' Hc Hc'. destruct (E c Hc) as [Hq|[]], (E c' Hc') as [Hq'|[]]. unfold capart, apart in *.
    destruct Hq as [[Hi He]|(p & Hp & Ho & -> & Hmin)], Hq' as [[Hi' He']|(p' & Hp' & Ho' & -> & Hmin')].
    + auto.
    + right. destruct (Hrel _ Hp') as [Hip Hm]. destruct (T' _ _ Hi Hip) as [->|H4]; [lia|].
      unfold capart, apart in H4. unfold chunk_new. cbn [fst snd offset len]. lia.
    + right. destruct (Hrel _ Hp) as [Hip Hm]. destruct (T' _ _ Hi' Hip) as [->|H4]; [lia|].
      unfold capart, apart in H4. unfold chunk_new. cbn [fst snd offset len]. lia.
    + left. assert (offset p = offset p') as -> by (apply N.le_antisymm; auto). reflexivity.
  - apply Forall_app. split; [|rewrite Forall_map, Forall_forall; intros c _; exact Logic.I].
    destruct rel as [|c r] eqn:Er; [constructor|]. set (st := fold_left _ r _).
    destruct (N.ltb_spec st m) as [Hst|]; [|constructor]. constructor; [|constructor]. right.
    assert (forall r m0, let k := fold_left (fun m c => N.min m (fst (crange c))) r m0 in k <= m0 /\ forall p', In p' r -> k <= offset p') as Hle.
    { clear. induction r as [|c r IH]; intros m0; cbn [fold_left]; [split; [cbn; lia|intros ? []]|].
      destruct (IH (N.min m0 (fst (crange c)))) as [A B]. cbn [crange fst] in *. split; [cbn zeta in *; lia|].
      intros p' [<-|H]; [cbn zeta in *; lia|now apply B]. }
    destruct (Hle r (fst (crange c))) as [L1 L2]. fold st in L1, L2.
    assert (exists p, In p (c :: r) /\ st = offset p) as (p & Hp & Ep).
    { destruct (fold_min_in r (fst (crange c))) as [A|(p & A & B)].
      - exists c. split; [now left|exact A].
      - exists p. split; [now right|exact B]. }
    exists p. rewrite Ep in *. split; [exact Hp|]. split; [exact Hst|]. split; [reflexivity|].
    intros p' [<-|H]; [exact L1|now apply L2].
  - intros c Hc. apply (wf_keys _ W) in Hc. destruct (N.ltb_spec m (offset c + len c)) as [Hm|Hm]; [right|left; left; auto].
    rewrite in_app_iff, in_map_iff. right. exists c. split; [reflexivity|]. apply filter_In. split; [exact Hc|]. now apply N.ltb_lt.
Qed.

(** ** Loading *)
Lemma fold_max_ends (cs : list chunk) : forall m, let r := fold_left (fun m c => N.max m (snd (crange c))) cs m in
  m <= r /\ (forall c, In c cs -> offset c + len c <= r) /\ (r = m \/ exists c, In c cs /\ r = offset c + len c).
Proof.
  induction cs as [|c cs IH]; intros m; cbn [fold_left]; [split; [cbn; lia|]; split; [intros ? []|now left]|].
  destruct (IH (N.max m (snd (crange c)))) as (A & B & C). cbn [crange snd] in *. cbn zeta in *.
  split; [lia|]. split; [intros c' [<-|H]; [lia|now apply B]|].
  destruct C as [C|(c' & C & D)]; [|right; exists c'; split; [now right|exact D]].
  rewrite C. destruct (N.max_spec m (offset c + len c)) as [[_ ->]|[_ ->]]; [|now left].
  right. exists c. split; [now left|reflexivity].
Qed.
Definition load_end (cs : list chunk) (o : N) : N :=
  match cs with
  | [] => o
  | c :: r => fold_left (fun m c => N.max m (snd (crange c))) r (snd (crange c))
  end.
Lemma load_end_spec cs o : (forall c, In c cs -> o < offset c + len c) ->
  o <= load_end cs o /\ (forall c, In c cs -> offset c + len c <= load_end cs o) /\
  (cs = [] /\ load_end cs o = o \/ exists c, In c cs /\ load_end cs o = offset c + len c).
Proof.
  intros H. destruct cs as [|c r]; [cbn; split; [lia|]; split; [intros ? []|now left]|]. unfold load_end.
  destruct (fold_max_ends r (snd (crange c))) as (A & B & C). cbn zeta in *. cbn [crange snd] in *.
  pose proof (H c (or_introl eq_refl)). split; [lia|]. split; [intros c' [<-|H']; auto|]. right.
  destruct C as [C|(c' & C & D)]; [exists c; split; [now left|exact C]|exists c'; split; [now right|exact D]].
Qed.

Lemma load_loop_any r cs : forall buf g q h, load_loop r cs buf g = (q, h) ->
  q = Err \/ q = Panic \/ exists out, q = Ok out /\ length out = length buf.
Proof.
  unfold bytes in *. induction cs as [|c cs IH]; intros buf g q h E; cbn [load_loop] in E; [apply wret_inv in E as [-> _]; eauto|].
  unfold wbind, wret in E. destruct (ranges_total (crange c) r) as [Er|(x & Er)]; rewrite Er in E; [injection E as <- _; now left|].
  destruct (load_range c (fst x) g) as [q1 g1] eqn:E1.
  assert (q1 = Err \/ exists y, q1 = Ok y) as [->|(y & ->)]; [|injection E as <- _; now left|].
  { clear - E1. unfold load_range, js, to_i32 in E1. destruct (w_faults g) as [|[] t]; cbn [tl w_cache] in E1;
      try (injection E1 as <- _; now left);
      destruct (cache_match c _); destruct (fst (fst x) <? i32_lim); destruct (snd (fst x) <? i32_lim);
      cbn [bind] in E1; injection E1 as <- _; eauto. }
  destruct (copy_to y buf (snd x)) as [buf'| | |] eqn:Ec; [|injection E as <- _; auto..|].
  - apply IH in E as [E|[E|(out & -> & L)]]; auto. right. right. exists out. split; [reflexivity|]. rewrite L.
    destruct (snd x) as [a z]. now apply copy_spec in Ec as [? _].
  - clear - Ec. unfold copy_to in Ec. destruct (_ && _ && _); discriminate.
Qed.
(** What loading may do, whatever the chunks are. *)
Lemma load_inv o g q h : wf g -> o + 4 < u64_max -> wf_load_lp o g = (q, h) ->
  let cs := intersecting (w_chunks g) (o, o + 4) in let e := load_end cs o in
  q = Err \/ q = Panic /\ e < o + 4 \/
  exists out, N.of_nat (length out) = e - o /\ o + 4 <= e /\
    (forall i, (i < length out)%nat -> nth i out x00 = fold_left (upd (w_cache g) (o + N.of_nat i)) cs x00) /\
    of_be (firstn 4 out) + 4 <= N.of_nat (length out) /\ q = Ok (firstn (N.to_nat (of_be (firstn 4 out))) (skipn 4 out)).
Proof.
  intros W Ho E cs e. unfold wf_load_lp in E. fold cs in E. change (match cs with [] => o | _ => _ end) with e in E.
  assert (forall c, In c cs -> In c (w_chunks g) /\ overlap (crange c) (o, o + 4) = true) as Hcs by (intros c Hc; now apply filter_In in Hc).
  assert (forall c, In c cs -> o < offset c + len c /\ offset c < o + 4) as Hcs2.
  { intros c Hc. destruct (Hcs c Hc) as [_ H]. apply overlap_iff in H. exact H. }
  destruct (load_end_spec cs o) as (L1 & L2 & L3); [apply Hcs2|]. fold e in L1, L2, L3.
  unfold wbind, wret, sum_ok in E. cbv beta in E. apply N.ltb_lt in Ho. rewrite Ho in E. cbv iota beta in E.
  unfold load_chunks, wbind, wret, to_usize in E. cbn [fst snd] in E.
  destruct (e - o <? usize_lim); [|injection E as <- _; now left].
  destruct (load_loop (o, e) cs _ g) as [q1 g1] eqn:E1.
  destruct (N.lt_ge_cases e (o + 4)) as [He|He].
  { apply load_loop_any in E1 as [->|[->|(out & -> & L)]]; [injection E as <- _; now left|injection E as <- _; auto|].
    rewrite repeat_length in L. unfold slice_to in E. destruct (Nat.leb_spec 4 (length out)) as [L4|L4]; [unfold bytes in *; lia|].
    injection E as <- _. auto. }
  apply (load_loop_spec g o e W L1) in E1 as (_ & G & S).
  - destruct G as [->|(out & ->)]; [injection E as <- _; now left|]. destruct (S out eq_refl) as [S1 S2]. rewrite repeat_length in S1, S2.
    assert (N.of_nat (length out) = e - o) as Hlen by lia.
    unfold slice_to in E. destruct (Nat.leb_spec 4 (length out)) as [L|L]; [|injection E as <- _; right; left; split; [reflexivity|lia]].
    destruct (N.leb_spec (of_be (firstn 4 out) + 4) (N.of_nat (length out))) as [L4|L4]; injection E as <- _; [|now left].
    right. right. exists out. split; [exact Hlen|]. split; [lia|]. split; [|split; [exact L4|reflexivity]].
    intros i Hi. rewrite S2 by lia. now rewrite nth_repeat0.
  - apply same_refl.
  - intros c Hc. destruct (Hcs c Hc) as [Hi _]. split; [exact Hi|]. apply overlap_iff. cbn [crange fst snd].
    destruct (Hcs2 c Hc) as [A B]. specialize (L2 c Hc). destruct L3 as [[-> _]|(c1 & C1 & C2)]; [destruct Hc|].
    lia.
  - rewrite repeat_length. lia.
Qed.

(** Loading does not panic where the fourth byte is not zero. *)
Lemma load_no_panic o g h F : rep g F -> o + 4 < u64_max -> o + 3 < f_len F -> f_at F (o + 3) <> x00 -> wf_load_lp o g <> (Panic, h).
Proof.
  intros (W & V & B) Ho H3 Hne E. apply (load_inv o g _ h W Ho) in E as [?|[[_ L]|(out & _ & _ & _ & _ & ?)]]; try discriminate.
  apply Hne. specialize (V (o + 3)). unfold WebTop.view in V. apply N.ltb_lt in H3. rewrite H3 in V. rewrite <- V.
  apply vis_none. intros c Hc. destruct (covers c (o + 3)) eqn:Ec; [|reflexivity]. exfalso. apply covers_iff in Ec.
  assert (In c (intersecting (w_chunks g) (o, o + 4))) as Hi.
  { apply filter_In. split; [exact Hc|]. apply overlap_iff. cbn [crange fst snd]. lia. }
  set (cs := intersecting _ _) in *. destruct (load_end_spec cs o) as (_ & L2 & _).
  { intros c' Hc'. apply filter_In in Hc' as [_ H]. apply overlap_iff in H. cbn in H. lia. }
  specialize (L2 c Hi). lia.
Qed.

Lemma firstn_more a k : forall out : bytes, firstn a out ++ firstn k (skipn a out) = firstn (a + k) out.
Proof.
  induction a as [|a IH]; intros out; [reflexivity|]. destruct out as [|x out]; [cbn; now rewrite firstn_nil|]. cbn. f_equal. apply IH.
Qed.
(** Loading gives what the file has there. *)
Lemma load_sound o g h F b : rep g F -> tidy (w_cache g) -> o + 4 < u64_max -> wf_load_lp o g = (Ok b, h) ->
  o + record_len b <= f_len F /\ f_read F o (N.to_nat (record_len b)) = record b.
Proof.
  intros (W & V & B) T Ho E. apply (load_inv o g _ h W Ho) in E as [?|[[? _]|(out & Hlen & He & Hout & Hn & Eb)]]; try discriminate.
  set (cs := intersecting _ _) in *. set (e := load_end cs o) in *. assert (b = firstn (N.to_nat (of_be (firstn 4 out))) (skipn 4 out)) as Eb' by congruence. clear Eb. rename Eb' into Eb. unfold bytes in *.
  assert (forall c, In c cs -> In c (w_chunks g) /\ o < offset c + len c /\ offset c < o + 4) as Hcs.
  { intros c Hc. apply filter_In in Hc as [Hi H]. apply overlap_iff in H. auto. }
  destruct (load_end_spec cs o) as (L1 & L2 & L3); [apply Hcs|]. fold e in L1, L2, L3.
  destruct L3 as [[_ L3]|(c1 & C1 & C2)]; [fold e in L3; lia|].
  assert (e <= f_len F) as HeF by (rewrite C2; apply B; now apply Hcs).
  set (k := N.to_nat (of_be (firstn 4 out))) in *.
  assert (length b = k) as Hb by (rewrite Eb; rewrite firstn_length, skipn_length; lia).
  unfold record, record_len. rewrite Hb.
  assert (to_be 4 (N.of_nat k) = firstn 4 out) as Et.
  { unfold k. rewrite N2Nat.id. assert (length (firstn 4 out) = 4%nat) as Hl by (rewrite firstn_length; lia).
    rewrite <- Hl at 1. apply to_of_be. }
  rewrite Et, Eb. split; [lia|].
  assert (firstn 4 out ++ firstn k (skipn 4 out) = firstn (4 + k) out) as ->.
  { apply (firstn_more 4 k). }
  replace (N.to_nat (4 + N.of_nat k)) with (4 + k)%nat by lia.
  assert (forall i, (i < length out)%nat -> nth i out x00 = f_at F (o + N.of_nat i)) as Hat.
  { intros i Hi. rewrite (Hout i Hi). specialize (V (o + N.of_nat i)). unfold WebTop.view in V.
    assert (o + N.of_nat i <? f_len F = true) as Hlt by (apply N.ltb_lt; lia). rewrite Hlt in V. rewrite <- V.
    unfold vis, cs, intersecting. apply fold_filter. intros c Hc Hov.
    destruct (covers c (o + N.of_nat i)) eqn:Ec; [|reflexivity]. exfalso. apply covers_iff in Ec.
    destruct (Hcs c1 C1) as (I1 & I2 & I3).
    assert (o + 4 <= o + N.of_nat i) as H4.
    { destruct (N.le_gt_cases (o + 4) (o + N.of_nat i)); [assumption|]. exfalso.
      enough (overlap (crange c) (o, o + 4) = true) by congruence. apply overlap_iff. cbn [crange fst snd]. lia. }
    destruct (T c c1) as [->|H].
    - now apply (wf_keys _ W).
    - now apply (wf_keys _ W).
    - assert (overlap (crange c1) (o, o + 4) = true) by (apply overlap_iff; cbn [crange fst snd]; lia). congruence.
    - unfold capart, apart in H. lia. }
  apply (nth_ext _ _ x00 x00).
  - rewrite firstn_length. unfold f_read. rewrite map_length, seq_length. lia.
  - intros i Hi. unfold f_read in *. rewrite map_length, seq_length in Hi. rewrite nth_firstn by lia.
    rewrite Hat by lia. rewrite (nth_indep _ x00 (f_at F (o + N.of_nat 0))) by (rewrite map_length, seq_length; lia).
    rewrite (map_nth (fun i => f_at F (o + N.of_nat i))). rewrite seq_nth by lia. reflexivity.
Qed.

(** ** Histories *)
Section History.
Context (d f : bytes) (Hf : valid f).

Lemma tidy_nil : tidy [].
Proof. intros c c' H. now destruct H. Qed.
Lemma well_evolves c t r x y : evolves d f c r x y -> (forall cs, fst x = Some cs -> wf (WFile cs (snd x) [])) ->
  changed_well d f (Call c t) r -> tidy (snd x) -> tidy (snd y).
Proof.
  intros E Hwf Hs T. destruct E as [c r x Hc|r v|c z x Hc|c k w t0 q cs v cs' v' Hch Hk Es]; try exact T; [exact tidy_nil|].
  cbn [fst snd] in *. pose proof (Hwf cs eq_refl) as W. apply (wf_faults t0) in W. unfold step, with_faults in Es. cbn [fst snd w_chunks w_cache] in *.
  assert (exists x, q = Ok x) as (x & ->).
  { destruct Hs as (x & Hx); [destruct Hch; split; reflexivity|]. destruct q; try discriminate. eauto. }
  destruct Hch as [d1 f1 o1 b1|d1 f1 b1 Hb|d1 f1 m].
  - apply wbind_inv in Es as (q1 & g1 & E1 & Es).
    destruct Es as [([] & -> & Es)|[(-> & ? & _)|[(-> & ? & _)|(-> & ? & _)]]]; try discriminate.
    apply wret_inv in Es as [_ <-].
    unfold wf_write in E1. apply wbind_inv in E1 as (q2 & g2 & E2 & E1). apply wret_inv in E2 as [-> ->].
    destruct E1 as [(u' & ? & E1)|[(? & ? & _)|[(? & ? & _)|(? & ? & _)]]]; try discriminate.
    exact (add_tidy _ _ _ _ W T E1).
  - apply wbind_inv in Es as (q1 & g1 & E1 & Es).
    destruct Es as [(u & -> & Es)|[(-> & ? & _)|[(-> & ? & _)|(-> & ? & _)]]]; try discriminate.
    apply wret_inv in Es as [_ <-].
    unfold wf_append in E1. cbn [w_chunks] in E1. apply wbind_inv in E1 as (q2 & g2 & E2 & E1). apply wret_inv in E2 as [-> ->].
    destruct E1 as [(u' & ? & E1)|[(? & ? & _)|[(? & ? & _)|(? & ? & _)]]]; try discriminate.
    apply execute_ok in E1 as [E1 _]. exact (add_tidy _ _ _ _ W T E1).
  - apply wbind_inv in Es as (q1 & g1 & E1 & Es).
    destruct Es as [([] & -> & Es)|[(-> & ? & _)|[(-> & ? & _)|(-> & ? & _)]]]; try discriminate.
    apply wret_inv in Es as [_ <-]. exact (truncate_tidy _ _ _ W T E1).
Qed.
Lemma event_tidy e s WD r s' : Inv_any s WD -> event_ok e -> snd WD d = false ->
  (forall t, e = Call (KDeleteDir d) t -> dir_open (fst WD) d = false) -> fs_run [e] s = ([r], s') ->
  changed_well d f e r -> tidy (snd (snap s d f)) -> tidy (snd (snap s' d f)).
Proof.
  intros IA He HD Hdel E Hs T. destruct (any_like d s WD IA HD) as (s1 & I & LK). destruct e as [c t|]; cbn [fs_run] in E.
  2:{ injection E as <- <-. exact T. }
  destruct (fs_call c t s) as [r0 s0] eqn:Ec. injection E as -> ->.
  assert ((exists d', c = KDeleteDir d' /\ d' <> d) \/ forall d', c = KDeleteDir d' -> get d' (fs_dirs s) = None) as [(d' & -> & Hne)|Hc].
  { destruct c as [d'|d'|d' f'|d' f'|d' f'|d' f'|d' f' o' b'|d' f' a e|d' f'|d' f' n'|d' f' b'|d' f' o'|]; try (right; discriminate).
    destruct (beq_dec d' d) as [->|Hne]; [right|left; eauto]. intros d2 Ed. injection Ed as <-.
    specialize (Hdel t eq_refl). rewrite (i_dir _ _ I) in Hdel. destruct LK as (D & l & A & _). rewrite (al_dirs _ _ _ A) in Hdel.
    destruct (get d (fs_dirs s)); [discriminate|reflexivity]. }
  - assert (Inv_but d s (fst WD)) as IB by now exists s1.
    destruct (but_delete d d' t s _ r s' IB Hne Ec) as (_ & _ & _ & B1 & B2). unfold snap in *. now rewrite B1, B2.
  - destruct (like_call d c t s s1 r s' LK Ec Hc) as (s1' & E1 & LK').
    rewrite <- (snap_like d f _ _ LK) in T. rewrite <- (snap_like d f _ _ LK').
    assert (forall d', c = KDeleteDir d' -> get d' (fs_dirs s1) = None) as Hc1
      by (intros d' X; destruct LK as (D & l & A & _); rewrite (al_dirs _ _ _ A); now apply Hc).
    exact (well_evolves c t r _ _ (call_evolves s1 _ c t r s1' d f I Hf He Hc1 E1) (snap_wf d f Hf s1 _ I) Hs T).
Qed.
Lemma run_tidy l : forall a s WD rs s', Inv_any s WD -> Forall event_ok l -> deleted_closed d (a ++ l) ->
  snd WD d = false -> (dir_open (fst WD) d = true -> opened a d) -> fs_run l s = (rs, s') ->
  exists WD', fs_effects_any l rs WD WD' /\ Inv_any s' WD' /\ snd WD' d = false /\
    (Forall2 (changed_well d f) l rs -> tidy (snd (snap s d f)) -> tidy (snd (snap s' d f))).
Proof.
  induction l as [|e l IH]; intros a s WD rs s' I Hok Hdc HD Hop E.
  { injection E as <- <-. exists WD. split; [constructor|auto]. }
  inversion Hok as [|? ? He Hl]; subst.
  assert (a ++ e :: l = (a ++ [e]) ++ l) as Ea by (now rewrite <- app_assoc).
  assert (exists r s1 rs1, fs_run [e] s = ([r], s1) /\ fs_run l s1 = (rs1, s') /\ rs = r :: rs1) as (r & s1 & rs1 & E1 & E2 & ->).
  { destruct e as [c t|]; cbn [fs_run] in E |- *.
    - destruct (fs_call c t s) as [r s1]. destruct (fs_run l s1) as [rs1 s2] eqn:Er. injection E as <- <-. eexists _, _, _. eauto.
    - destruct (fs_run l (fs_restart s)) as [rs1 s2] eqn:Er. injection E as <- <-. eexists _, _, _. eauto. }
  destruct (event_any e s WD r s1 I He E1) as (WD1 & HE & I1).
  assert (fs_effects_any [e] [r] WD WD1) as HE1 by (econstructor; [exact HE|constructor]).
  assert (forall t, e = Call (KDeleteDir d) t -> dir_open (fst WD) d = false) as Hdel.
  { intros t ->. destruct (dir_open (fst WD) d) eqn:Hd; [|reflexivity]. exfalso.
    destruct (Hop eq_refl) as (a1 & t1 & a2 & Ha & Hn). apply Hn. exact (Hdc a l t eq_refl a1 a2 t1 Ha). }
  pose proof (event_tidy e s WD r s1 I He HD Hdel E1) as K1.
  rewrite Ea in Hdc.
  destruct (IH (a ++ [e]) s1 WD1 rs1 s' I1 Hl Hdc) as (WD2 & HE2 & I2 & HD2 & K2).
  - exact (not_doomed d [e] a _ _ _ (closed_front _ _ _ Hdc) HE1 Hop HD).
  - exact (opens_any d [e] a _ _ _ HE1 Hop).
  - exact E2.
  - exists WD2. split; [econstructor; eassumption|]. split; [exact I2|]. split; [exact HD2|].
    intros H T. inversion H as [|? ? ? ? H1 H2]; subst. auto.
Qed.

(** A call of [load] is one of the file's. *)
Lemma load_call s W o t : Inv_but d s W -> fst (fs_call (KLoad d f o) t s) = Err \/
  exists cs t' q h, rep (WFile cs (snd (snap s d f)) t') (contents W d f) /\
    wf_load_lp o (WFile cs (snd (snap s d f)) t') = (q, h) /\ fst (fs_call (KLoad d f o) t s) = (b <- q ;; Ok (RBytes b)).
Proof.
  intros (s1 & I & LK).
  assert (fst (fs_call (KLoad d f o) t s) = fst (fs_call (KLoad d f o) t s1)) as ->.
  { destruct (fs_call (KLoad d f o) t s) as [r s'] eqn:E.
    destruct (like_call d _ _ _ _ _ _ LK E ltac:(discriminate)) as (s1' & E1 & _). now rewrite E1. }
  rewrite <- (snap_like d f _ _ LK). unfold fs_call. destruct (fs_up s1); [|now left]. cbn [fs_exec]. unfold on_file.
  destruct (get d (fs_dirs s1)) as [[x files]|] eqn:Hd; [|now left]. destruct (get f files) as [cs|] eqn:Hg; [|now left].
  destruct (open_inv _ _ _ _ _ _ _ I Hf Hd Hg) as (_ & Hm & Hc & R).
  destruct (j_load_lp f o (jfile_of s1 x cs t)) as [q j'] eqn:E1.
  destruct (sim_load_lp (changes W) f Hf o (jfile_of s1 x cs t) q j' Hm Hc E1) as (_ & _ & _ & A4).
  destruct (A4 []) as (t' & Et). cbn [jfile_of j_chunks j_cache] in Et. right.
  exists cs, t', q. eexists. unfold snap. cbn [snd].
  assert (view f (obj s1 d) = view f (nth x (fs_objs s1) [])) as -> by (unfold obj; now rewrite (i_dirs _ _ I _ _ _ Hd)).
  split; [exact (rep_faults t' _ _ R)|]. split; [exact Et|]. destruct q; reflexivity.
Qed.
End History.

Theorem fs_load_right d f l rs s : ~ In quest f -> Forall event_ok l -> deleted_closed d l -> fs_run l new_fs = (rs, s) ->
  exists W D, fs_effects_any l rs (new_world, fun _ => false) (W, D) /\
  (forall o t, o + 4 < u64_max -> o + 3 < f_len (contents W d f) -> f_at (contents W d f) (o + 3) <> x00 ->
     fst (fs_call (KLoad d f o) t s) <> Panic) /\
  (Forall2 (changed_well d f) l rs -> forall o t b, fst (fs_call (KLoad d f o) t s) = Ok (RBytes b) ->
     o + record_len b <= f_len (contents W d f) /\ f_read (contents W d f) o (N.to_nat (record_len b)) = record b).
Proof.
  intros Hf Hok Hdc E.
  destruct (run_tidy d f Hf l [] new_fs (new_world, fun _ => false) rs s any_new Hok Hdc) as ([W D] & HE & I & HD & T);
    [reflexivity|discriminate|exact E|].
  exists W, D. split; [exact HE|]. destruct (any_like d s _ I HD) as (s1 & I1 & LK). assert (Inv_but d s W) as IB by now exists s1.
  split.
  - intros o t Ho H3 Hne EP. destruct (load_call d f Hf s W o t IB) as [X|(cs & t' & q & h & R & EL & X)]; [congruence|].
    rewrite X in EP. destruct q; try discriminate. exact (load_no_panic o _ h _ R Ho H3 Hne EL).
  - intros Hw o t b EO. destruct (load_call d f Hf s W o t IB) as [X|(cs & t' & q & h & R & EL & X)]; [congruence|].
    rewrite X in EO. destruct q as [b'| | |]; try discriminate. cbn [bind] in EO. injection EO as ->.
    refine (load_sound o _ h _ b R (T Hw tidy_nil) _ EL).
    destruct (N.lt_ge_cases (o + 4) u64_max) as [|L]; [assumption|]. exfalso. unfold wf_load_lp, wbind, wret, sum_ok in EL.
    apply N.ltb_ge in L. rewrite L in EL. discriminate.
Qed.
