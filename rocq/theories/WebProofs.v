(** Proofs about files in the browser cache. *)
From Coq Require Import Sorted.
From Verif Require Import Base BaseLemmas Header Node Store U64 Chunk ChunkProofs WebFile.
Local Open Scope N_scope.

(** ** The order of chunks *)
Definition clt (a b : chunk) : Prop :=
  level a < level b \/ level a = level b /\
  (offset a < offset b \/ offset a = offset b /\ len a < len b).
Lemma ltb_clt a b : chunk_ltb a b = true <-> clt a b.
Proof.
  unfold chunk_ltb, clt.
  rewrite orb_true_iff, andb_true_iff, orb_true_iff, andb_true_iff, !N.ltb_lt, !N.eqb_eq. tauto.
Qed.
Lemma eqb_chunk a b : chunk_eqb a b = true <-> a = b.
Proof.
  unfold chunk_eqb. rewrite !andb_true_iff, !N.eqb_eq. destruct a, b; cbn. split.
  - intros [[-> ->] ->]. reflexivity.
  - intros E. injection E as -> -> ->. auto.
Qed.
Lemma neqb_chunk a b : chunk_eqb a b = false <-> a <> b.
Proof. rewrite <- eqb_chunk. destruct (chunk_eqb a b); split; congruence. Qed.
Lemma eqb_chunk_refl a : chunk_eqb a a = true. Proof. now apply eqb_chunk. Qed.
Lemma clt_trans a b c : clt a b -> clt b c -> clt a c.
Proof. unfold clt. lia. Qed.
Lemma clt_irrefl a : ~ clt a a.
Proof. unfold clt. lia. Qed.
Lemma clt_total a b : a = b \/ clt a b \/ clt b a.
Proof.
  destruct a as [l o n], b as [l' o' n']. unfold clt. cbn.
  destruct (N.eq_dec l l') as [->|], (N.eq_dec o o') as [->|], (N.eq_dec n n') as [->|];
    try (now left); right; lia.
Qed.
Lemma level_clt a b : level a < level b -> clt a b.
Proof. unfold clt. lia. Qed.

(** ** Sorted sets *)
Definition sorted := StronglySorted clt.
Lemma set_insert_in c s : forall x, In x (set_insert c s) <-> x = c \/ In x s.
Proof.
  induction s as [|y s IH]; intros x; cbn [set_insert].
  - cbn. intuition.
  - destruct (chunk_ltb c y) eqn:E1; [cbn; intuition|].
    destruct (chunk_eqb c y) eqn:E2.
    + apply eqb_chunk in E2 as ->. cbn. intuition.
    + cbn [In]. rewrite IH. intuition.
Qed.
Lemma set_insert_sorted c s : sorted s -> sorted (set_insert c s).
Proof.
  induction s as [|y s IH]; intros H; cbn [set_insert].
  - constructor; constructor.
  - inversion H as [|? ? Hs Hf]; subst.
    destruct (chunk_ltb c y) eqn:E1.
    + apply ltb_clt in E1. constructor; [exact H|]. constructor; [exact E1|].
      eapply Forall_impl; [|exact Hf]. intros a Ha. eapply clt_trans; eassumption.
    + destruct (chunk_eqb c y) eqn:E2; [exact H|].
      constructor; [now apply IH|]. apply Forall_forall. intros x Hx.
      apply set_insert_in in Hx as [->|Hx].
      * apply neqb_chunk in E2. destruct (clt_total c y) as [?|[F|F]]; [contradiction| |exact F].
        apply ltb_clt in F. congruence.
      * rewrite Forall_forall in Hf. now apply Hf.
Qed.
Lemma filter_sorted p s : sorted s -> sorted (filter p s).
Proof.
  induction 1 as [|a s Hs IH Hf]; cbn [filter]; [constructor|].
  destruct (p a); [|exact IH]. constructor; [exact IH|].
  apply Forall_forall. intros x Hx. apply filter_In in Hx. rewrite Forall_forall in Hf. now apply Hf.
Qed.
Lemma set_remove_in c s x : In x (set_remove c s) <-> In x s /\ x <> c.
Proof.
  unfold set_remove. rewrite filter_In, negb_true_iff, neqb_chunk. intuition.
Qed.
Lemma sorted_app_last s c : sorted (s ++ [c]) -> forall x, In x s -> clt x c.
Proof.
  induction s as [|y s IH]; intros H x Hx; [contradiction|].
  inversion H as [|? ? Hs Hf]; subst. destruct Hx as [->|Hx].
  - rewrite Forall_forall in Hf. apply Hf, in_or_app. right. now left.
  - now apply IH.
Qed.

(** ** The cache *)
Lemma match_delete c m x : cache_match x (cache_delete c m) = if chunk_eqb c x then None else cache_match x m.
Proof.
  unfold cache_delete. induction m as [|[y d] m IH]; cbn [filter cache_match].
  - now destruct (chunk_eqb c x).
  - cbn [fst]. destruct (chunk_eqb c y) eqn:E; cbn [negb].
    + rewrite IH. destruct (chunk_eqb c x) eqn:E2; [reflexivity|].
      apply eqb_chunk in E as ->. apply neqb_chunk in E2.
      assert (chunk_eqb x y = false) as -> by (apply neqb_chunk; congruence). reflexivity.
    + cbn [cache_match]. destruct (chunk_eqb x y) eqn:E2; [|exact IH].
      apply eqb_chunk in E2 as ->. rewrite E. reflexivity.
Qed.
Lemma match_put c d m x : cache_match x (cache_put c d m) = if chunk_eqb c x then Some d else cache_match x m.
Proof.
  unfold cache_put. cbn [cache_match]. rewrite match_delete.
  destruct (chunk_eqb c x) eqn:E.
  - apply eqb_chunk in E as ->. now rewrite eqb_chunk_refl.
  - apply neqb_chunk in E. assert (chunk_eqb x c = false) as -> by (apply neqb_chunk; congruence). reflexivity.
Qed.
Lemma match_keys m x : cache_match x m <> None <-> In x (map fst m).
Proof.
  induction m as [|[y d] m IH]; cbn [cache_match map]; [cbn; tauto|].
  cbn [fst In]. destruct (chunk_eqb x y) eqn:E.
  - apply eqb_chunk in E as ->. split; [tauto|congruence].
  - apply neqb_chunk in E. rewrite IH. intuition congruence.
Qed.

(** ** Consistent files *)
Record wf (f : wfile) : Prop := {
  wf_sorted : sorted (w_chunks f);
  wf_keys : forall c, In c (w_chunks f) <-> cache_match c (w_cache f) <> None;
  wf_len : forall c d, cache_match c (w_cache f) = Some d -> N.of_nat (length d) = len c
}.
(** Same chunks and cache; the faults left may differ. *)
Definition same (f g : wfile) : Prop := w_chunks f = w_chunks g /\ w_cache f = w_cache g.

Definition covers (c : chunk) (x : N) : bool := (offset c <=? x) && (x <? offset c + len c).
Lemma covers_iff c x : covers c x = true <-> offset c <= x < offset c + len c.
Proof. unfold covers. rewrite andb_true_iff, N.leb_le, N.ltb_lt. tauto. Qed.
Definition data (m : cache) (c : chunk) : bytes := match cache_match c m with Some d => d | None => [] end.
(** The byte at [x] of chunk [c]. *)
Definition byte_at (m : cache) (x : N) (c : chunk) : byte := nth (N.to_nat (x - offset c)) (data m c) x00.
Definition upd (m : cache) (x : N) (acc : byte) (c : chunk) : byte :=
  if covers c x then byte_at m x c else acc.
(** The byte of the file at [x]. *)
Definition vis (f : wfile) (x : N) : byte := fold_left (upd (w_cache f) x) (w_chunks f) x00.

(** [c] is the last chunk that covers [x]. *)
Definition top (cs : list chunk) (x : N) (c : chunk) : Prop :=
  In c cs /\ covers c x = true /\ forall c', In c' cs -> covers c' x = true -> c' = c \/ clt c' c.

Lemma top_cases cs x : (forall c, In c cs -> covers c x = false) \/ exists c, top cs x c.
Proof.
  induction cs as [|a cs [IH|(c & Hc & Hx & Hm)]]; [left; intros ? []| |].
  - destruct (covers a x) eqn:E.
    + right. exists a. split; [now left|]. split; [exact E|].
      intros c' [<-|H'] Hc'; [now left|]. rewrite IH in Hc' by exact H'. discriminate.
    + left. intros c [<-|H]; auto.
  - right. destruct (covers a x) eqn:E.
    + destruct (clt_total a c) as [<-|[F|F]].
      * exists a. split; [now left|]. split; [exact E|]. intros c' [<-|H'] Hc'; auto.
      * exists c. split; [now right|]. split; [exact Hx|]. intros c' [<-|H'] Hc'; auto.
      * exists a. split; [now left|]. split; [exact E|]. intros c' [<-|H'] Hc'; [now left|].
        destruct (Hm c' H' Hc') as [->|G]; right; [exact F|eapply clt_trans; eassumption].
    + exists c. split; [now right|]. split; [exact Hx|]. intros c' [<-|H'] Hc'; [congruence|auto].
Qed.

Lemma fold_none m x cs : forall acc, (forall c, In c cs -> covers c x = false) -> fold_left (upd m x) cs acc = acc.
Proof.
  induction cs as [|a cs IH]; intros acc H; cbn [fold_left]; [reflexivity|].
  rewrite IH by (intros; apply H; now right). unfold upd. now rewrite H by now left.
Qed.
Lemma fold_top m x cs : forall acc c, sorted cs -> top cs x c -> fold_left (upd m x) cs acc = byte_at m x c.
Proof.
  induction cs as [|a cs IH]; intros acc c Hs (Hc & Hx & Hm); [contradiction|].
  inversion Hs as [|? ? Hs' Hf]; subst. rewrite Forall_forall in Hf. cbn [fold_left].
  destruct Hc as [->|Hc].
  - rewrite fold_none.
    + unfold upd. now rewrite Hx.
    + intros c' Hc'. destruct (covers c' x) eqn:E; [|reflexivity]. exfalso.
      pose proof (Hf c' Hc') as F. destruct (Hm c' (or_intror Hc') E) as [->|G].
      * exact (clt_irrefl _ F).
      * exact (clt_irrefl _ (clt_trans _ _ _ F G)).
  - apply IH; [exact Hs'|]. split; [exact Hc|]. split; [exact Hx|].
    intros c' Hc' E. apply Hm; [now right|exact E].
Qed.
Lemma vis_top f x c : wf f -> top (w_chunks f) x c -> vis f x = byte_at (w_cache f) x c.
Proof. intros W T. apply fold_top; [apply W|exact T]. Qed.
Lemma vis_none f x : (forall c, In c (w_chunks f) -> covers c x = false) -> vis f x = x00.
Proof. apply fold_none. Qed.

Lemma same_vis f g : same f g -> forall x, vis f x = vis g x.
Proof. intros [A B] x. unfold vis. now rewrite A, B. Qed.
Lemma same_wf f g : same f g -> wf f -> wf g.
Proof. intros [A B] [H1 H2 H3]. constructor; rewrite <- ?A, <- ?B; auto. Qed.
Lemma same_refl f : same f f. Proof. now split. Qed.
Lemma same_trans f g h : same f g -> same g h -> same f h.
Proof. intros [A B] [C D]. split; congruence. Qed.

(** ** Reading *)
Definition good_res {A} (r : res A) : Prop := r = Err \/ exists a, r = Ok a.

Lemma js_cases {A} (m : wm wfile A) f :
  (exists g, js m f = (Err, g) /\ same f g) \/ exists g, js m f = m g /\ same f g.
Proof.
  destruct f as [cs ca [|[] t]]; unfold js; cbn [w_faults w_chunks w_cache tl].
  - right. eexists. split; [reflexivity|now split].
  - left. eexists. split; [reflexivity|now split].
  - right. eexists. split; [reflexivity|now split].
Qed.

Lemma load_range_spec f c r q g : load_range c r f = (q, g) ->
  same f g /\ good_res q /\ forall d, q = Ok d ->
    exists d0, cache_match c (w_cache f) = Some d0 /\ d = js_slice d0 (fst r) (snd r).
Proof.
  intros E. unfold load_range in E.
  match type of E with js ?m f = _ => destruct (js_cases m f) as [(g' & E' & Hs)|(g' & E' & Hs)] end;
    rewrite E' in E; clear E'.
  - assert (q = Err /\ g = g') as [-> ->] by (split; congruence).
    split; [exact Hs|]. split; [now left|]. discriminate.
  - assert (g = g') as -> by congruence. split; [exact Hs|]. destruct Hs as [_ Hc].
    rewrite <- Hc in E. destruct (cache_match c (w_cache f)) as [d0|].
    + unfold to_i32 in E. destruct (fst r <? i32_lim); cbn [bind] in E;
        [destruct (snd r <? i32_lim); cbn [bind] in E|]; injection E as <-;
        (split; [unfold good_res; eauto|]); intros d Hd; try discriminate.
      injection Hd as <-. eauto.
    + injection E as <-. split; [now left|]. discriminate.
Qed.

Lemma nth_firstn {A} (d0 : A) l : forall n i, (i < n)%nat -> nth i (firstn n l) d0 = nth i l d0.
Proof.
  induction l as [|a l IH]; intros n i H; [now rewrite firstn_nil|].
  destruct n; [lia|]. destruct i; cbn; [reflexivity|]. apply IH. lia.
Qed.
Lemma nth_skipn {A} (d0 : A) l : forall n i, nth i (skipn n l) d0 = nth (n + i) l d0.
Proof.
  induction l as [|a l IH]; intros n i.
  - rewrite skipn_nil. destruct i, n; reflexivity.
  - destruct n; cbn; [reflexivity|]. apply IH.
Qed.

Lemma copy_spec d buf s e out : copy_to d buf (s, e) = Ok out ->
  length out = length buf /\
  forall i, nth i out x00 =
    if (s <=? N.of_nat i) && (N.of_nat i <? e) then nth (N.to_nat (N.of_nat i - s)) d x00 else nth i buf x00.
Proof.
  unfold copy_to. cbn [fst snd]. destruct (_ && _) eqn:E; [|discriminate]. intros H. injection H as <-.
  apply andb_true_iff in E as [E E3]. apply andb_true_iff in E as [E1 E2].
  apply N.leb_le in E1, E2. apply N.eqb_eq in E3.
  assert (length (firstn (N.to_nat s) buf) = N.to_nat s) as L1 by (rewrite firstn_length; lia).
  split.
  - rewrite !app_length, L1, skipn_length. lia.
  - intros i. destruct (N.leb_spec s (N.of_nat i)) as [A|A]; cbn [andb].
    + rewrite app_nth2 by lia. rewrite L1. destruct (N.ltb_spec (N.of_nat i) e) as [B|B].
      * rewrite app_nth1 by lia. f_equal. lia.
      * rewrite app_nth2 by lia. rewrite nth_skipn. f_equal. lia.
    + rewrite app_nth1 by lia. apply nth_firstn. lia.
Qed.

Lemma overlap_iff a b : overlap a b = true <-> fst b < snd a /\ fst a < snd b.
Proof.
  unfold overlap. rewrite negb_true_iff, orb_false_iff, !N.leb_gt. tauto.
Qed.

Lemma wret_inv {X A} (r : res A) (h : X) q g : wret r h = (q, g) -> q = r /\ g = h.
Proof. unfold wret. intros H. now injection H. Qed.

Lemma wbind_inv {X A B} (m : wm X A) (k : A -> wm X B) h q g : wbind m k h = (q, g) ->
  exists r1 g1, m h = (r1, g1) /\
    ((exists a, r1 = Ok a /\ k a g1 = (q, g)) \/ r1 = Err /\ q = Err /\ g = g1 \/
     r1 = Panic /\ q = Panic /\ g = g1 \/ r1 = Fuel /\ q = Fuel /\ g = g1).
Proof.
  unfold wbind. destruct (m h) as [r1 g1]. intros H. exists r1, g1. split; [reflexivity|].
  destruct r1; [left; eauto|..]; injection H as <- <-; tauto.
Qed.

Lemma load_loop_spec f s e : wf f -> s <= e -> forall cs buf q g h,
  same f h -> (forall c, In c cs -> In c (w_chunks f) /\ overlap (crange c) (s, e) = true) ->
  N.of_nat (length buf) = e - s ->
  load_loop (s, e) cs buf h = (q, g) ->
  same f g /\ good_res q /\ forall out, q = Ok out ->
    length out = length buf /\
    forall i, (i < length buf)%nat -> nth i out x00 = fold_left (upd (w_cache f) (s + N.of_nat i)) cs (nth i buf x00).
Proof.
  intros W Hse. induction cs as [|c cs IH]; intros buf q g h Hh Hcs Hbuf E; unfold bytes in *; cbn [load_loop] in E.
  - apply wret_inv in E as [-> ->].
    split; [exact Hh|]. split; [right; eauto|]. intros out Ho. injection Ho as <-.
    split; [reflexivity|]. intros; reflexivity.
  - destruct (Hcs c (or_introl eq_refl)) as [Hin Hov].
    assert (fst (crange c) <= snd (crange c)) as Hr by (cbn; lia).
    apply wbind_inv in E as (r1 & g1 & E1 & E). apply wret_inv in E1 as [-> ->].
    destruct (ranges_total (crange c) (s, e)) as [R|(rr & R)]; rewrite R in E.
    { destruct E as [(? & ? & _)|[(_ & -> & ->)|[(? & _)|(? & _)]]]; try discriminate.
      split; [exact Hh|]. split; [now left|discriminate]. }
    destruct E as [(rr' & Err' & E)|[(? & _)|[(? & _)|(? & _)]]]; try discriminate.
    injection Err' as <-.
    apply ranges_ok in R; [|exact Hr|exact Hse|exact Hov].
    apply overlap_iff in Hov. cbn [crange fst snd] in Hov, R.
    apply wbind_inv in E as (q1 & g1 & E1 & E).
    apply load_range_spec in E1 as (Hg1 & Hq1 & Hd).
    pose proof (same_trans _ _ _ Hh Hg1) as Hfg.
    destruct Hq1 as [->|(d & ->)].
    { destruct E as [(? & ? & _)|[(_ & -> & ->)|[(? & _)|(? & _)]]]; try discriminate.
      split; [exact Hfg|]. split; [now left|discriminate]. }
    destruct E as [(d' & Ed & E)|[(? & _)|[(? & _)|(? & _)]]]; try discriminate.
    injection Ed as <-.
    destruct (Hd d eq_refl) as (d0 & Hm & ->). clear Hd.
    rewrite <- (proj2 Hh) in Hm. pose proof (wf_len _ W _ _ Hm) as Hl.
    set (a := N.max (offset c) s) in *. set (b := N.min (offset c + len c) e) in *.
    assert (a <= b /\ offset c <= a /\ s <= a /\ b <= e /\ b <= offset c + len c) as Hab by lia.
    assert (length (js_slice d0 (fst (fst rr)) (snd (fst rr))) = N.to_nat (b - a)) as Hsl.
    { rewrite R. cbn [fst snd]. unfold js_slice. rewrite firstn_length, skipn_length. lia. }
    apply wbind_inv in E as (q2 & g2 & E2 & E). apply wret_inv in E2 as [E2 ->].
    destruct E as [(buf' & -> & E)|E].
    2: { exfalso. revert E2. unfold copy_to. rewrite Hsl, R. cbn [fst snd].
      assert (((a - s <=? b - s) && (b - s <=? N.of_nat (length buf)) && (N.of_nat (N.to_nat (b - a)) =? b - s - (a - s)) = true)) as ->
        by (rewrite !andb_true_iff, !N.leb_le, N.eqb_eq; lia).
      intros ->. destruct E as [(? & _)|[(? & _)|(? & _)]]; discriminate. }
    symmetry in E2.
    rewrite R in E2. cbn [fst snd] in E2. apply copy_spec in E2 as [HL HN].
    specialize (IH buf' q g g1 Hfg (fun c' H' => Hcs c' (or_intror H')) ltac:(lia) E) as (I1 & I2 & I3).
    split; [exact I1|]. split; [exact I2|]. intros out Ho. destruct (I3 out Ho) as [J1 J2].
    split; [lia|]. intros i Hi. rewrite J2 by lia. cbn [fold_left]. f_equal. rewrite HN.
    unfold upd, covers. destruct (N.leb_spec (a - s) (N.of_nat i)) as [A|A]; cbn [andb].
    + destruct (N.ltb_spec (N.of_nat i) (b - s)) as [B|B].
      * assert (offset c <=? s + N.of_nat i = true) as -> by (apply N.leb_le; lia).
        assert (s + N.of_nat i <? offset c + len c = true) as -> by (apply N.ltb_lt; lia).
        cbn [andb]. unfold byte_at, data. rewrite Hm. unfold js_slice.
        rewrite nth_firstn by lia. rewrite nth_skipn. f_equal. lia.
      * assert (s + N.of_nat i <? offset c + len c = false) as -> by (apply N.ltb_ge; lia).
        now rewrite andb_false_r.
    + assert (offset c <=? s + N.of_nat i = false) as -> by (apply N.leb_gt; lia). reflexivity.
Qed.

Lemma fold_filter m x p cs : (forall c, In c cs -> p c = false -> covers c x = false) ->
  forall acc, fold_left (upd m x) (filter p cs) acc = fold_left (upd m x) cs acc.
Proof.
  induction cs as [|c cs IH]; intros H acc; cbn [filter fold_left]; [reflexivity|].
  destruct (p c) eqn:E; cbn [fold_left].
  - apply IH. intros; apply H; [now right|assumption].
  - rewrite IH by (intros; apply H; [now right|assumption]).
    assert (upd m x acc c = acc) as -> by (unfold upd; now rewrite (H c (or_introl eq_refl) E)). reflexivity.
Qed.

Lemma nth_repeat0 n i : nth i (repeat x00 n) x00 = x00.
Proof. revert i. induction n; intros [|i]; cbn; auto. Qed.

Lemma read_raw_spec f s e q g : wf f -> s <= e -> read_raw (s, e) f = (q, g) ->
  same f g /\ good_res q /\ forall out, q = Ok out ->
    N.of_nat (length out) = e - s /\
    forall i, (i < length out)%nat -> nth i out x00 = vis f (s + N.of_nat i).
Proof.
  intros W Hse E. unfold read_raw, load_chunks, wbind, wret, to_usize in E. cbn [fst snd] in E.
  destruct (e - s <? usize_lim).
  - apply (load_loop_spec f s e W Hse) in E.
    + destruct E as (H1 & H2 & H3). split; [exact H1|]. split; [exact H2|]. intros out Ho.
      destruct (H3 out Ho) as [A B]. rewrite repeat_length in A. split; [lia|].
      intros i Hi. rewrite B by (rewrite repeat_length; lia). rewrite nth_repeat0.
      unfold vis, intersecting. apply fold_filter. intros c _ Hov.
      destruct (covers c (s + N.of_nat i)) eqn:Ec; [|reflexivity]. exfalso.
      apply covers_iff in Ec. enough (overlap (crange c) (s, e) = true) by congruence.
      apply overlap_iff. cbn. lia.
    + apply same_refl.
    + intros c Hc. apply filter_In in Hc. exact Hc.
    + rewrite repeat_length. lia.
  - assert (q = Err /\ g = f) as [-> ->] by (split; congruence).
    split; [apply same_refl|]. split; [now left|discriminate].
Qed.

(** ** Changing *)

(** Putting a chunk. *)
Definition put_file (c : chunk) (d : bytes) (f : wfile) : wfile :=
  WFile (set_insert c (w_chunks f)) (cache_put c d (w_cache f)) (w_faults f).
Lemma put_wf c d f : wf f -> N.of_nat (length d) = len c -> wf (put_file c d f).
Proof.
  intros W Hl. constructor; cbn [put_file w_chunks w_cache].
  - apply set_insert_sorted, W.
  - intros x. rewrite set_insert_in, match_put. destruct (chunk_eqb c x) eqn:E.
    + apply eqb_chunk in E as ->. split; [discriminate|now left].
    + apply neqb_chunk in E. rewrite (wf_keys _ W). intuition congruence.
  - intros x d'. rewrite match_put. destruct (chunk_eqb c x) eqn:E.
    + apply eqb_chunk in E as ->. intros H. injection H as <-. exact Hl.
    + apply W.
Qed.
Lemma put_other c d f x c' : c' <> c -> byte_at (w_cache (put_file c d f)) x c' = byte_at (w_cache f) x c'.
Proof.
  intros H. unfold byte_at, data. cbn [put_file w_cache]. rewrite match_put.
  assert (chunk_eqb c c' = false) as -> by (apply neqb_chunk; congruence). reflexivity.
Qed.
Lemma put_self c d f x : byte_at (w_cache (put_file c d f)) x c = nth (N.to_nat (x - offset c)) d x00.
Proof. unfold byte_at, data. cbn [put_file w_cache]. now rewrite match_put, eqb_chunk_refl. Qed.

Lemma put_vis c d f x : wf f -> N.of_nat (length d) = len c ->
  vis (put_file c d f) x =
    match covers c x with
    | false => vis f x
    | true => if existsb (fun c' => chunk_ltb c c' && covers c' x) (w_chunks f) then vis f x
              else nth (N.to_nat (x - offset c)) d x00
    end.
Proof.
  intros W Hl. pose proof (put_wf c d f W Hl) as W'.
  destruct (covers c x) eqn:Ec.
  - destruct (existsb _ _) eqn:Ex.
    + apply existsb_exists in Ex as (c1 & H1 & H2). apply andb_true_iff in H2 as [H2 H3]. apply ltb_clt in H2.
      destruct (top_cases (w_chunks f) x) as [N|(t & T)]; [rewrite N in H3 by exact H1; discriminate|].
      assert (clt c t) as Hct.
      { destruct T as (_ & _ & T). destruct (T c1 H1 H3) as [->|G]; [exact H2|eapply clt_trans; eassumption]. }
      rewrite (vis_top f x t W T). rewrite (vis_top (put_file c d f) x t W').
      * apply put_other. intros ->. exact (clt_irrefl _ Hct).
      * destruct T as (T1 & T2 & T3). split; [apply set_insert_in; now right|]. split; [exact T2|].
        intros c' Hc' Hx'. apply set_insert_in in Hc' as [->|Hc']; [now right|auto].
    + rewrite (vis_top (put_file c d f) x c W'); [apply put_self|].
      split; [apply set_insert_in; now left|]. split; [exact Ec|].
      intros c' Hc' Hx'. apply set_insert_in in Hc' as [->|Hc']; [now left|].
      destruct (clt_total c' c) as [->|[G|G]]; [now left|now right|]. exfalso.
      enough (existsb (fun c' => chunk_ltb c c' && covers c' x) (w_chunks f) = true) by congruence.
      apply existsb_exists. exists c'. split; [exact Hc'|]. apply ltb_clt in G. now rewrite G, Hx'.
  - destruct (top_cases (w_chunks f) x) as [N|(t & T)].
    + rewrite (vis_none f x N). apply vis_none. intros c' Hc'.
      apply set_insert_in in Hc' as [->|Hc']; auto.
    + rewrite (vis_top f x t W T). destruct T as (T1 & T2 & T3).
      rewrite (vis_top (put_file c d f) x t W').
      * apply put_other. congruence.
      * split; [apply set_insert_in; now right|]. split; [exact T2|].
        intros c' Hc' Hx'. apply set_insert_in in Hc' as [->|Hc']; [congruence|auto].
Qed.

Definition del_file (c : chunk) (f : wfile) : wfile :=
  WFile (set_remove c (w_chunks f)) (cache_delete c (w_cache f)) (w_faults f).
Lemma del_wf c f : wf f -> wf (del_file c f).
Proof.
  intros W. constructor; cbn [del_file w_chunks w_cache].
  - apply filter_sorted, W.
  - intros x. rewrite set_remove_in, match_delete, (wf_keys _ W). destruct (chunk_eqb c x) eqn:E.
    + apply eqb_chunk in E. intuition congruence.
    + apply neqb_chunk in E. intuition congruence.
  - intros x d'. rewrite match_delete. destruct (chunk_eqb c x); [discriminate|]. apply W.
Qed.
Lemma del_other c f x c' : c' <> c -> byte_at (w_cache (del_file c f)) x c' = byte_at (w_cache f) x c'.
Proof.
  intros H. unfold byte_at, data. cbn [del_file w_cache]. rewrite match_delete.
  assert (chunk_eqb c c' = false) as -> by (apply neqb_chunk; congruence). reflexivity.
Qed.
(** Deleting a chunk that is not the last one at [x]. *)
Lemma del_vis c f x : wf f ->
  (covers c x = true -> exists c', In c' (w_chunks f) /\ covers c' x = true /\ clt c c') ->
  vis (del_file c f) x = vis f x.
Proof.
  intros W H. destruct (top_cases (w_chunks f) x) as [N|(t & T)].
  - rewrite (vis_none f x N). apply vis_none. intros c' Hc'. apply set_remove_in in Hc' as [Hc' _]. auto.
  - rewrite (vis_top f x t W T). destruct T as (T1 & T2 & T3).
    assert (t <> c) as Htc.
    { intros ->. destruct (H T2) as (c' & A & B & C). destruct (T3 c' A B) as [->|G].
      - exact (clt_irrefl _ C).
      - exact (clt_irrefl _ (clt_trans _ _ _ C G)). }
    rewrite (vis_top (del_file c f) x t (del_wf c f W)); [now apply del_other|].
    split; [now apply set_remove_in|]. split; [exact T2|].
    intros c' Hc' Hx'. apply set_remove_in in Hc' as [Hc' _]. auto.
Qed.
(** Deleting the first chunk of the order among those that cover [x]. *)
Lemma del_vis_or c f x : wf f ->
  (forall c', In c' (w_chunks f) -> covers c' x = true -> c' = c \/ clt c c') ->
  vis (del_file c f) x = vis f x \/ vis (del_file c f) x = x00.
Proof.
  intros W H. destruct (covers c x) eqn:Ec.
  - destruct (existsb (fun c' => chunk_ltb c c' && covers c' x) (w_chunks f)) eqn:Ex.
    + apply existsb_exists in Ex as (c1 & H1 & H2). apply andb_true_iff in H2 as [H2 H3]. apply ltb_clt in H2.
      left. apply del_vis; [exact W|]. intros _. eauto.
    + right. apply vis_none. intros c' Hc'. apply set_remove_in in Hc' as [Hc' Hn].
      destruct (covers c' x) eqn:E'; [|reflexivity]. exfalso.
      destruct (H c' Hc' E') as [->|G]; [contradiction|].
      enough (existsb (fun c' => chunk_ltb c c' && covers c' x) (w_chunks f) = true) by congruence.
      apply existsb_exists. exists c'. split; [exact Hc'|]. apply ltb_clt in G. now rewrite G, E'.
  - left. apply del_vis; [exact W|]. congruence.
Qed.
