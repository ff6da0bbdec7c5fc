(** Proofs about files in the browser cache that are only appended to. *)
From Coq Require Import Sorted.
From Verif Require Import Base BaseLemmas Header Node Store StoreSpec U64 File Chunk ChunkProofs WebFile WebProofs WebPlans
  WebSpec WebTop WebStore.
Local Open Scope N_scope.

(** ** The last chunk *)
Lemma sorted_last_max cs : sorted cs -> forall c, In c cs -> c = prev cs \/ clt c (prev cs).
Proof.
  intros Hs c Hc. unfold prev. destruct cs as [|a cs]; [contradiction|].
  destruct (@exists_last _ (a :: cs)) as (l & b & E); [discriminate|]. rewrite E in *. rewrite last_last.
  apply in_app_or in Hc as [Hc|[->|[]]]; [|now left]. right. exact (sorted_app_last l b Hs c Hc).
Qed.
Lemma prev_max cs c : sorted cs -> In c cs -> (forall c', In c' cs -> c' = c \/ clt c' c) -> prev cs = c.
Proof.
  intros Hs Hc Hm. destruct (sorted_last_max cs Hs c Hc) as [E|L]; [now symmetry|].
  destruct (prev_in cs) as [[-> _]|Hp]; [contradiction|].
  destruct (Hm _ Hp) as [E|L']; [exact E|]. exfalso. exact (clt_irrefl _ (clt_trans _ _ _ L L')).
Qed.
Lemma filter_one p cs c : sorted cs -> In c cs -> p c = true -> (forall c', In c' cs -> p c' = true -> c' = c) ->
  filter p cs = [c].
Proof.
  intros Hs Hc Hp H. apply sorted_ext; [now apply filter_sorted|constructor; constructor|].
  intros x. rewrite filter_In. cbn. split.
  - intros [A B]. left. symmetry. auto.
  - intros [<-|[]]. auto.
Qed.

(** ** The size of the cache *)
Definition sizes_ok (m : cache) : Prop := Forall (fun e => N.of_nat (length (snd e)) = len (fst e)) m.
Lemma sizes_delete c m : sizes_ok m -> sizes_ok (cache_delete c m).
Proof.
  unfold sizes_ok. rewrite !Forall_forall. intros H x Hx. apply filter_In in Hx as [Hx _]. auto.
Qed.
Lemma size_delete c m : sizes_ok m -> (~ In c (map fst m) \/ len c = 0) ->
  cache_size (cache_delete c m) = cache_size m.
Proof.
  induction m as [|[c' d] m IH]; intros H Hc; [reflexivity|]. inversion H as [|? ? Hd H']; subst.
  unfold cache_delete in *. cbn [filter fst]. destruct (chunk_eqb c c') eqn:E; cbn [negb].
  - apply eqb_chunk in E as <-. cbn [fst snd] in Hd. destruct Hc as [Hc|Hc]; [exfalso; apply Hc; now left|].
    rewrite IH by auto. cbn [cache_size fold_right snd]. fold (cache_size m). lia.
  - cbn [cache_size fold_right snd]. fold (cache_size m).
    fold (cache_size (filter (fun e => negb (chunk_eqb c (fst e))) m)). rewrite IH; [reflexivity|exact H'|].
    destruct Hc as [Hc|Hc]; [left; intros F; apply Hc; now right|now right].
Qed.

(** ** The invariant *)
Definition bview (b : bytes) (x : N) : byte := nth (N.to_nat x) b x00.
Record lin (b : bytes) (f : wfile) : Prop := {
  lin_ok : state_ok (bview b) (N.of_nat (length b)) f;
  lin_level : forall c, In c (w_chunks f) -> level c = 0;
  lin_end : snd (crange (prev (w_chunks f))) = N.of_nat (length b);
  lin_disjoint : forall c c', In c (w_chunks f) -> In c' (w_chunks f) ->
    c = c' \/ offset c + len c <= offset c' \/ offset c' + len c' <= offset c;
  lin_sizes : sizes_ok (w_cache f);
  lin_size : N.of_nat (length b) <= cache_size (w_cache f) < quota
}.
Lemma lin_same b f g : same f g -> lin b f -> lin b g.
Proof.
  intros S [H1 H2 H3 H4 H5 H6]. pose proof (same_ok _ _ _ _ S H1) as K. destruct S as [S1 S2].
  constructor; rewrite <- ?S1, <- ?S2; auto.
Qed.
Lemma lin_new : lin [] new_web_file.
Proof.
  constructor; cbn; try (intros c []); try constructor; try lia.
  - constructor; cbn; [constructor|tauto|discriminate].
  - split; [|intros c []]. intros x. unfold vis, bview. cbn. now destruct (N.to_nat x).
  - reflexivity.
Qed.

Lemma execute_one o f q g : execute_plan [o] f = (q, g) -> exists q1, exec_op o f = (q1, g) /\
  (q1 = q).
Proof.
  intros E. cbn [execute_plan] in E. apply wbind_inv in E as (q1 & g1 & E1 & E).
  exists q1. destruct E as [(a & -> & E)|[(-> & -> & ->)|[(-> & -> & ->)|(-> & -> & ->)]]]; [|auto..].
  apply wret_inv in E as [-> ->]. destruct a. auto.
Qed.

Lemma append_spec b d f q g : lin b f -> N.of_nat (length b) + N.of_nat (length d) < u64_max ->
  wf_append d f = (q, g) ->
  q = Err /\ same f g \/
  q = Ok (N.of_nat (length b)) /\ lin (b ++ d) g /\
  same (put_file (Chunk 0 (N.of_nat (length b)) (N.of_nat (length d))) d f) g /\
  forall c, In c (w_chunks f) -> cache_match c (w_cache g) = cache_match c (w_cache f).
Proof.
  intros L Hu E. unfold wf_append in E. rewrite (lin_end _ _ L) in E. set (o := N.of_nat (length b)) in *.
  apply wbind_inv in E as (q1 & g1 & E1 & E). apply wret_inv in E1 as [-> ->].
  unfold sum_ok in E. apply N.ltb_lt in Hu. rewrite Hu in E.
  destruct E as [(u & _ & E)|[(? & _)|[(? & _)|(? & _)]]]; try discriminate.
  pose proof (lin_ok _ _ L) as (W & HV & HB).
  assert (filter (fun c => overlap (crange c) (o, o + N.of_nat (length d))) (w_chunks f) = []) as Hrel.
  { destruct (filter _ _) as [|c l] eqn:Ef; [reflexivity|].
    assert (In c (filter (fun c => overlap (crange c) (o, o + N.of_nat (length d))) (w_chunks f))) as Hc by (rewrite Ef; now left).
    apply filter_In in Hc as [Hc Ho]. apply overlap_iff in Ho. cbn [crange fst snd] in Ho.
    pose proof (HB c Hc). lia. }
  assert (add (w_chunks f) o d = [WWrite (Chunk 0 o (N.of_nat (length d))) d]) as Ha.
  { unfold add. rewrite Hrel. cbn. unfold chunk_new. cbn [fst snd].
    replace (o + N.of_nat (length d) - o) with (N.of_nat (length d)) by lia. reflexivity. }
  rewrite Ha in E. apply wbind_inv in E as (q1 & g1 & E1 & E).
  set (c0 := Chunk 0 o (N.of_nat (length d))) in *.
  apply execute_one in E1 as (q1' & E1 & ->). cbn [exec_op] in E1.
  assert (q1 = Err /\ same f g1 \/
    q1 = Ok tt /\ same (put_file c0 d f) g1 /\ cache_size (w_cache f) + N.of_nat (length d) < quota) as C.
  { unfold write_chunk in E1.
    match type of E1 with js ?m f = _ => destruct (js_cases m f) as [(g' & E' & Hs)|(g' & E' & Hs)] end;
      rewrite E' in E1; [injection E1 as <- <-; now left|].
    destruct (N.ltb_spec (cache_size (w_cache g') + N.of_nat (length d)) quota) as [A|A]; injection E1 as <- <-; [right|now left].
    split; [reflexivity|]. destruct Hs as [S1 S2]. split; [split; cbn; congruence|]. now rewrite S2. }
  destruct C as [(-> & S)|(-> & S & HQ)].
  - left. destruct E as [(? & ? & _)|[(_ & -> & ->)|[(? & _)|(? & _)]]]; try discriminate. auto.
  - right. destruct E as [(u' & _ & E)|[(? & _)|[(? & _)|(? & _)]]]; try discriminate.
    apply wret_inv in E as [-> ->]. split; [reflexivity|].
    assert (forall c, In c (w_chunks f) -> c = c0 \/ clt c c0 /\ offset c + len c <= o) as Hlt.
    { intros c Hc. pose proof (HB c Hc) as Hb. pose proof (lin_level _ _ L c Hc) as Hl.
      destruct c as [l0 o0 n0]. cbn [offset len level] in *. unfold c0, clt. cbn [offset len level].
      destruct (N.eq_dec o0 o) as [->|]; [destruct (N.eq_dec n0 (N.of_nat (length d))) as [->|]|].
      - left. now subst.
      - right. lia.
      - right. lia. }
    assert (N.of_nat (length d) = len c0) as Hl by reflexivity.
    split; [|split].
    + apply (lin_same _ _ _ S). constructor; cbn [put_file w_chunks w_cache].
      * rewrite app_length, Nat2N.inj_add. fold o. split; [now apply put_wf|]. split.
        -- intros x. rewrite (put_vis c0 d f x W Hl). unfold bview. change (covers c0 x) with ((o <=? x) && (x <? o + N.of_nat (length d))). cbn [c0 offset].
           destruct (N.leb_spec o x) as [A|A]; cbn [andb].
           ++ rewrite app_nth2 by lia. destruct (N.ltb_spec x (o + N.of_nat (length d))) as [A'|A'].
              ** assert (existsb (fun c' => chunk_ltb c0 c' && covers c' x) (w_chunks f) = false) as ->.
                 { apply not_true_is_false. intros F. apply existsb_exists in F as (c & Hc & F).
                   apply andb_true_iff in F as [_ F]. apply covers_iff in F. pose proof (HB c Hc). lia. }
                 f_equal. lia.
              ** rewrite HV. unfold bview. rewrite !nth_overflow by lia. reflexivity.
           ++ rewrite app_nth1 by lia. apply HV.
        -- intros c Hc. cbn in Hc. apply set_insert_in in Hc as [->|Hc]; [cbn; lia|]. pose proof (HB c Hc). lia.
      * intros c Hc. apply set_insert_in in Hc as [->|Hc]; [reflexivity|]. now apply (lin_level _ _ L).
      * rewrite (prev_max _ c0).
        -- cbn [c0 crange snd offset len]. rewrite app_length. lia.
        -- apply set_insert_sorted, W.
        -- apply set_insert_in. now left.
        -- intros c Hc. apply set_insert_in in Hc as [->|Hc]; [now left|]. destruct (Hlt c Hc) as [->|[A _]]; auto.
      * intros c c' Hc Hc'. apply set_insert_in in Hc, Hc'.
        destruct Hc as [->|Hc], Hc' as [->|Hc'].
        -- now left.
        -- destruct (Hlt c' Hc') as [->|[_ A]]; [now left|]. right. right. exact A.
        -- destruct (Hlt c Hc) as [->|[_ A]]; [now left|]. right. left. exact A.
        -- now apply (lin_disjoint _ _ L).
      * unfold cache_put. constructor; [exact Hl|]. apply sizes_delete, L.
      * unfold cache_put. cbn [cache_size fold_right snd]. fold (cache_size (cache_delete c0 (w_cache f))).
        rewrite size_delete.
        -- pose proof (lin_size _ _ L). rewrite app_length. lia.
        -- apply L.
        -- destruct (N.eq_dec (N.of_nat (length d)) 0) as [Z|Z]; [now right|left].
           intros F. apply match_keys in F. apply (wf_keys _ W) in F. pose proof (HB _ F) as A.
           cbn [c0 offset len] in A. lia.
    + exact S.
    + intros c Hc. rewrite <- (proj2 S). cbn [put_file w_cache]. rewrite match_put.
      destruct (chunk_eqb c0 c) eqn:Ec; [|reflexivity]. apply eqb_chunk in Ec as <-.
      pose proof (HB _ Hc) as A. cbn [c0 offset len] in A.
      destruct (cache_match c0 (w_cache f)) as [d'|] eqn:Em.
      * pose proof (wf_len _ W _ _ Em) as Hd. cbn in Hd. destruct d, d'; cbn in *; try lia. reflexivity.
      * apply (wf_keys _ W) in Hc. contradiction.
Qed.

(** What stays through appending calls: chunks and their data. *)
Definition stays (f g : wfile) : Prop := forall c, In c (w_chunks f) ->
  In c (w_chunks g) /\ cache_match c (w_cache g) = cache_match c (w_cache f).
Lemma stays_same f g : same f g -> stays f g.
Proof. intros [A B] c Hc. rewrite <- A, <- B. auto. Qed.
Lemma stays_trans f g h : stays f g -> stays g h -> stays f h.
Proof. intros A B c Hc. destruct (A c Hc) as [A1 A2]. destruct (B c A1) as [B1 B2]. split; [exact B1|congruence]. Qed.

Lemma append_step b d f q g : lin b f -> wf_append d f = (q, g) ->
  (q = Err \/ q = Panic /\ u64_max <= N.of_nat (length b) + N.of_nat (length d)) /\ same f g \/
  q = Ok (N.of_nat (length b)) /\ lin (b ++ d) g /\ stays f g /\
    In (Chunk 0 (N.of_nat (length b)) (N.of_nat (length d))) (w_chunks g) /\
    cache_match (Chunk 0 (N.of_nat (length b)) (N.of_nat (length d))) (w_cache g) = Some d.
Proof.
  intros L E. destruct (N.lt_ge_cases (N.of_nat (length b) + N.of_nat (length d)) u64_max) as [A|A].
  - apply (append_spec _ _ _ _ _ L A) in E as [[-> S]|(-> & L' & S & Hm)]; [left; auto|right].
    split; [reflexivity|]. split; [exact L'|]. split; [|split].
    + intros c Hc. split; [|auto]. rewrite <- (proj1 S). cbn. apply set_insert_in. now right.
    + rewrite <- (proj1 S). cbn. apply set_insert_in. now left.
    + rewrite <- (proj2 S). cbn [put_file w_cache]. now rewrite match_put, eqb_chunk_refl.
  - left. unfold wf_append in E. rewrite (lin_end _ _ L) in E.
    apply wbind_inv in E as (q1 & g1 & E1 & E). apply wret_inv in E1 as [-> ->].
    unfold sum_ok in E. apply N.ltb_ge in A. rewrite A in E.
    destruct E as [(? & ? & _)|[(? & _)|[(_ & -> & ->)|(? & _)]]]; try discriminate.
    apply N.ltb_ge in A. split; [auto|apply same_refl].
Qed.

Definition got (c : call * list bool) (r : res (option N)) : bytes := appended [c] [r].
Lemma step_lin b c f r g : lin b f -> append_only c -> WebSpec.step c f = (r, g) ->
  lin (b ++ got c r) g /\ stays f g /\
  (forall d t o, c = (CAppend d, t) -> r = Ok (Some o) -> o = N.of_nat (length b)).
Proof.
  intros L A E. destruct c as [c t]. unfold WebSpec.step in E. cbn [fst snd] in E.
  assert (same f (with_faults t f)) as S0 by now split.
  pose proof (lin_same _ _ _ S0 L) as L0. set (f0 := with_faults t f) in *.
  destruct c as [o d|d|n|]; try contradiction.
  - apply wbind_inv in E as (q1 & g1 & E1 & E).
    apply (append_step _ _ _ _ _ L0) in E1 as [[Hq S]|(-> & L' & St & _)].
    + assert ((r = Err \/ r = Panic) /\ g = g1) as [Hr ->]
        by (destruct Hq as [->|[-> _]], E as [(? & ? & _)|[(? & -> & ->)|[(? & -> & ->)|(? & _)]]]; try discriminate; auto).
      assert (got (CAppend d, t) r = []) as -> by (destruct Hr as [-> | ->]; reflexivity). rewrite app_nil_r.
      split; [now apply (lin_same _ f0)|].
      split; [apply (stays_trans _ f0); now apply stays_same|]. intros d' t' o' _ ->. destruct Hr; discriminate.
    + destruct E as [(o & E0 & E)|[(? & _)|[(? & _)|(? & _)]]]; try discriminate. injection E0 as <-.
      apply wret_inv in E as [-> ->]. unfold got. cbn [appended]. rewrite app_nil_r.
      split; [exact L'|]. split; [apply (stays_trans _ f0); [now apply stays_same|exact St]|].
      intros d' t' o' _ Eo. injection Eo as <-. reflexivity.
  - apply wbind_inv in E as (q1 & g1 & E1 & E).
    apply open_same in E1 as [S G]; [|apply L0].
    assert (g = g1) as ->.
    { destruct G as [->|(u & ->)], E as [(? & ? & E)|[(? & -> & ->)|[(? & _)|(? & _)]]]; try discriminate; auto.
      now apply wret_inv in E as [_ ->]. }
    unfold got. assert (appended [(COpen, t)] [r] = []) as -> by (cbn; now destruct r). rewrite app_nil_r.
    split; [now apply (lin_same _ f0)|]. split; [apply (stays_trans _ f0); now apply stays_same|]. discriminate.
Qed.

Lemma appended_cons c r cs rs : appended (c :: cs) (r :: rs) = got c r ++ appended cs rs.
Proof.
  unfold got. destruct c as [[]t]; cbn; try reflexivity; destruct r; cbn; try reflexivity. now rewrite app_nil_r.
Qed.
Lemma run_lin cs : forall b f rs g, lin b f -> Forall append_only cs -> WebSpec.run cs f = (rs, g) ->
  lin (b ++ appended cs rs) g /\ stays f g.
Proof.
  induction cs as [|c cs IH]; intros b f rs g L A E; cbn [WebSpec.run] in E.
  - injection E as <- <-. cbn. rewrite app_nil_r. split; [exact L|]. now apply stays_same, same_refl.
  - destruct (WebSpec.step c f) as [r f1] eqn:E1. destruct (WebSpec.run cs f1) as [rs' f2] eqn:E2.
    injection E as <- <-. inversion A as [|? ? A1 A2]; subst.
    destruct (step_lin _ _ _ _ _ L A1 E1) as (L1 & S1 & _).
    destruct (IH _ _ _ _ L1 A2 E2) as (L2 & S2). rewrite appended_cons, app_assoc.
    split; [exact L2|]. eapply stays_trans; eassumption.
Qed.

Lemma firstn_skipn_view b s e : s <= e -> e <= N.of_nat (length b) ->
  map (fun i => bview b (s + N.of_nat i)) (seq 0 (N.to_nat (e - s))) = firstn (N.to_nat (e - s)) (skipn (N.to_nat s) b).
Proof.
  intros A B. apply nth_ext with (d := x00) (d' := x00).
  - rewrite map_length, seq_length, firstn_length, skipn_length. lia.
  - rewrite map_length, seq_length. intros i Hi.
    rewrite (nth_indep _ x00 (bview b (s + N.of_nat 0))) by (rewrite map_length, seq_length; lia).
    rewrite (map_nth (fun i => bview b (s + N.of_nat i))), seq_nth by lia.
    rewrite nth_firstn, nth_skipn by lia. unfold bview. f_equal. lia.
Qed.

(** The length and contents of a file that is only appended to. *)
Lemma append_only_file cs rs f : Forall append_only cs -> WebSpec.run cs new_web_file = (rs, f) ->
  length_now f = Ok (N.of_nat (length (appended cs rs))) /\
  (forall t s e, s <= e -> read_now f t s e = Err \/
     e <= N.of_nat (length (appended cs rs)) /\
     read_now f t s e = Ok (firstn (N.to_nat (e - s)) (skipn (N.to_nat s) (appended cs rs)))) /\
  (forall d t r f', WebSpec.step (CAppend d, t) f = (r, f') ->
     r = Ok (Some (N.of_nat (length (appended cs rs)))) \/ r = Err \/
     r = Panic /\ u64_max <= N.of_nat (length (appended cs rs)) + N.of_nat (length d)).
Proof.
  intros A E. destruct (run_lin cs [] _ _ _ lin_new A E) as [L _]. cbn [app] in L.
  split; [|split].
  - unfold length_now, wf_length. cbn [fst]. f_equal. apply L.
  - intros t s e Hse. unfold read_now. destruct (wf_read (s, e) (with_faults t f)) as [q g] eqn:Er.
    apply (read_spec (bview (appended cs rs)) (N.of_nat (length (appended cs rs)))) in Er as (_ & G & D); [| |exact Hse].
    2: { apply (same_ok _ _ f); [now split|apply L]. }
    cbn [fst]. destruct G as [->|(out & ->)]; [now left|right].
    destruct (D out eq_refl) as [D1 D2]. split; [exact D1|]. f_equal. rewrite D2. now apply firstn_skipn_view.
  - intros d t r f' Es. unfold WebSpec.step in Es. cbn [fst snd] in Es.
    apply wbind_inv in Es as (q1 & g1 & E1 & Es).
    apply (append_step (appended cs rs)) in E1.
    + destruct E1 as [[Hq S]|(-> & _)].
      * destruct Hq as [->|[-> Hq]], Es as [(? & ? & _)|[(? & -> & _)|[(? & -> & _)|(? & _)]]]; try discriminate; auto.
      * destruct Es as [(o & E0 & Es)|[(? & _)|[(? & _)|(? & _)]]]; try discriminate. injection E0 as <-.
        apply wret_inv in Es as [-> _]. now left.
    + apply (lin_same _ f); [now split|exact L].
Qed.

(** ** The blob store *)
Lemma load_lp b f o d : lin b f -> In (Chunk 0 o (4 + N.of_nat (length d))) (w_chunks f) ->
  cache_match (Chunk 0 o (4 + N.of_nat (length d))) (w_cache f) = Some (to_be 4 (N.of_nat (length d)) ++ d) ->
  4 + N.of_nat (length d) < i32_lim -> w_faults f = [] ->
  wf_load_lp o f = (Ok d, f).
Proof.
  unfold bytes in *. intros L Hin Hm Hd Hf. pose proof (lin_ok _ _ L) as (W & HV & HB).
  set (n := N.of_nat (length d)) in *. set (c := Chunk 0 o (4 + n)) in *.
  pose proof (lin_size _ _ L) as HQ. pose proof (HB c Hin) as He. cbn [c offset len] in He.
  assert (Hlim : i32_lim < usize_lim /\ quota = i64_lim /\ quota + 4 < u64_max) by (repeat split; reflexivity).
  unfold wf_load_lp.
  assert (intersecting (w_chunks f) (o, o + 4) = [c]) as ->.
  { apply filter_one; [apply W|exact Hin|apply overlap_iff; cbn [c crange offset len fst snd]; lia|].
    intros c' Hc' Ho. apply overlap_iff in Ho. cbn [crange fst snd] in Ho.
    destruct (lin_disjoint _ _ L c c' Hin Hc') as [E|[E|E]]; [now symmetry| |]; cbn [c offset len] in E; lia. }
  cbn [fold_left c crange snd offset len].
  unfold wbind, wret, sum_ok. cbv beta.
  assert (o + 4 <? u64_max = true) as -> by (apply N.ltb_lt; lia). cbv iota beta.
  unfold load_chunks, wbind, wret, to_usize. cbn [fst snd].
  assert (o + (4 + n) - o <? usize_lim = true) as -> by (apply N.ltb_lt; lia). cbv iota beta.
  cbn [load_loop]. unfold wbind, wret. cbv beta. rewrite ranges_eq; cbn [c crange fst snd offset len];
    [|lia|lia|lia|lia|lia|lia|apply overlap_iff; cbn [c crange offset len fst snd]; lia].
  cbv beta iota. cbn [fst snd].
  change ({| level := 0; offset := o; len := 4 + n |}) with c.
  rewrite (load_range_nofault c _ f _ Hm); [|cbn [fst snd]; lia|cbn [fst snd]; lia|exact Hf].
  cbv beta iota. cbn [fst snd].
  set (dd := to_be 4 n ++ d) in *.
  assert (length dd = 4 + length d)%nat as Hdd by (unfold dd; rewrite app_length, to_be_length; lia).
  replace (N.max o o - o) with 0 by lia. replace (N.min (o + (4 + n)) (o + (4 + n)) - o) with (4 + n) by lia.
  assert (js_slice dd 0 (4 + n) = dd) as ->.
  { unfold js_slice. cbn [N.to_nat skipn]. rewrite firstn_all2; [reflexivity|]. subst n. lia. }
  unfold copy_to. cbn [fst snd]. rewrite repeat_length.
  match goal with |- context [if ?x then Ok (_ ++ _) else Panic] => assert (x = true) as -> end.
  { rewrite !andb_true_iff, !N.leb_le, N.eqb_eq. lia. }
  cbn [N.to_nat firstn app]. rewrite skipn_all2 by (rewrite repeat_length; lia). rewrite app_nil_r.
  unfold slice_to. assert (4 <=? length dd = true)%nat as -> by (apply Nat.leb_le; lia).
  assert (firstn 4 dd = to_be 4 n) as ->.
  { unfold dd. rewrite firstn_app, to_be_length, firstn_all2 by (rewrite to_be_length; lia).
    cbn [Nat.sub firstn]. apply app_nil_r. }
  rewrite of_to_be by (change (256 ^ N.of_nat 4) with usize_lim; lia).
  assert (n + 4 <=? N.of_nat (length dd) = true) as -> by (apply N.leb_le; lia).
  assert (skipn 4 dd = d) as ->.
  { unfold dd. rewrite skipn_app, to_be_length, skipn_all2 by (rewrite to_be_length; lia). reflexivity. }
  rewrite firstn_all2 by lia. reflexivity.
Qed.

Lemma web_inv_lin s : web_inv s -> (exists b, lin b (fst s)) /\ Forall (fun e => Forall append_only (snd e)) (snd s).
Proof.
  intros [(cs & rs & A & E) H]. split; [|exact H]. exists (appended cs rs).
  now destruct (run_lin cs [] _ _ _ lin_new A E).
Qed.

(** One write to the store. *)
Lemma web_write s d r s' : web_inv s -> st_write web_store s d = (r, s') ->
  (exists cs rs, Forall append_only cs /\ WebSpec.run cs (fst s) = (rs, fst s')) /\
  Forall (fun e => Forall append_only (snd e)) (snd s') /\
  (r = Err \/ exists o, r = Ok (to_be 8 o) /\ o < quota /\ 4 + N.of_nat (length d) < i32_lim /\
     exists f1 b1, lin b1 f1 /\ In (Chunk 0 o (4 + N.of_nat (length d))) (w_chunks f1) /\
       cache_match (Chunk 0 o (4 + N.of_nat (length d))) (w_cache f1) = Some (to_be 4 (N.of_nat (length d)) ++ d) /\
       stays f1 (fst s')).
Proof.
  intros HI E. destruct (web_inv_lin s HI) as [(b & L) HS]. destruct s as [f todo]. cbn [fst snd] in *.
  cbn [st_write web_store fst snd] in E. set (e := hd ([], []) todo) in *.
  assert (Forall append_only (snd e)) as He.
  { unfold e. destruct HS; cbn; [constructor|assumption]. }
  destruct (N.leb_spec i32_lim (4 + N.of_nat (length d))) as [A|A].
  - injection E as <- <-. cbn [fst snd]. split; [exists [], []; split; [constructor|reflexivity]|].
    split; [exact HS|now left].
  - destruct ((o <~ wf_append_lp d ;; wret (Ok (to_be 8 o))) (with_faults (fst e) f)) as [r1 f1] eqn:E1.
    injection E as <- <-. cbn [fst snd].
    assert (Forall (fun e => Forall append_only (snd e)) (tl todo)) as HS' by (destruct HS; cbn; [constructor|assumption]).
    set (dd := to_be 4 (N.of_nat (length d)) ++ d).
    assert (N.of_nat (length dd) = 4 + N.of_nat (length d)) as Hdd by (unfold dd; rewrite app_length, to_be_length; lia).
    assert (lin b (with_faults (fst e) f)) as L0 by (apply (lin_same _ f); [now split|exact L]).
    pose proof (lin_size _ _ L) as HQ.
    assert (Hlim : i32_lim < usize_lim /\ quota + i32_lim < u64_max) by (split; reflexivity).
    destruct (wf_append dd (with_faults (fst e) f)) as [r2 f2] eqn:E2.
    assert (WebSpec.step (CAppend dd, fst e) f = (match r2 with Ok o => Ok (Some o) | Err => Err | Panic => Panic | Fuel => Fuel end, f2)) as Est.
    { unfold WebSpec.step. cbn [fst snd]. unfold wbind. rewrite E2. now destruct r2. }
    assert (f1 = f2 /\ r1 = match r2 with Ok o => Ok (to_be 8 o) | Err => Err | Panic => Panic | Fuel => Fuel end) as [-> ->].
    { unfold wbind, wf_append_lp in E1.
      assert (N.of_nat (length d) <? usize_lim = true) as Hu by (apply N.ltb_lt; lia). rewrite Hu in E1.
      fold dd in E1. rewrite E2 in E1. destruct r2; unfold wret in E1; injection E1 as <- <-; auto. }
    split; [|split; [exact HS'|]].
    + destruct (WebSpec.run (snd e) f2) as [rs3 f3] eqn:E3.
      eexists ((CAppend dd, fst e) :: snd e), _. split; [constructor; [exact Logic.I|exact He]|].
      cbn [WebSpec.run]. rewrite Est, E3. reflexivity.
    + apply (append_step _ _ _ _ _ L0) in E2 as [[Hq S]|(-> & L' & St & H1 & H2)].
      * left. destruct Hq as [->|[-> Hq]]; [reflexivity|]. lia.
      * right. exists (N.of_nat (length b)). split; [reflexivity|]. split; [lia|]. split; [exact A|].
        exists f2, (b ++ dd). rewrite Hdd in H1, H2. split; [exact L'|]. split; [exact H1|]. split; [exact H2|].
        destruct (WebSpec.run (snd e) f2) as [rs3 f3] eqn:E3. cbn [snd].
        now destruct (run_lin _ _ _ _ _ L' He E3).
Qed.

Lemma run_app cs1 : forall cs2 f, WebSpec.run (cs1 ++ cs2) f =
  let (rs1, f1) := WebSpec.run cs1 f in let (rs2, f2) := WebSpec.run cs2 f1 in (rs1 ++ rs2, f2).
Proof.
  induction cs1 as [|c cs1 IH]; intros cs2 f; cbn [app WebSpec.run].
  - now destruct (WebSpec.run cs2 f).
  - destruct (WebSpec.step c f) as [r f1]. rewrite IH. destruct (WebSpec.run cs1 f1) as [rs1 f2].
    now destruct (WebSpec.run cs2 f2).
Qed.
Lemma web_write_inv s d r s' : web_inv s -> st_write web_store s d = (r, s') -> web_inv s'.
Proof.
  intros HI E. destruct (web_write _ _ _ _ HI E) as ((cs & rs & A & R) & HS & _).
  destruct HI as [(cs0 & rs0 & A0 & R0) _]. split; [|exact HS].
  exists (cs0 ++ cs), (rs0 ++ rs). split; [apply Forall_app; now split|].
  rewrite run_app, R0, R. reflexivity.
Qed.
Lemma web_after s ds : web_inv s -> web_inv (after web_store s ds) /\ stays (fst s) (fst (after web_store s ds)).
Proof.
  revert s. induction ds as [|d ds IH]; intros s HI; cbn [after].
  - split; [exact HI|apply stays_same, same_refl].
  - destruct (st_write web_store s d) as [r s'] eqn:E. cbn [snd].
    pose proof (web_write_inv _ _ _ _ HI E) as HI'. destruct (IH _ HI') as [A B]. split; [exact A|].
    eapply stays_trans; [|exact B].
    destruct (web_write _ _ _ _ HI E) as ((cs & rs & A' & R) & _).
    destruct (web_inv_lin s HI) as [(b & L) _]. now destruct (run_lin _ _ _ _ _ L A' R).
Qed.

Lemma web_lawful : lawful web_store web_inv.
Proof.
  constructor.
  - intros s d r s' HI E. split; [now apply (web_write_inv s d r s')|].
    destruct (web_write _ _ _ _ HI E) as (_ & _ & [->|(o & -> & _)]); [now left|right].
    eexists. split; [reflexivity|]. rewrite to_be_length. lia.
  - intros s d id s' ds HI E.
    pose proof (web_write_inv _ _ _ _ HI E) as HI'.
    destruct (web_write _ _ _ _ HI E) as (_ & _ & [F|(o & Eo & Ho & Hd & f1 & b1 & L1 & H1 & H2 & St)]); [discriminate|].
    assert (id = to_be 8 o) as -> by congruence. destruct (web_after s' ds HI') as [HI2 St2].
    destruct (web_inv_lin _ HI2) as [(b & L) _]. set (s2 := after web_store s' ds) in *.
    pose proof (stays_trans _ _ _ St St2 _ H1) as [G1 G2]. rewrite H2 in G2.
    cbn [st_read web_store]. rewrite to_be_length. cbn [Nat.eqb].
    rewrite of_to_be by (rewrite u64_pow; assert (quota < u64_max) by reflexivity; lia).
    rewrite (load_lp b (with_faults [] (fst s2)) o d); auto.
    apply (lin_same _ (fst s2)); [now split|exact L].
Qed.
