(** Proofs about files in the browser cache that are written page by page. *)
From Coq Require Import Sorted.
From Verif Require Import Base BaseLemmas Header Node Store U64 File Chunk ChunkProofs WebFile WebProofs WebPlans
  WebSpec WebTop WebStore WebAppend WebPagesSpec.
Local Open Scope N_scope.

Lemma mul_lt_inv a b p : a * p < b * p -> a < b.
Proof. intros H. apply N.nle_gt. intros L. apply (N.mul_le_mono_r _ _ p) in L. lia. Qed.

Lemma next_level_eq cs l : (forall c, In c cs -> level c <= l) -> (exists c, In c cs /\ level c = l) -> next_level cs = l + 1.
Proof.
  intros H (c & Hc & E). destruct cs as [|a cs]; [contradiction|]. unfold next_level. f_equal.
  destruct (fold_max_level (a :: cs) 0 c) as [A _]. specialize (A Hc).
  assert (forall l0 m, m <= l -> (forall c, In c l0 -> level c <= l) -> fold_left (fun m c => N.max m (level c)) l0 m <= l) as B.
  { induction l0 as [|b l0 IH]; intros m Hm Hl; cbn [fold_left]; [exact Hm|].
    apply IH; [|intros; apply Hl; now right]. specialize (Hl b (or_introl eq_refl)). lia. }
  specialize (B (a :: cs) 0 ltac:(lia) H). lia.
Qed.
Lemma next_level_nil cs : (forall c, ~ In c cs) -> next_level cs = 0.
Proof. destruct cs as [|a cs]; [reflexivity|]. intros H. destruct (H a). now left. Qed.

Section Pages.
Context (P : N) (HP : 0 < P).
Notation turn := (turn P).
Notation turns := (turns P).
Notation busiest_end := (busiest_end P).

Record pinv (s : pages) (f : wfile) : Prop := {
  pi_wf : wf f;
  pi_page : forall c, In c (w_chunks f) -> exists i l, s i = Some l /\ offset c = i * P /\ len c = P /\ level c <= l;
  pi_top : forall i l, s i = Some l -> In (Chunk l (i * P) P) (w_chunks f)
}.

Lemma pinv_same s f g : same f g -> pinv s f -> pinv s g.
Proof.
  intros S [A B C]. constructor.
  - now apply (same_wf f).
  - rewrite <- (proj1 S). exact B.
  - rewrite <- (proj1 S). exact C.
Qed.
Lemma pinv_ext s s' f : (forall j, s' j = s j) -> pinv s f -> pinv s' f.
Proof.
  intros E [A B C]. constructor; [exact A| |].
  - intros c Hc. destruct (B c Hc) as (i & l & H). exists i, l. now rewrite E.
  - intros i l H. apply C. now rewrite <- E.
Qed.

Lemma page_overlap c i j : offset c = i * P -> len c = P -> overlap (crange c) (j * P, j * P + P) = true -> i = j.
Proof.
  intros E1 E2 H. apply overlap_iff in H. unfold crange in H. cbn [fst snd] in H. rewrite E1, E2 in H. destruct H as [H1 H2].
  assert (j * P < (i + 1) * P) by lia. assert (i * P < (j + 1) * P) by lia.
  apply mul_lt_inv in H. apply mul_lt_inv in H0. lia.
Qed.

Lemma put_pinv s f i d : pinv s f -> N.of_nat (length d) = P ->
  let l := match s i with None => 0 | Some n => n + 1 end in
  pinv (written_once_more s i) (put_file (Chunk l (i * P) P) d f).
Proof.
  intros [A B C] Hd l. constructor.
  - now apply put_wf.
  - cbn [put_file w_chunks]. intros c Hc. apply set_insert_in in Hc as [->|Hc].
    + exists i, l. unfold written_once_more. rewrite N.eqb_refl. cbn [offset len level]. repeat split; lia.
    + destruct (B c Hc) as (j & l' & H1 & H2 & H3 & H4). unfold written_once_more.
      destruct (N.eqb_spec j i) as [->|Hn].
      * exists i, l. rewrite N.eqb_refl. unfold l. rewrite H1 in *. repeat split; auto. lia.
      * exists j, l'. destruct (N.eqb_spec j i); [contradiction|]. auto.
  - cbn [put_file w_chunks]. intros j l' H. apply set_insert_in. unfold written_once_more in H.
    destruct (N.eqb_spec j i) as [->|Hn]; [left|right; auto]. fold l in H. congruence.
Qed.

(** Deleting chunks of one page that are not its newest. *)
Lemma del_old s f c : pinv s f -> (forall i l, s i = Some l -> c <> Chunk l (i * P) P) -> pinv s (del_file c f).
Proof.
  intros [A B C] H. constructor.
  - now apply del_wf.
  - cbn [del_file w_chunks]. intros c' Hc. apply set_remove_in in Hc as [Hc _]. auto.
  - cbn [del_file w_chunks]. intros i l E. apply set_remove_in. split; [auto|]. specialize (H i l E). congruence.
Qed.
Lemma delete_inv s c : (forall i l, s i = Some l -> c <> Chunk l (i * P) P) -> plan_inv (pinv s) [WDelete c].
Proof.
  intros H. apply plan_cons; [|apply plan_nil]. intros f q g I E. apply delete_cases in E as [[-> S]|[-> S]].
  - split; [now apply (pinv_same s f)|now left].
  - split; [|right; eauto]. apply (pinv_same s (del_file c f)); [exact S|]. now apply del_old.
Qed.

Lemma add_page s f i d q g : pinv s f -> N.of_nat (length d) = P ->
  execute_plan (add (w_chunks f) (i * P) d) f = (q, g) ->
  q = Ok tt /\ pinv (written_once_more s i) g \/ q = Err /\ (pinv s g \/ pinv (written_once_more s i) g).
Proof.
  intros I Hd E. set (l := match s i with None => 0 | Some n => n + 1 end).
  unfold add in E. rewrite Hd in E. cbv zeta in E.
  set (rel := filter (fun c => overlap (crange c) (i * P, i * P + P)) (w_chunks f)) in *.
  assert (forall c, In c rel -> In c (w_chunks f) /\ offset c = i * P /\ len c = P /\ level c < l) as Hrel.
  { intros c Hc. apply filter_In in Hc as [Hc Ho]. destruct (pi_page _ _ I c Hc) as (j & l' & H1 & H2 & H3 & H4).
    assert (j = i) as -> by (eapply page_overlap; eassumption). split; [exact Hc|]. split; [exact H2|]. split; [exact H3|].
    unfold l. rewrite H1. lia. }
  assert (next_level rel = l) as El.
  { unfold l. destruct (s i) as [n|] eqn:Es.
    - apply next_level_eq.
      + intros c Hc. apply Hrel in Hc as (_ & _ & _ & Hc). unfold l in Hc. lia.
      + exists (Chunk n (i * P) P). split; [|reflexivity]. apply filter_In. split; [now apply (pi_top _ _ I)|].
        apply overlap_iff. unfold crange. cbn [fst snd offset len]. lia.
    - apply next_level_nil. intros c Hc. apply filter_In in Hc as [Hc Ho].
      destruct (pi_page _ _ I c Hc) as (j & l' & H1 & H2 & H3 & H4).
      assert (j = i) as -> by (eapply page_overlap; eassumption). congruence. }
  rewrite El in E.
  assert (forall c, In c rel -> contains (i * P, i * P + P) (crange c) = true) as Hcon.
  { intros c Hc. apply Hrel in Hc as (_ & H1 & H2 & _). unfold contains, crange. cbn [fst snd]. rewrite H1, H2.
    apply andb_true_iff. split; apply N.leb_le; lia. }
  assert (filter (fun c => negb (contains (i * P, i * P + P) (crange c))) rel = []) as E0.
  { clear - Hcon. induction rel as [|c rel IH]; [reflexivity|]. cbn [filter]. rewrite (Hcon c (or_introl eq_refl)). cbn [negb].
    apply IH. intros; apply Hcon; now right. }
  assert (filter (fun c => negb (negb (contains (i * P, i * P + P) (crange c)))) rel = rel) as E1.
  { clear - Hcon. induction rel as [|c rel IH]; [reflexivity|]. cbn [filter]. rewrite (Hcon c (or_introl eq_refl)). cbn [negb].
    f_equal. apply IH. intros; apply Hcon; now right. }
  rewrite E0, E1 in E. cbn [flat_map] in E. rewrite app_nil_r in E.
  replace (chunk_new (i * P, i * P + P) l) with (Chunk l (i * P) P) in E
    by (unfold chunk_new; cbn [fst snd]; f_equal; lia).
  apply execute_cons in E as (q1 & g1 & Ew & E). cbn [exec_op] in Ew.
  apply write_chunk_cases in Ew as [[-> S]|[-> S]].
  - destruct (E ltac:(now left)) as [(_ & -> & ->)|(F & _)]; [|discriminate]. right. split; [reflexivity|]. left.
    now apply (pinv_same s f).
  - destruct (E ltac:(right; eauto)) as [(F & _)|(_ & E')]; [discriminate|].
    assert (pinv (written_once_more s i) g1) as I1.
    { eapply pinv_same; [exact S|]. now apply put_pinv. }
    assert (plan_inv (pinv (written_once_more s i)) (map WDelete rel)) as HPl.
    { rewrite flat_map_single. apply plan_concat. intros c Hc. apply delete_inv. intros j l' H F. apply Hrel in Hc as (_ & H1 & H2 & H3).
      subst c. cbn [offset level] in *. apply N.mul_cancel_r in H1; [|lia]. subst j.
      unfold written_once_more in H. rewrite N.eqb_refl in H. fold l in H. injection H as <-. lia. }
    destruct (HPl _ _ _ I1 E') as [I2 [->|([] & ->)]]; [right|left]; auto.
Qed.

(** Deleting the chunks of some pages, in the order of the set. *)
Lemma delete_pages k cs : forall s f q g, sorted cs -> pinv s f ->
  (forall c, In c cs -> In c (w_chunks f) /\ k * P <= offset c) ->
  (forall c, In c (w_chunks f) -> k * P <= offset c -> In c cs) ->
  execute_plan (map WDelete cs) f = (q, g) ->
  exists s', pinv s' g /\ (forall j, s' j = s j \/ k <= j /\ s' j = None) /\
    (q = Err \/ q = Ok tt /\ forall j, s' j = if j <? k then s j else None).
Proof.
  induction cs as [|c cs IH]; intros s f q g Hs I H1 H2 E.
  - apply wret_inv in E as [-> ->]. exists s. split; [exact I|]. split; [auto|]. right. split; [reflexivity|].
    intros j. destruct (N.ltb_spec j k) as [L|L]; [reflexivity|]. destruct (s j) as [l|] eqn:Es; [exfalso|reflexivity].
    apply (H2 (Chunk l (j * P) P)); [now apply (pi_top _ _ I)|]. cbn [offset]. now apply N.mul_le_mono_r.
  - cbn [map] in E. apply execute_cons in E as (q1 & g1 & E1 & E).
    inversion Hs as [|? ? Hs' Hf]; subst. rewrite Forall_forall in Hf.
    assert (~ In c cs) as Hnc by (intros F; exact (clt_irrefl _ (Hf c F))).
    apply delete_cases in E1 as [[-> S]|[-> S]].
    + destruct (E ltac:(now left)) as [(_ & -> & ->)|(F & _)]; [|discriminate].
      exists s. split; [now apply (pinv_same s f)|]. split; auto.
    + destruct (E ltac:(right; eauto)) as [(F & _)|(_ & E')]; [discriminate|]. clear E.
      assert (forall a, In a (w_chunks g1) <-> In a (w_chunks f) /\ a <> c) as Hin.
      { intros a. rewrite <- (proj1 S). cbn. apply set_remove_in. }
      destruct (H1 c (or_introl eq_refl)) as [Hc Hk].
      destruct (pi_page _ _ I c Hc) as (i & l & P1 & P2 & P3 & P4).
      assert (exists s1, pinv s1 g1 /\ forall j, s1 j = s j \/ k <= j /\ s1 j = None) as (s1 & I1 & Hs1).
      { destruct (N.eq_dec (level c) l) as [El|Nl].
        - (* the newest chunk of its page: there is no other *)
          exists (fun j => if j =? i then None else s j). split.
          + constructor.
            * apply (same_wf (del_file c f)); [exact S|]. apply del_wf, I.
            * intros a Ha. apply Hin in Ha as [Ha Hn]. destruct (pi_page _ _ I a Ha) as (j & l' & Q1 & Q2 & Q3 & Q4).
              destruct (N.eqb_spec j i) as [->|Hj].
              -- exfalso. assert (l' = l) as -> by congruence.
                 assert (In a cs) as Ha'.
                 { destruct (H2 a Ha ltac:(lia)) as [F|F]; [congruence|exact F]. }
                 pose proof (Hf a Ha') as L. unfold clt in L.
                 assert (level a = level c) by lia. apply Hn. destruct a as [a1 a2 a3], c as [c1 c2 c3]; cbn [level offset len] in *; congruence.
              -- exists j, l'. destruct (N.eqb_spec j i); [contradiction|]. auto.
            * intros j l' Hj. destruct (N.eqb_spec j i) as [->|Nj]; [discriminate|]. apply Hin. split; [now apply (pi_top _ _ I)|].
              intros <-. cbn [offset] in P2. apply N.mul_cancel_r in P2; [|lia]. contradiction.
          + intros j. destruct (N.eqb_spec j i) as [->|Hj]; [right|now left]. split; [|reflexivity].
            apply N.nlt_ge. intros L. apply N.le_succ_l in L. apply (N.mul_le_mono_r _ _ P) in L. rewrite N.mul_succ_l in L. lia.
        - exists s. split; [|auto]. eapply pinv_same; [exact S|]. apply del_old; [exact I|].
          intros j l' Hj ->. cbn [offset level] in *. apply N.mul_cancel_r in P2; [|lia]. congruence. }
      destruct (IH s1 g1 q g Hs' I1) as (s2 & I2 & Hs2 & Hq).
      * intros a Ha. destruct (H1 a (or_intror Ha)) as [A B]. split; [apply Hin; split; [exact A|]|exact B]. intros ->. contradiction.
      * intros a Ha Hk'. apply Hin in Ha as [Ha Hn]. destruct (H2 a Ha Hk') as [F|F]; [congruence|exact F].
      * exact E'.
      * exists s2. split; [exact I2|]. split.
        -- intros j. destruct (Hs2 j) as [A|[A B]]; [|right; auto]. rewrite A. apply Hs1.
        -- destruct Hq as [->|[-> Hq]]; [now left|right]. split; [reflexivity|]. intros j. rewrite Hq.
           destruct (N.ltb_spec j k) as [L|L]; [|reflexivity]. destruct (Hs1 j) as [A|[A _]]; [exact A|lia].
Qed.

Lemma cut_pages s f k q g : pinv s f -> wf_truncate (k * P) f = (q, g) ->
  exists s', pinv s' g /\ (forall j, s' j = s j \/ k <= j /\ s' j = None) /\
    (q = Err \/ q = Ok tt /\ forall j, s' j = if j <? k then s j else None).
Proof.
  intros I E. unfold wf_truncate, truncate in E. cbv zeta in E.
  set (rel := filter (fun c => k * P <? snd (crange c)) (w_chunks f)) in *.
  assert (forall c, In c rel -> In c (w_chunks f) /\ k * P <= offset c) as H1.
  { intros c Hc. apply filter_In in Hc as [Hc Ho]. split; [exact Hc|]. apply N.ltb_lt in Ho. unfold crange in Ho. cbn [snd] in Ho.
    destruct (pi_page _ _ I c Hc) as (i & l & _ & P2 & P3 & _). rewrite P2, P3 in *.
    apply N.mul_le_mono_r. assert (k * P < (i + 1) * P) as L by lia. apply mul_lt_inv in L. lia. }
  assert (forall c, In c (w_chunks f) -> k * P <= offset c -> In c rel) as H2.
  { intros c Hc Hk. apply filter_In. split; [exact Hc|]. apply N.ltb_lt. unfold crange. cbn [snd].
    destruct (pi_page _ _ I c Hc) as (i & l & _ & P2 & P3 & _). lia. }
  assert (execute_plan (map WDelete rel) f = (q, g)) as E'.
  { destruct rel as [|c r] eqn:Er; [exact E|].
    assert (k * P <= fold_left (fun m c => N.min m (fst (crange c))) r (fst (crange c))) as L.
    { assert (forall l m, k * P <= m -> (forall c, In c l -> k * P <= offset c) ->
        k * P <= fold_left (fun m c => N.min m (fst (crange c))) l m) as B.
      { induction l as [|a l IH]; intros m Hm Hl; cbn [fold_left]; [exact Hm|].
        apply IH; [|intros; apply Hl; now right]. specialize (Hl a (or_introl eq_refl)). unfold crange. cbn [fst]. lia. }
      apply B; [apply H1; now left|]. intros a Ha. apply H1. now right. }
    destruct (N.ltb_spec (fold_left (fun m c => N.min m (fst (crange c))) r (fst (crange c))) (k * P)); [lia|exact E]. }
  eapply delete_pages; [|exact I|exact H1|exact H2|exact E']. apply filter_sorted, (pi_wf _ _ I).
Qed.

Lemma pinv_length s f : pinv s f -> busiest_end s (snd (crange (prev (w_chunks f)))).
Proof.
  intros I. destruct (prev_in (w_chunks f)) as [[E ->]|Hp].
  - left. split; [reflexivity|]. intros i. destruct (s i) as [l|] eqn:Es; [exfalso|reflexivity].
    apply (pi_top _ _ I) in Es. rewrite E in Es. destruct Es.
  - destruct (pi_page _ _ I _ Hp) as (i & l & H1 & H2 & H3 & H4).
    assert (prev (w_chunks f) = Chunk l (i * P) P) as E.
    { pose proof (pi_top _ _ I _ _ H1) as Ht. destruct (sorted_last_max _ (wf_sorted _ (pi_wf _ _ I)) _ Ht) as [F|F]; [now symmetry|].
      unfold clt in F. cbn [level offset len] in F. lia. }
    right. exists i, l. rewrite E. unfold crange. cbn [snd offset len]. split; [lia|]. split; [exact H1|].
    intros j l' Hj. apply (pi_top _ _ I) in Hj. destruct (sorted_last_max _ (wf_sorted _ (pi_wf _ _ I)) _ Hj) as [F|F].
    + rewrite E in F. injection F as -> F. apply N.mul_cancel_r in F; [|lia]. subst. right. lia.
    + rewrite E in F. unfold clt in F. cbn [level offset len] in F.
      destruct F as [F|[F1 [F|[F2 F]]]]; [now left| |lia]. right. split; [exact F1|]. apply mul_lt_inv in F. lia.
Qed.

Lemma busiest_page s n : busiest_end s n -> exists i, n = i * P.
Proof. intros [[-> _]|(i & l & -> & _)]; [exists 0; lia|eauto]. Qed.

Lemma step_pages s c f r g : pinv s f -> page_call P (fst c) -> WebSpec.step c f = (r, g) ->
  exists s', turn (fst c) r s s' /\ pinv s' g.
Proof.
  intros I Hc E. destruct c as [c t]. unfold WebSpec.step in E. cbn [fst snd] in *.
  assert (pinv s (with_faults t f)) as It by (apply (pinv_same s f); [now split|exact I]).
  set (f' := with_faults t f) in *. destruct c as [o d|d|n|].
  - destruct Hc as [[i ->] Hd]. apply wbind_inv in E as (q & g1 & E1 & E).
    unfold wf_write in E1. apply wbind_inv in E1 as (q0 & g0 & E0 & E1). apply wret_inv in E0 as [-> ->].
    rewrite Hd in E1. destruct (sum_ok_cases (i * P) P) as [Es|[Es L]]; rewrite Es in E1.
    + destruct E1 as [(? & _ & E1)|[(? & _)|[(? & _)|(? & _)]]]; try discriminate.
      destruct (add_page _ _ _ _ _ _ It Hd E1) as [[-> I1]|[-> I1]].
      * destruct E as [(? & _ & E)|[(? & _)|[(? & _)|(? & _)]]]; try discriminate. apply wret_inv in E as [-> ->].
        eexists. split; [|exact I1]. now constructor.
      * destruct E as [(? & ? & _)|[(_ & -> & ->)|[(? & _)|(? & _)]]]; try discriminate.
        destruct I1 as [I1|I1]; eexists; (split; [|exact I1]); constructor; auto.
    + destruct E1 as [(? & ? & _)|[(? & _)|[(_ & -> & ->)|(? & _)]]]; try discriminate.
      destruct E as [(? & ? & _)|[(? & _)|[(_ & -> & ->)|(? & _)]]]; try discriminate.
      exists s. split; [|exact It]. now constructor.
  - apply wbind_inv in E as (q & g1 & E1 & E). unfold wf_append in E1. cbv zeta in E1.
    pose proof (pinv_length _ _ It) as Hb. destruct (busiest_page _ _ Hb) as [i Ei].
    rewrite Ei in *. cbn [page_call] in Hc.
    apply wbind_inv in E1 as (q0 & g0 & E0 & E1). apply wret_inv in E0 as [-> ->].
    rewrite Hc in E1. destruct (sum_ok_cases (i * P) P) as [Es|[Es L]]; rewrite Es in E1.
    + destruct E1 as [(? & _ & E1)|[(? & _)|[(? & _)|(? & _)]]]; try discriminate.
      apply wbind_inv in E1 as (q0 & g0 & E0 & E1).
      destruct (add_page _ _ _ _ _ _ It Hc E0) as [[-> I1]|[-> I1]].
      * destruct E1 as [(? & _ & E1)|[(? & _)|[(? & _)|(? & _)]]]; try discriminate. apply wret_inv in E1 as [-> ->].
        destruct E as [(? & Eo & E)|[(? & _)|[(? & _)|(? & _)]]]; try discriminate. apply wret_inv in E as [-> ->].
        injection Eo as <-. eexists. split; [|exact I1]. now constructor.
      * destruct E1 as [(? & ? & _)|[(_ & -> & ->)|[(? & _)|(? & _)]]]; try discriminate.
        destruct E as [(? & ? & _)|[(_ & -> & ->)|[(? & _)|(? & _)]]]; try discriminate.
        destruct I1 as [I1|I1]; eexists; (split; [|exact I1]); econstructor; eauto.
    + destruct E1 as [(? & ? & _)|[(? & _)|[(_ & -> & ->)|(? & _)]]]; try discriminate.
      destruct E as [(? & ? & _)|[(? & _)|[(_ & -> & ->)|(? & _)]]]; try discriminate.
      exists s. split; [|exact It]. constructor. eauto.
  - destruct Hc as [k ->]. apply wbind_inv in E as (q & g1 & E1 & E).
    destruct (cut_pages _ _ _ _ _ It E1) as (s' & I1 & H1 & [->|[-> H2]]).
    + destruct E as [(? & ? & _)|[(_ & -> & ->)|[(? & _)|(? & _)]]]; try discriminate.
      exists s'. split; [|exact I1]. now constructor.
    + destruct E as [(? & _ & E)|[(? & _)|[(? & _)|(? & _)]]]; try discriminate. apply wret_inv in E as [-> ->].
      exists s'. split; [|exact I1]. now constructor.
  - apply wbind_inv in E as (q & g1 & E1 & E). apply open_same in E1 as [S [->|([] & ->)]]; [| |apply It].
    + destruct E as [(? & ? & _)|[(_ & -> & ->)|[(? & _)|(? & _)]]]; try discriminate.
      exists s. split; [constructor; now right|now apply (pinv_same s f')].
    + destruct E as [(? & _ & E)|[(? & _)|[(? & _)|(? & _)]]]; try discriminate. apply wret_inv in E as [-> ->].
      exists s. split; [constructor; now left|now apply (pinv_same s f')].
Qed.

Lemma run_pages cs : forall s f rs g, pinv s f -> Forall (fun c => page_call P (fst c)) cs -> WebSpec.run cs f = (rs, g) ->
  exists s', turns (map fst cs) rs s s' /\ pinv s' g.
Proof.
  induction cs as [|c cs IH]; intros s f rs g I Hc E; cbn [WebSpec.run] in E.
  - injection E as <- <-. exists s. split; [constructor|exact I].
  - destruct (WebSpec.step c f) as [r f1] eqn:E1. destruct (WebSpec.run cs f1) as [rs1 f2] eqn:E2. injection E as <- <-.
    inversion Hc as [|? ? Hc1 Hc2]; subst.
    destruct (step_pages _ _ _ _ _ I Hc1 E1) as (s1 & T1 & I1). destruct (IH _ _ _ _ I1 Hc2 E2) as (s2 & T2 & I2).
    exists s2. split; [|exact I2]. cbn [map]. econstructor; eassumption.
Qed.

Lemma new_pages : pinv no_pages new_web_file.
Proof.
  constructor.
  - constructor; cbn; [constructor|tauto|discriminate].
  - intros c [].
  - discriminate.
Qed.

Lemma pages_length cs rs f : Forall (fun c => page_call P (fst c)) cs -> WebSpec.run cs new_web_file = (rs, f) ->
  exists s n, turns (map fst cs) rs no_pages s /\ busiest_end s n /\ length_now f = Ok n.
Proof.
  intros Hc E. destruct (run_pages _ _ _ _ _ new_pages Hc E) as (s & T & I).
  exists s, (snd (crange (prev (w_chunks f)))). split; [exact T|]. split; [now apply pinv_length|reflexivity].
Qed.
End Pages.

Lemma pages_last P cs rs f : 0 < P -> Forall (fun c => page_call P (fst c)) cs -> WebSpec.run cs new_web_file = (rs, f) ->
  exists s, turns P (map fst cs) rs no_pages s /\
  (forall i l, s i = Some l -> (forall j l', s j = Some l' -> j <= i) ->
     (length_now f = Ok ((i + 1) * P) <-> forall j l', s j = Some l' -> l' <= l)) /\
  ((forall i, s i = None) <-> length_now f = Ok 0).
Proof.
  intros HP Hc E. destruct (pages_length P HP cs rs f Hc E) as (s & n & T & Hb & ->). exists s. split; [exact T|]. split.
  - intros i l Hi Hlast. destruct Hb as [[_ H]|(k & m & -> & Hk & Hmax)]; [congruence|]. split.
    + intros En. injection En as En. apply N.mul_cancel_r in En; [|lia]. assert (k = i) as -> by lia.
      intros j l' Hj. destruct (Hmax j l' Hj); rewrite Hi in Hk; injection Hk as ->; lia.
    + intros H. do 2 f_equal. destruct (Hmax i l Hi) as [L|[-> L]]; [specialize (H k m Hk); lia|]. specialize (Hlast k m Hk). lia.
  - destruct Hb as [[-> H]|(k & m & -> & Hk & Hmax)]; [tauto|]. split; [intros F; congruence|].
    intros En. injection En as En. apply N.eq_mul_0 in En. lia.
Qed.
