(** Proofs about files in the browser cache: writing and truncating. *)
From Coq Require Import Sorted.
From Verif Require Import Base BaseLemmas Header Node Store U64 Chunk ChunkProofs WebFile WebProofs.
Local Open Scope N_scope.

Lemma same_sym f g : same f g -> same g f.
Proof. intros [A B]. now split. Qed.

(** ** Single operations *)
Lemma write_chunk_cases c d f q g : write_chunk c d f = (q, g) ->
  q = Err /\ same f g \/ q = Ok tt /\ same (put_file c d f) g.
Proof.
  intros E. unfold write_chunk in E.
  match type of E with js ?m f = _ => destruct (js_cases m f) as [(g' & E' & Hs)|(g' & E' & Hs)] end;
    rewrite E' in E; [injection E as <- <-; now left|].
  destruct (_ <? quota); injection E as <- <-; [right|now left]. split; [reflexivity|].
  destruct Hs as [A B]. split; cbn; congruence.
Qed.
Lemma delete_cases c f q g : exec_op (WDelete c) f = (q, g) ->
  q = Err /\ same f g \/ q = Ok tt /\ same (del_file c f) g.
Proof.
  intros E. unfold exec_op in E.
  match type of E with js ?m f = _ => destruct (js_cases m f) as [(g' & E' & Hs)|(g' & E' & Hs)] end;
    rewrite E' in E; injection E as <- <-; [left|right]; (split; [reflexivity|]); [exact Hs|].
  destruct Hs as [A B]. split; cbn; congruence.
Qed.

(** What operations must not change: consistency, contents, the largest end. *)
Definition ends (B : N) (f : wfile) : Prop := forall c, In c (w_chunks f) -> offset c + len c <= B.
Definition state_ok (V : N -> byte) (B : N) (f : wfile) : Prop :=
  wf f /\ (forall x, vis f x = V x) /\ ends B f.
Lemma same_ok V B f g : same f g -> state_ok V B f -> state_ok V B g.
Proof.
  intros H (A & C & D). split; [now apply (same_wf f g)|]. split.
  - intros x. rewrite <- (same_vis f g H). apply C.
  - intros c. rewrite <- (proj1 H). apply D.
Qed.

Lemma rewrite_ok V B c f q g : state_ok V B f -> offset c + len c <= B ->
  exec_op (WRewrite c) f = (q, g) ->
  good_res q /\ state_ok V B g /\ (forall c', In c' (w_chunks f) -> In c' (w_chunks g)) /\
  (forall c', In c' (w_chunks g) -> c' = c \/ In c' (w_chunks f)) /\
  (q = Err \/ In c (w_chunks g)).
Proof.
  intros (W & HV & HB) Hc E. cbn [exec_op] in E. apply wbind_inv in E as (r1 & g1 & E1 & E).
  unfold crange in E1. apply read_raw_spec in E1 as (S1 & G1 & D); [|exact W|lia].
  assert (state_ok V B g1) as K1 by (apply (same_ok V B f); [exact S1|repeat split; assumption || apply W]).
  destruct G1 as [->|(d & ->)].
  - destruct E as [(? & ? & _)|[(_ & -> & ->)|[(? & _)|(? & _)]]]; try discriminate.
    split; [now left|]. split; [exact K1|]. rewrite (proj1 S1). split; [auto|]. split; [auto|now left].
  - destruct E as [(d' & Ed & E)|[(? & _)|[(? & _)|(? & _)]]]; try discriminate. injection Ed as <-.
    destruct (D d eq_refl) as [Hl Hn]. clear D. replace (offset c + len c - offset c) with (len c) in Hl by lia.
    apply write_chunk_cases in E as [[-> S2]|[-> S2]].
    + split; [now left|]. split; [now apply (same_ok V B g1)|].
      rewrite <- (proj1 S2), <- (proj1 S1). split; [auto|]. split; [auto|now left].
    + split; [right; eauto|].
      destruct K1 as (W1 & HV1 & HB1).
      split; [apply (same_ok V B (put_file c d g1)); [exact S2|]; split; [now apply put_wf|]; split|].
      * intros x. rewrite (put_vis c d g1 x W1 Hl). destruct (covers c x) eqn:Ec; [|apply HV1].
        destruct (existsb _ _); [apply HV1|]. apply covers_iff in Ec.
        rewrite Hn by lia. rewrite HV. f_equal. lia.
      * intros c' H'. cbn [put_file w_chunks] in H'. apply set_insert_in in H' as [->|H']; [exact Hc|auto].
      * rewrite <- (proj1 S2). cbn [put_file w_chunks]. rewrite <- (proj1 S1). split; [|split].
        -- intros c' H'. apply set_insert_in. now right.
        -- intros c' H'. apply set_insert_in in H'. exact H'.
        -- right. apply set_insert_in. now left.
Qed.

Lemma delete_ok V B c f q g : state_ok V B f ->
  (forall x, covers c x = true -> exists c', In c' (w_chunks f) /\ covers c' x = true /\ clt c c') ->
  exec_op (WDelete c) f = (q, g) ->
  good_res q /\ state_ok V B g /\ (forall c', In c' (w_chunks f) -> c' <> c -> In c' (w_chunks g)).
Proof.
  intros K H E. apply delete_cases in E as [[-> S]|[-> S]].
  - split; [now left|]. split; [now apply (same_ok V B f)|]. rewrite (proj1 S). auto.
  - split; [right; eauto|]. destruct K as (W & HV & HB). split.
    + apply (same_ok V B (del_file c f)); [exact S|]. split; [now apply del_wf|]. split.
      * intros x. rewrite del_vis; auto.
      * intros c' H'. cbn in H'. apply set_remove_in in H' as [H' _]. auto.
    + rewrite <- (proj1 S). intros c' H' Hn. cbn. apply set_remove_in. auto.
Qed.

(** ** Plans *)
Definition plan_inv (P : wfile -> Prop) (p : list wop) : Prop :=
  forall f q g, P f -> execute_plan p f = (q, g) -> P g /\ good_res q.
Lemma plan_nil (P : wfile -> Prop) : plan_inv P [].
Proof. intros f q g HP E. apply wret_inv in E as [-> ->]. split; [exact HP|right; eauto]. Qed.
Lemma execute_cons o p f q g : execute_plan (o :: p) f = (q, g) ->
  exists q1 g1, exec_op o f = (q1, g1) /\
    (good_res q1 -> q1 = Err /\ q = Err /\ g = g1 \/ q1 = Ok tt /\ execute_plan p g1 = (q, g)).
Proof.
  intros E. cbn [execute_plan] in E. apply wbind_inv in E as (q1 & g1 & E1 & E).
  exists q1, g1. split; [exact E1|]. intros [->|([] & ->)].
  - destruct E as [(? & ? & _)|[(_ & -> & ->)|[(? & _)|(? & _)]]]; try discriminate. now left.
  - destruct E as [(? & _ & E)|[(? & _)|[(? & _)|(? & _)]]]; try discriminate. now right.
Qed.
Lemma plan_cons (P : wfile -> Prop) o p : (forall f q g, P f -> exec_op o f = (q, g) -> P g /\ good_res q) ->
  plan_inv P p -> plan_inv P (o :: p).
Proof.
  intros H1 H2 f q g HP E. apply execute_cons in E as (q1 & g1 & E1 & E).
  destruct (H1 _ _ _ HP E1) as [HP1 G]. destruct (E G) as [(-> & -> & ->)|(-> & E')].
  - split; [exact HP1|now left].
  - exact (H2 _ _ _ HP1 E').
Qed.
Lemma plan_app (P : wfile -> Prop) p : forall p', plan_inv P p -> plan_inv P p' -> plan_inv P (p ++ p').
Proof.
  intros p' H1 H2 f q g HP E.
  assert (forall p f, execute_plan (p ++ p') f = (_ <~ execute_plan p ;; execute_plan p') f) as A.
  { clear. induction p as [|o p IH]; intros f; cbn [app execute_plan]; [reflexivity|].
    unfold wbind at 1 2 3. destruct (exec_op o f) as [[]g]; try reflexivity. rewrite IH. reflexivity. }
  rewrite A in E. apply wbind_inv in E as (q1 & g1 & E1 & E).
  destruct (H1 _ _ _ HP E1) as [HP1 [->|([] & ->)]].
  - destruct E as [(? & ? & _)|[(_ & -> & ->)|[(? & _)|(? & _)]]]; try discriminate.
    split; [exact HP1|now left].
  - destruct E as [(? & _ & E)|[(? & _)|[(? & _)|(? & _)]]]; try discriminate. exact (H2 _ _ _ HP1 E).
Qed.
Lemma plan_concat {A} (P : wfile -> Prop) (h : A -> list wop) cs : (forall c, In c cs -> plan_inv P (h c)) ->
  plan_inv P (flat_map h cs).
Proof.
  induction cs as [|c cs IH]; intros H; cbn [flat_map]; [apply plan_nil|].
  apply plan_app; [apply H; now left|]. apply IH. intros; apply H; now right.
Qed.

(** ** Levels *)
Lemma fold_max_level cs : forall m c, (In c cs -> level c <= fold_left (fun m c => N.max m (level c)) cs m) /\
  m <= fold_left (fun m c => N.max m (level c)) cs m.
Proof.
  induction cs as [|a cs IH]; intros m c; cbn [fold_left]; [split; [contradiction|lia]|].
  destruct (IH (N.max m (level a)) c) as [A B]. split; [|lia].
  intros [->|H]; [lia|auto].
Qed.
Lemma next_level_gt cs c : In c cs -> level c < next_level cs.
Proof.
  intros H. destruct cs as [|a cs]; [contradiction|]. unfold next_level.
  destruct (fold_max_level (a :: cs) 0 c) as [A _]. specialize (A H). lia.
Qed.

(** ** Writing *)
Definition over (o : N) (d : bytes) (V : N -> byte) (x : N) : byte :=
  if (o <=? x) && (x <? o + N.of_nat (length d)) then nth (N.to_nat (x - o)) d x00 else V x.

Section Write.
Context (V : N -> byte) (B : N) (o : N) (d : bytes) (l : N).
Let e := o + N.of_nat (length d).
Let new := chunk_new (o, e) l.
Let P (f : wfile) : Prop := state_ok V B f /\ In new (w_chunks f).
Context (HB : e <= B).

Lemma new_covers x : covers new x = true <-> o <= x < e.
Proof. rewrite covers_iff. unfold new, chunk_new. cbn [offset len fst snd]. lia. Qed.

Lemma delete_step c : level c < l -> contains (o, e) (crange c) = true -> plan_inv P [WDelete c].
Proof.
  intros Hl Hc. apply plan_cons; [|apply plan_nil].
  intros f q g [K Hn] E. unfold contains in Hc. cbn [fst snd crange] in Hc.
  apply andb_true_iff in Hc as [C1 C2]. apply N.leb_le in C1, C2.
  apply (delete_ok V B) in E as (G & K' & M); [|exact K|].
  - split; [|exact G]. split; [exact K'|]. apply M; [exact Hn|]. intros F. rewrite <- F in Hl. cbn in Hl. lia.
  - intros x Hx. exists new. split; [exact Hn|]. split.
    + apply new_covers. apply covers_iff in Hx. lia.
    + apply level_clt. exact Hl.
Qed.

Lemma rewrite_step c : level c < l -> offset c + len c <= B -> overlap (crange c) (o, e) = true ->
  plan_inv P (rewrite_ops (o, e) l c).
Proof.
  intros Hl Hc Hov f q g [K Hn] E. apply overlap_iff in Hov. cbn [crange fst snd] in Hov.
  unfold rewrite_ops in E. cbn [crange fst snd] in E.
  (* the left piece *)
  assert (exists q1 f1, good_res q1 /\ state_ok V B f1 /\ In new (w_chunks f1) /\
    (q1 = Err /\ q = Err /\ g = f1 \/ q1 = Ok tt /\
     (offset c < o -> In (chunk_new (offset c, o) l) (w_chunks f1)) /\
     execute_plan ((if e <? offset c + len c then [WRewrite (chunk_new (e, offset c + len c) l)] else []) ++ [WDelete c]) f1 = (q, g)))
    as (q1 & f1 & G1 & K1 & N1 & R1).
  { destruct (N.ltb_spec (offset c) o) as [A|A]; cbn [app] in E.
    - apply execute_cons in E as (q1 & g1 & E1 & E).
      apply (rewrite_ok V B) in E1 as (G & K' & M & _ & I); [|exact K|cbn [chunk_new offset len fst snd]; lia].
      exists q1, g1. split; [exact G|]. split; [exact K'|]. split; [now apply M|].
      destruct (E G) as [(-> & -> & ->)|(-> & E')]; [now left|]. right. split; [reflexivity|]. split; [|exact E'].
      intros _. destruct I as [I|I]; [discriminate|exact I].
    - exists (Ok tt), f. split; [right; eauto|]. split; [exact K|]. split; [exact Hn|].
      right. split; [reflexivity|]. split; [lia|exact E]. }
  destruct R1 as [(-> & -> & ->)|(-> & L1 & E1)].
  { split; [split; assumption|now left]. }
  clear E K Hn f. rename f1 into f, K1 into K, N1 into Hn, E1 into E.
  (* the right piece *)
  assert (exists q1 f1, good_res q1 /\ state_ok V B f1 /\ In new (w_chunks f1) /\
    (q1 = Err /\ q = Err /\ g = f1 \/ q1 = Ok tt /\
     (offset c < o -> In (chunk_new (offset c, o) l) (w_chunks f1)) /\
     (e < offset c + len c -> In (chunk_new (e, offset c + len c) l) (w_chunks f1)) /\
     execute_plan [WDelete c] f1 = (q, g)))
    as (q1 & f1 & G2 & K1 & N1 & R1).
  { destruct (N.ltb_spec e (offset c + len c)) as [A|A]; cbn [app] in E.
    - apply execute_cons in E as (q1 & g1 & E1 & E).
      apply (rewrite_ok V B) in E1 as (G & K' & M & _ & I); [|exact K|cbn [chunk_new offset len fst snd]; lia].
      exists q1, g1. split; [exact G|]. split; [exact K'|]. split; [now apply M|].
      destruct (E G) as [(-> & -> & ->)|(-> & E')]; [now left|]. right. split; [reflexivity|]. split; [auto|]. split; [|exact E'].
      intros _. destruct I as [I|I]; [discriminate|exact I].
    - exists (Ok tt), f. split; [right; eauto|]. split; [exact K|]. split; [exact Hn|].
      right. split; [reflexivity|]. split; [exact L1|]. split; [lia|exact E]. }
  destruct R1 as [(-> & -> & ->)|(-> & L2 & L3 & E1)].
  { split; [split; assumption|now left]. }
  apply execute_cons in E1 as (q2 & g2 & E2 & E1).
  apply (delete_ok V B) in E2 as (G & K' & M); [|exact K1|].
  - assert (In new (w_chunks g2)) as N2.
    { apply M; [exact N1|]. intros F. rewrite <- F in Hl. cbn in Hl. lia. }
    destruct (E1 G) as [(-> & -> & ->)|(-> & E')].
    + split; [split; assumption|now left].
    + apply wret_inv in E' as [-> ->]. split; [split; assumption|right; eauto].
  - intros x Hx. apply covers_iff in Hx.
    destruct (N.lt_ge_cases x o) as [A|A]; [|destruct (N.lt_ge_cases x e) as [A'|A']].
    + exists (chunk_new (offset c, o) l). split; [apply L2; lia|]. split.
      * apply covers_iff. cbn [chunk_new offset len fst snd]. lia.
      * apply level_clt. exact Hl.
    + exists new. split; [exact N1|]. split; [apply new_covers; lia|apply level_clt; exact Hl].
    + exists (chunk_new (e, offset c + len c) l). split; [apply L3; lia|]. split.
      * apply covers_iff. cbn [chunk_new offset len fst snd]. lia.
      * apply level_clt. exact Hl.
Qed.
End Write.

Lemma flat_map_single {A B} (h : A -> B) l : map h l = flat_map (fun x => [h x]) l.
Proof. induction l; cbn; congruence. Qed.

Lemma write_ok V B o d f q g : state_ok V B f -> execute_plan (add (w_chunks f) o d) f = (q, g) ->
  good_res q /\
  (q = Err /\ state_ok V B g \/ state_ok (over o d V) (N.max B (o + N.of_nat (length d))) g).
Proof.
  intros K E. unfold add in E. set (e := o + N.of_nat (length d)) in *.
  set (rel := filter (fun c => overlap (crange c) (o, e)) (w_chunks f)) in *.
  set (l := next_level rel) in *.
  apply execute_cons in E as (q1 & g1 & E1 & E). cbn [exec_op] in E1.
  apply write_chunk_cases in E1 as [[-> S]|[-> S]].
  - destruct (E ltac:(now left)) as [(_ & -> & ->)|(F & _)]; [|discriminate].
    split; [now left|]. left. split; [reflexivity|]. now apply (same_ok V B f).
  - destruct (E ltac:(right; eauto)) as [(F & _)|(_ & E')]; [discriminate|]. clear E.
    destruct K as (W & HV & HB).
    assert (N.of_nat (length d) = len (chunk_new (o, e) l)) as Hl by (cbn; lia).
    assert (state_ok (over o d V) (N.max B e) (put_file (chunk_new (o, e) l) d f)) as K.
    { split; [now apply put_wf|]. split.
      - intros x. rewrite (put_vis _ _ _ _ W Hl). unfold over.
        assert (covers (chunk_new (o, e) l) x = (o <=? x) && (x <? o + N.of_nat (length d))) as ->.
        { unfold covers. cbn [chunk_new offset len fst snd]. f_equal. f_equal. lia. }
        destruct (_ && _) eqn:Ex; [|apply HV]. cbn [chunk_new offset fst].
        destruct (existsb _ _) eqn:Et; [|reflexivity]. exfalso.
        apply existsb_exists in Et as (c & Hc & Hx). apply andb_true_iff in Hx as [H1 H2].
        apply andb_true_iff in Ex as [X1 X2]. apply N.leb_le in X1. apply N.ltb_lt in X2.
        apply covers_iff in H2. assert (In c rel) as Hr.
        { apply filter_In. split; [exact Hc|]. apply overlap_iff. cbn. lia. }
        apply next_level_gt in Hr. fold l in Hr. apply ltb_clt in H1. unfold clt in H1. cbn in H1. lia.
      - intros c Hc. cbn in Hc. apply set_insert_in in Hc as [->|Hc]; [cbn; lia|].
        pose proof (HB c Hc). lia. }
    set (new := chunk_new (o, e) l) in *.
    set (V' := over o d V) in *. set (B' := N.max B e) in *.
    assert (plan_inv (fun f => state_ok V' B' f /\ In new (w_chunks f))
      (map WDelete (filter (fun c => negb (negb (contains (o, e) (crange c)))) rel) ++
       flat_map (rewrite_ops (o, e) l) (filter (fun c => negb (contains (o, e) (crange c))) rel))) as PI.
    { apply plan_app.
      - rewrite flat_map_single. apply plan_concat. intros c Hc. apply filter_In in Hc as [Hc C].
        rewrite negb_involutive in C. apply (delete_step V' B' o d l); [unfold B'; fold e; lia|now apply next_level_gt|exact C].
      - apply plan_concat. intros c Hc. apply filter_In in Hc as [Hc _].
        apply (rewrite_step V' B' o d l).
        + unfold B'. fold e. lia.
        + now apply next_level_gt.
        + apply filter_In in Hc as [Hc _]. pose proof (HB c Hc). unfold B'. lia.
        + apply filter_In in Hc as [_ Hc]. exact Hc. }
    apply PI in E' as [[K' _] G].
    + split; [exact G|]. right. exact K'.
    + split; [now apply (same_ok _ _ _ _ S)|]. rewrite <- (proj1 S). cbn. apply set_insert_in. now left.
Qed.

(** ** Truncating *)
Definition cut (n : N) (V : N -> byte) (x : N) : byte := if x <? n then V x else x00.

Lemma fold_min_start cs : forall m c, (In c cs -> fold_left (fun m c => N.min m (fst (crange c))) cs m <= offset c) /\
  fold_left (fun m c => N.min m (fst (crange c))) cs m <= m.
Proof.
  induction cs as [|a cs IH]; intros m c; cbn [fold_left]; [split; [contradiction|lia]|].
  destruct (IH (N.min m (fst (crange a))) c) as [A B]. split; [|lia].
  intros [->|H]; [|auto]. cbn [crange fst] in *. lia.
Qed.

(** The deletions of a truncation, in ascending order: a byte stays or goes. *)
Lemma deletes_ok n V B l : forall cs f q g,
  sorted cs -> wf f -> ends B f ->
  (forall x, x < n -> vis f x = V x) -> (forall x, n <= x -> vis f x = V x \/ vis f x = x00) ->
  (* those that end after [n] are the ones to be deleted *)
  (forall c, In c (w_chunks f) -> n < offset c + len c -> In c cs) ->
  (* the part before [n] is covered by a chunk of a higher level *)
  (forall c x, In c cs -> covers c x = true -> x < n ->
     exists c', In c' (w_chunks f) /\ ~ In c' cs /\ covers c' x = true /\ level c' = l) ->
  (forall c, In c cs -> level c < l) ->
  execute_plan (map WDelete cs) f = (q, g) ->
  good_res q /\ wf g /\ ends B g /\ (forall x, x < n -> vis g x = V x) /\
  (forall x, n <= x -> vis g x = V x \/ vis g x = x00) /\
  (q = Ok tt -> ends n g /\ forall c, In c (w_chunks f) -> ~ In c cs -> In c (w_chunks g)).
Proof.
  induction cs as [|c cs IH]; intros f q g Hs W HB V1 V2 Hrel Hcov Hlev E.
  - cbn in E. apply wret_inv in E as [-> ->].
    split; [right; eauto|]. split; [exact W|]. split; [exact HB|]. split; [exact V1|]. split; [exact V2|].
    intros _. split; [|auto]. intros c Hc. destruct (N.le_gt_cases (offset c + len c) n) as [A|A]; [exact A|].
    destruct (Hrel c Hc A).
  - cbn [map] in E. apply execute_cons in E as (q1 & g1 & E1 & E).
    inversion Hs as [|? ? Hs' Hf]; subst. rewrite Forall_forall in Hf.
    assert (~ In c cs) as Hnc by (intros F; exact (clt_irrefl _ (Hf c F))).
    apply delete_cases in E1 as [[-> S]|[-> S]].
    + destruct (E ltac:(now left)) as [(_ & -> & ->)|(F & _)]; [|discriminate].
      split; [now left|]. split; [now apply (same_wf f)|].
      split; [intros a Ha; rewrite <- (proj1 S) in Ha; auto|].
      split; [intros x Hx; rewrite <- (same_vis f g1 S); auto|].
      split; [intros x Hx; rewrite <- (same_vis f g1 S); auto|]. discriminate.
    + destruct (E ltac:(right; eauto)) as [(F & _)|(_ & E')]; [discriminate|]. clear E.
      set (f1 := del_file c f) in *.
      assert (forall a, In a (w_chunks g1) <-> In a (w_chunks f) /\ a <> c) as Hin.
      { intros a. rewrite <- (proj1 S). cbn. apply set_remove_in. }
      apply IH in E' as (R1 & R2 & R3 & R4 & R5 & R6).
      * split; [exact R1|]. split; [exact R2|]. split; [exact R3|]. split; [exact R4|]. split; [exact R5|].
        intros Hq. destruct (R6 Hq) as [R6a R6b]. split; [exact R6a|].
        intros a Ha Hna. apply R6b; [|intros F; apply Hna; now right]. apply Hin. split; [exact Ha|].
        intros ->. apply Hna. now left.
      * exact Hs'.
      * apply (same_wf f1); [exact S|]. now apply del_wf.
      * intros a Ha. apply Hin in Ha as [Ha _]. auto.
      * intros x Hx. rewrite <- (same_vis f1 g1 S). rewrite <- (V1 x Hx). apply del_vis; [exact W|].
        intros Hc. destruct (Hcov c x (or_introl eq_refl) Hc Hx) as (c' & A & _ & A' & A'').
        exists c'. split; [exact A|]. split; [exact A'|]. apply level_clt. rewrite A''. apply Hlev. now left.
      * intros x Hx. rewrite <- (same_vis f1 g1 S).
        destruct (del_vis_or c f x W) as [D|D].
        -- intros c' Hc' Hx'. apply covers_iff in Hx'. destruct (Hrel c' Hc' ltac:(lia)) as [<-|F]; [now left|right; auto].
        -- fold f1 in D. rewrite D. auto.
        -- fold f1 in D. rewrite D. auto.
      * intros a Ha He. apply Hin in Ha as [Ha Hn]. destruct (Hrel a Ha He) as [->|F]; [contradiction|exact F].
      * intros a x Ha Hx Hn. destruct (Hcov a x (or_intror Ha) Hx Hn) as (c' & A & A1 & A2 & A3).
        exists c'. split; [apply Hin; split; [exact A|intros ->; apply A1; now left]|].
        split; [intros F; apply A1; now right|]. now split.
      * intros a Ha. apply Hlev. now right.
Qed.

(** A truncation that failed half way: bytes before [n] stay, the others stay or go. *)
Definition partly_cut (n : N) (V V' : N -> byte) : Prop :=
  forall x, V' x = V x \/ n <= x /\ V' x = x00.

Lemma truncate_ok V B n f q g : state_ok V B f -> (forall x, B <= x -> V x = x00) ->
  execute_plan (truncate (w_chunks f) n) f = (q, g) ->
  good_res q /\
  (q = Err /\ (exists V', partly_cut n V V' /\ state_ok V' B g) \/
   q = Ok tt /\ state_ok (cut n V) (N.min n B) g).
Proof.
  intros (W & HV & HB) HZ E. unfold truncate in E.
  set (rel := filter (fun c => n <? snd (crange c)) (w_chunks f)) in *.
  set (l := next_level rel) in *.
  assert (sorted rel) as Hs by (apply filter_sorted, W).
  assert (forall c, In c rel <-> In c (w_chunks f) /\ n < offset c + len c) as Hrel.
  { intros c. unfold rel. rewrite filter_In. cbn [crange snd]. rewrite N.ltb_lt. tauto. }
  assert (forall c, In c rel -> level c < l) as Hlev by (intros c Hc; now apply next_level_gt).
  (* after the optional rewrite *)
  assert (exists q1 f1, good_res q1 /\ state_ok V B f1 /\
    (forall c, In c (w_chunks f1) -> n < offset c + len c -> In c rel) /\
    (q1 = Err /\ q = Err /\ g = f1 \/
     q1 = Ok tt /\ execute_plan (map WDelete rel) f1 = (q, g) /\
     forall c x, In c rel -> covers c x = true -> x < n ->
       exists c', In c' (w_chunks f1) /\ ~ In c' rel /\ covers c' x = true /\ level c' = l))
    as (q1 & f1 & G1 & (W1 & HV1 & HB1) & R1 & C1).
  { assert (state_ok V B f) as K by (split; [exact W|]; split; assumption).
    destruct rel as [|c r] eqn:Er.
    - exists (Ok tt), f. split; [right; eauto|]. split; [exact K|]. split; [intros; now apply Hrel|].
      right. split; [reflexivity|]. split; [exact E|]. intros c x [].
    - rewrite <- Er in *. set (st := fold_left _ r _) in E.
      assert (forall a, In a rel -> st <= offset a) as Hst.
      { intros a Ha. rewrite Er in Ha. unfold st. destruct Ha as [<-|Ha].
        - destruct (fold_min_start r (fst (crange c)) c) as [_ A]. exact A.
        - now apply fold_min_start. }
      destruct (N.ltb_spec st n) as [A|A].
      + cbn [app] in E. apply execute_cons in E as (q1 & g1 & E1 & E).
        assert (exists a, In a rel) as (a & Ha) by (exists c; rewrite Er; now left).
        pose proof (proj1 (Hrel a) Ha) as [Ha1 Ha2]. pose proof (HB a Ha1).
        apply (rewrite_ok V B) in E1 as (G & K' & M & M' & I); [|exact K|cbn [chunk_new offset len fst snd]; lia].
        exists q1, g1. split; [exact G|]. split; [exact K'|]. split.
        * intros b Hb Hb'. apply M' in Hb as [->|Hb]; [cbn in Hb'; lia|]. now apply Hrel.
        * destruct (E G) as [(-> & -> & ->)|(-> & E')]; [now left|]. right. split; [reflexivity|]. split; [exact E'|].
          intros b x Hb Hx Hn. exists (chunk_new (st, n) l). split; [destruct I as [F|I]; [discriminate|exact I]|].
          split; [intros F; apply Hlev in F; cbn in F; lia|]. split; [|reflexivity].
          apply covers_iff. apply covers_iff in Hx. pose proof (Hst b Hb). cbn [chunk_new offset len fst snd]. lia.
      + cbn [app] in E. exists (Ok tt), f. split; [right; eauto|]. split; [exact K|].
        split; [intros; now apply Hrel|]. right. split; [reflexivity|]. split; [exact E|].
        intros b x Hb Hx Hn. apply covers_iff in Hx. pose proof (Hst b Hb). lia. }
  destruct C1 as [(-> & -> & ->)|(-> & E1 & C1)].
  { split; [now left|]. left. split; [reflexivity|]. exists V. split; [intros x; now left|].
    split; [exact W1|]. now split. }
  apply (deletes_ok n V B l) in E1; auto.
  destruct E1 as (G & W2 & HB2 & A1 & A2 & A3). split; [exact G|].
  destruct G as [->|([] & ->)].
  - left. split; [reflexivity|]. exists (vis g). split.
    + intros x. destruct (N.lt_ge_cases x n) as [F|F]; [left; auto|]. destruct (A2 x F); auto.
    + split; [exact W2|]. split; [reflexivity|exact HB2].
  - right. split; [reflexivity|]. destruct (A3 eq_refl) as [A4 _]. split; [exact W2|]. split.
    + intros x. unfold cut. destruct (N.ltb_spec x n) as [F|F]; [auto|].
      apply vis_none. intros c Hc. pose proof (A4 c Hc). destruct (covers c x) eqn:Ex; [|reflexivity].
      apply covers_iff in Ex. lia.
    + intros c Hc. pose proof (A4 c Hc). pose proof (HB2 c Hc). lia.
Qed.

(** ** Opening *)
Lemma fold_insert_in l x : In x (fold_right set_insert [] l) <-> In x l.
Proof.
  induction l as [|a l IH]; cbn [fold_right]; [reflexivity|]. rewrite set_insert_in, IH. cbn. intuition.
Qed.
Lemma fold_insert_sorted l : sorted (fold_right set_insert [] l).
Proof. induction l; cbn [fold_right]; [constructor|now apply set_insert_sorted]. Qed.
Lemma sorted_ext a : forall b, sorted a -> sorted b -> (forall x, In x a <-> In x b) -> a = b.
Proof.
  induction a as [|x a IH]; intros [|y b] Ha Hb H.
  - reflexivity.
  - destruct (proj2 (H y)); now left.
  - destruct (proj1 (H x)); now left.
  - inversion Ha as [|? ? Ha' Fa]; inversion Hb as [|? ? Hb' Fb]; subst.
    rewrite Forall_forall in Fa, Fb.
    assert (x = y) as ->.
    { destruct (proj1 (H x) (or_introl eq_refl)) as [E|E]; [now symmetry|].
      destruct (proj2 (H y) (or_introl eq_refl)) as [E'|E']; [exact E'|]. exfalso.
      exact (clt_irrefl _ (clt_trans _ _ _ (Fa _ E') (Fb _ E))). }
    f_equal. apply IH; [assumption..|]. intros z. split; intros Hz.
    + destruct (proj1 (H z) (or_intror Hz)) as [<-|E]; [|exact E]. exfalso. exact (clt_irrefl _ (Fa _ Hz)).
    + destruct (proj2 (H z) (or_intror Hz)) as [<-|E]; [|exact E]. exfalso. exact (clt_irrefl _ (Fb _ Hz)).
Qed.
Lemma open_same f q g : wf f -> wf_open f = (q, g) -> same f g /\ good_res q.
Proof.
  intros W E. unfold wf_open in E.
  match type of E with js ?m f = _ => destruct (js_cases m f) as [(g' & E' & Hs)|(g' & E' & Hs)] end;
    rewrite E' in E; injection E as <- <-.
  - split; [exact Hs|now left].
  - split; [|right; eauto]. destruct Hs as [A B]. split; cbn; [|exact B].
    apply sorted_ext; [apply W|apply fold_insert_sorted|].
    intros x. rewrite fold_insert_in, <- match_keys, <- B. apply (wf_keys _ W).
Qed.

(** ** Reading again *)
Lemma prev_in cs : cs = [] /\ prev cs = default_chunk \/ In (prev cs) cs.
Proof.
  destruct cs as [|c cs]; [now left|]. right. unfold prev.
  destruct (@exists_last _ (c :: cs)) as (l & a & E); [discriminate|]. rewrite E, last_last.
  apply in_or_app. right. now left.
Qed.
Lemma length_le B f : ends B f -> snd (crange (prev (w_chunks f))) <= B.
Proof.
  intros H. destruct (prev_in (w_chunks f)) as [[_ ->]|F]; [cbn; lia|]. apply H in F. exact F.
Qed.
Lemma read_spec V B f s e q g : state_ok V B f -> s <= e -> wf_read (s, e) f = (q, g) ->
  same f g /\ good_res q /\ forall out, q = Ok out ->
    e <= B /\ out = map (fun i => V (s + N.of_nat i)) (seq 0 (N.to_nat (e - s))).
Proof.
  intros (W & HV & HB) Hse E. unfold wf_read in E. cbn [fst snd] in E.
  apply wbind_inv in E as (q1 & g1 & E1 & E). apply wret_inv in E1 as [-> ->].
  unfold to_usize in E. destruct (e - s <? usize_lim).
  2: { destruct E as [(? & ? & _)|[(_ & -> & ->)|[(? & _)|(? & _)]]]; try discriminate.
       split; [apply same_refl|]. split; [now left|discriminate]. }
  destruct E as [(n & _ & E)|[(? & _)|[(? & _)|(? & _)]]]; try discriminate.
  apply wbind_inv in E as (q1 & g1 & E1 & E). apply wret_inv in E1 as [-> ->].
  destruct (N.leb_spec e (snd (crange (prev (w_chunks f))))) as [A|A].
  2: { destruct E as [(? & ? & _)|[(_ & -> & ->)|[(? & _)|(? & _)]]]; try discriminate.
       split; [apply same_refl|]. split; [now left|discriminate]. }
  destruct E as [(u & _ & E)|[(? & _)|[(? & _)|(? & _)]]]; try discriminate.
  apply read_raw_spec in E as (S & G & D); [|exact W|exact Hse].
  split; [exact S|]. split; [exact G|]. intros out Ho. destruct (D out Ho) as [D1 D2].
  split; [pose proof (length_le B f HB); lia|].
  apply nth_ext with (d := x00) (d' := x00).
  - rewrite map_length, seq_length. lia.
  - intros i Hi. rewrite D2 by exact Hi. rewrite HV.
    rewrite (nth_indep _ x00 (V (s + N.of_nat 0))) by (rewrite map_length, seq_length; lia).
    rewrite (map_nth (fun i => V (s + N.of_nat i))). rewrite seq_nth by lia. reflexivity.
Qed.
