(** The five recursive operations with closures that panic, on the heap. *)
From Verif Require Import Base BaseLemmas Header Node Combine InPlace Store Heap HeapSpec HeapProofs HeapOps HeapIter HeapTree HeapBorrow HeapMerge HeapClean
  HeapTreeOps HeapTreeRec HeapFail HeapFailOps.

Ltac stepT E x Ex lem :=
  let E1 := fresh "E" in
  destruct (try_inv _ _ _ _ _ E) as [(x & Ex & E1)|(Ex & _)]; [|exfalso; revert Ex; apply lem]; clear E; rename E1 into E.

Lemma wpk_fthen {A} (m : M cnode) (k : cnode -> M A) n1 R B Q h G : wpk m R B (owned R B n1) h G ->
  (forall c h' G', keeps B h G h' G' -> inv h' G' (node_items c ++ R ++ B) -> crep G' c n1 -> wpk (k c) R B Q h' G') ->
  wpk (mbind m k) R B Q h G.
Proof. intros W K. eapply wpk_bind; [exact W|]. intros c h' G' [I C] Kp. apply (K c h' G' Kp I C). Qed.

Section Fail.
Context (bk dbg : bool).

(** The value that the closure is given. *)
Lemma opt_same v w : blob_opt v = Some w -> w = v.
Proof. destruct v as [|[|]]; cbn; congruence. Qed.

Lemma inner_with_fok hf pf : ff_ok hf pf -> forall fuel, frec_ok (hf_inner_with bk dbg hf fuel) (inner_combine_in bk dbg mem mem pf fuel).
Proof.
  intros Hf. induction fuel as [|fuel IH]; intros n m n' ok E R B h G c b I C Hb; [injection E as _ E; destruct ok; discriminate E|].
  cbn [inner_combine_in r_prefix] in E. cbv zeta in E. stepT E ap Ea ne_prefix. stepT E bp Eb ne_prefix.
  destruct (prefixes_ok _ _ _ _ _ _ _ _ _ _ I C Hb Ea Eb) as (Pn & Pm & La & Lb).
  cbn [hf_inner_with]. apply (wpk_read _ _ _ _ _ _ _ _ La). apply (wpk_read _ _ _ _ _ _ _ _ Lb). cbv zeta in *.
  pose proof (inner_fkids bk _ _ IH fuel) as Hk. cbn [r_value_opt r_load_children] in *.
  destruct ((common_prefix ap bp =? length ap) && (common_prefix ap bp =? length bp)).
  - destruct (bor_value _ _ _ _ _ Hb) as [Vb Db].
    pose proof (value_opt_ok _ _ _ (proj1 Hb)) as Ho. rewrite (has_value_ok _ _ _ C). unfold has_value.
    destruct (blob_opt (n_value n)) as [av|] eqn:Ev.
    + pose proof (opt_same _ _ Ev) as ->. destruct (blob_opt (n_value m)) as [bv|].
      * destruct Ho as [-> ->]. destruct (wpk_fcombine hf pf Hf c n (n_value m) _ R B h G I C Vb Db) as [W1 W2].
        destruct (try_inv _ _ _ _ _ E) as [(z & Ez & E1)|(Ez & -> & ->)].
        -- eapply (wpk_and_then _ _ _ true); [apply (W1 z Ez)| |discriminate]. intros _ c1 h1 G1 K1 I1 C1.
           apply (fbranch_kids dbg _ _ Hk c1 _ b m n' ok R B h1 G1 I1 C1 (bor_keeps _ _ _ _ _ _ _ K1 Hb) E1).
        -- eapply (wpk_and_then _ _ _ false); [apply (W2 Ez)|discriminate|auto].
      * destruct Ho as [-> _]. eapply (wpk_and_then _ _ (set_value n bnone) true); [| |discriminate].
        -- eapply wpk_eq; [|apply (wpk_completed (h_set_value None c)); apply (wpk_set_none c n R B h G I C)].
           unfold h_set_value, h_take_value, mbind. destruct (drop_value (c_vh c, c_v c) h) as [[? ?]| | |] eqn:Ed;
             unfold drop_value in Ed; cbn [fst snd] in Ed; unfold v_items; rewrite Ed; reflexivity.
        -- intros _ c1 h1 G1 K1 I1 C1. apply (fbranch_kids dbg _ _ Hk c1 _ b m n' ok R B h1 G1 I1 C1 (bor_keeps _ _ _ _ _ _ _ K1 Hb) E).
    + assert (crep G c (set_value n bnone)) as C'.
      { destruct n as [p v k]. cbn in Ev. destruct v as [|[|]]; try discriminate Ev. exact C. }
      eapply (wpk_and_then _ _ (set_value n bnone) true); [apply (wpk_fret _ _ _ _ _ _ I C')| |discriminate].
      intros _ c1 h1 G1 K1 I1 C1. apply (fbranch_kids dbg _ _ Hk c1 _ b m n' ok R B h1 G1 I1 C1 (bor_keeps _ _ _ _ _ _ _ K1 Hb) E).
  - destruct (common_prefix ap bp =? length ap).
    + eapply wpk_fthen; [apply (wpk_set_none c n R B h G I C)|]. intros c1 h1 G1 K1 I1 C1.
      apply (fbranch_short dbg _ _ Hk c1 _ b m _ n' ok R B h1 G1 I1 C1 (bor_keeps _ _ _ _ _ _ _ K1 Hb) E).
    + destruct (common_prefix ap bp =? length bp).
      * stepT E a1 E1 ne_split.
        eapply wpk_fthen; [apply (wpk_split c n ap _ a1 R B h G I C Ea E1)|]. intros c1 h1 G1 K1 I1 C1.
        apply (fbranch_kids dbg _ _ Hk c1 a1 b m n' ok R B h1 G1 I1 C1 (bor_keeps _ _ _ _ _ _ _ K1 Hb) E).
      * apply (wpk_fclear dbg c n n' ok R B h G I C E).
Qed.

Lemma left_with_fok hf pf : ff_ok hf pf -> forall fuel, frec_ok (hf_left_with bk dbg hf fuel) (left_combine_in bk dbg mem mem pf fuel).
Proof.
  intros Hf. induction fuel as [|fuel IH]; intros n m n' ok E R B h G c b I C Hb; [injection E as _ E; destruct ok; discriminate E|].
  cbn [left_combine_in r_prefix] in E. cbv zeta in E. stepT E ap Ea ne_prefix. stepT E bp Eb ne_prefix.
  destruct (prefixes_ok _ _ _ _ _ _ _ _ _ _ I C Hb Ea Eb) as (Pn & Pm & La & Lb).
  cbn [hf_left_with]. apply (wpk_read _ _ _ _ _ _ _ _ La). apply (wpk_read _ _ _ _ _ _ _ _ Lb). cbv zeta in *.
  pose proof (left_fkids bk _ _ IH fuel) as Hk. cbn [r_value_opt r_load_children] in *.
  destruct ((common_prefix ap bp =? length ap) && (common_prefix ap bp =? length bp)).
  - destruct (bor_value _ _ _ _ _ Hb) as [Vb Db].
    pose proof (value_opt_ok _ _ _ (proj1 Hb)) as Ho. rewrite (has_value_ok _ _ _ C). unfold has_value.
    assert (forall n' ok, recurse dbg mem (left_children_in bk (left_combine_in bk dbg mem mem pf fuel) fuel) n (load_children mem m) = (n', verdict ok) ->
      wpk (and_then (completed c) (fun a2 => hf_recurse dbg a2 (hf_kids (hf_left_children bk (hf_left_with bk dbg hf fuel) fuel) b))) R B (fpost R B n' ok) h G) as Hskip.
    { intros n1 ok1 E1. eapply (wpk_and_then _ _ n true); [apply (wpk_fret _ _ _ _ _ _ I C)| |discriminate].
      intros _ c1 h1 G1 K1 I1 C1. apply (fbranch_kids dbg _ _ Hk c1 _ b m n1 ok1 R B h1 G1 I1 C1 (bor_keeps _ _ _ _ _ _ _ K1 Hb) E1). }
    destruct (blob_opt (n_value m)) as [bv|].
    + destruct Ho as [-> ->]. destruct (blob_opt (n_value n)) as [av|] eqn:Ev; [|apply (Hskip _ _ E)].
      pose proof (opt_same _ _ Ev) as ->. destruct (wpk_fcombine hf pf Hf c n (n_value m) _ R B h G I C Vb Db) as [W1 W2].
      destruct (try_inv _ _ _ _ _ E) as [(z & Ez & E1)|(Ez & -> & ->)].
      * eapply (wpk_and_then _ _ _ true); [apply (W1 z Ez)| |discriminate]. intros _ c1 h1 G1 K1 I1 C1.
        apply (fbranch_kids dbg _ _ Hk c1 _ b m n' ok R B h1 G1 I1 C1 (bor_keeps _ _ _ _ _ _ _ K1 Hb) E1).
      * eapply (wpk_and_then _ _ _ false); [apply (W2 Ez)|discriminate|auto].
    + destruct Ho as [-> _]. apply (Hskip _ _ E).
  - destruct (common_prefix ap bp =? length ap).
    + apply (fbranch_short dbg _ _ Hk c n b m _ n' ok R B h G I C Hb E).
    + destruct (common_prefix ap bp =? length bp).
      * stepT E a1 E1 ne_split.
        eapply wpk_fthen; [apply (wpk_split c n ap _ a1 R B h G I C Ea E1)|]. intros c1 h1 G1 K1 I1 C1.
        apply (fbranch_kids dbg _ _ Hk c1 a1 b m n' ok R B h1 G1 I1 C1 (bor_keeps _ _ _ _ _ _ _ K1 Hb) E).
      * apply (wpk_fcanon dbg c n n' ok R B h G I C E).
Qed.

Lemma outer_with_fok hc cv hf pf : conv_ok hc cv -> ne_conv cv -> (forall v r, conv_value cv v = Ok r -> r = v) -> ff_ok hf pf ->
  forall fuel, frec_ok (hf_outer_with bk dbg hc hf fuel) (outer_combine_in bk dbg mem mem pf cv fuel).
Proof.
  intros Hc Hn Hcv Hf. induction fuel as [|fuel IH]; intros n m n' ok E R B h G c b I C Hb; [injection E as _ E; destruct ok; discriminate E|].
  cbn [outer_combine_in r_prefix] in E. cbv zeta in E. stepT E ap Ea ne_prefix. stepT E bp Eb ne_prefix.
  destruct (prefixes_ok _ _ _ _ _ _ _ _ _ _ I C Hb Ea Eb) as (Pn & Pm & La & Lb).
  cbn [hf_outer_with]. apply (wpk_read _ _ _ _ _ _ _ _ La). apply (wpk_read _ _ _ _ _ _ _ _ Lb). cbv zeta in *.
  pose proof (outer_fkids bk _ _ IH hc cv fuel Hc Hn) as Hk. cbn [r_value_opt r_load_children] in *.
  destruct (common_prefix ap bp =? length bp).
  - assert ((if negb (common_prefix ap bp =? length ap) then split mem n (common_prefix ap bp) else Ok n) <> Err) as Hs.
    { destruct (negb _); [apply ne_split|discriminate]. }
    destruct (try_inv _ _ _ _ _ E) as [(a1 & E1 & E2)|(E1 & _)]; [|contradiction]. clear E. rename E2 into E.
    eapply (wpk_fthen _ _ a1).
    { destruct (common_prefix ap bp =? length ap); cbn [negb] in *.
      - assert (a1 = n) as -> by congruence. apply (wpk_owned_ret _ _ _ _ _ _ I C).
      - apply (wpk_split c n ap _ a1 R B h G I C Ea E1). }
    intros c1 h1 G1 K1 I1 C1. pose proof (bor_keeps _ _ _ _ _ _ _ K1 Hb) as Hb1.
    destruct (bor_value _ _ _ _ _ Hb1) as [Vb Db].
    pose proof (value_opt_ok _ _ _ (proj1 Hb1)) as Ho. rewrite (has_value_ok _ _ _ C1). unfold has_value.
    destruct (blob_opt (n_value m)) as [bv|].
    + destruct Ho as [-> ->]. destruct (blob_opt (n_value a1)) as [av|] eqn:Ev.
      * pose proof (opt_same _ _ Ev) as ->. destruct (wpk_fcombine hf pf Hf c1 a1 (n_value m) _ R B h1 G1 I1 C1 Vb Db) as [W1 W2].
        destruct (try_inv _ _ _ _ _ E) as [(z & Ez & E2)|(Ez & -> & ->)].
        -- eapply (wpk_and_then _ _ _ true); [apply (W1 z Ez)| |discriminate]. intros _ c2 h2 G2 K2 I2 C2.
           apply (fbranch_kids dbg _ _ Hk c2 _ b m n' ok R B h2 G2 I2 C2 (bor_keeps _ _ _ _ _ _ _ K2 Hb1) E2).
        -- eapply (wpk_and_then _ _ _ false); [apply (W2 Ez)|discriminate|auto].
      * stepT E z Ez (proj2 (proj2 Hn)). rewrite (Hcv _ _ Ez) in E.
        eapply (wpk_and_then _ _ (set_value a1 (n_value m)) true); [| |discriminate].
        -- eapply wpk_eq; [|apply wpk_completed; apply (wpk_convert_store c1 a1 (n_value m) _ R B h1 G1 I1 C1 Vb Db)].
           rewrite bind_bind. unfold mbind. destruct (h_convert_value _ h1) as [[av h2]| | |]; [|reflexivity..].
           destruct (h_set_value_owned (fst av) (snd av) c1 h2) as [[? ?]| | |]; [|reflexivity..].
           destruct (drop_value av h0) as [[? ?]| | |]; reflexivity.
        -- intros _ c2 h2 G2 K2 I2 C2.
           apply (fbranch_kids dbg _ _ Hk c2 _ b m n' ok R B h2 G2 I2 C2 (bor_keeps _ _ _ _ _ _ _ K2 Hb1) E).
    + destruct Ho as [-> _]. eapply (wpk_and_then _ _ a1 true); [apply (wpk_fret _ _ _ _ _ _ I1 C1)| |discriminate].
      intros _ c2 h2 G2 K2 I2 C2. apply (fbranch_kids dbg _ _ Hk c2 _ b m n' ok R B h2 G2 I2 C2 (bor_keeps _ _ _ _ _ _ _ K2 Hb1) E).
  - destruct (common_prefix ap bp =? length ap).
    + apply (fbranch_short dbg _ _ Hk c n b m _ n' ok R B h G I C Hb E).
    + stepT E a1 E1 ne_split. stepT E ac Eac ne_kids_mut. stepT E b' Em (proj1 (proj2 Hn)).
      destruct (finish_inv _ _ _ _ E) as [-> Ec]. clear E.
      eapply wpk_fthen; [apply (wpk_split c n ap _ a1 R B h G I C Ea E1)|]. intros c1 h1 G1 K1 I1 C1.
      pose proof (bor_keeps _ _ _ _ _ _ _ K1 Hb) as Hb1.
      eapply wpk_eq; [apply bind_bind|].
      eapply wpk_bind.
      { apply (wpk_finish dbg c1 a1 ac (match ac with [x] => sort2 x b' | _ => ac ++ [b'] end) n' True _ R B h1 G1 I1 C1 Eac); [|exact Ec].
        intros R' h2 G2 K2 cs I2 F2. pose proof (bor_keeps _ _ _ _ _ _ _ K2 Hb1) as Hb2.
        assert (inv h2 G2 ((flat_map node_items cs ++ R') ++ B)) as J2 by rearr I2.
        eapply wpk_bind.
        { eapply (wpk_frame _ _ (flat_map node_items cs ++ R') R' B B _ h2 G2 J2); [occ_solve|occ_solve|occ_solve|].
          apply (proj1 (proj2 Hc) fuel _ m b' Em _ B h2 G2 b J2 Hb2). }
        cbn beta. intros y h3 G3 ([I3 C3] & S3) K3. pose proof (creps_keep _ _ _ _ _ _ _ S3 F2) as F3.
        unfold h_push_sorted. destruct F3 as [|x nx cs' ns' Cx Fs].
        - apply wpk_ret. apply lpost_id; [cbn [flat_map app] in *; rearr I3|]. constructor; [exact C3|constructor].
        - destruct Fs as [|x2 nx2 cs2 ns2 Cx2 Fs2].
          + cbn [flat_map] in I3.
            assert (live h3 (node_items x)) as Lx. { apply (inv_live_roots _ _ _ _ I3). occ_solve. }
            assert (live h3 (node_items y)) as Ly. { apply (inv_live_roots _ _ _ _ I3). occ_solve. }
            apply (wpk_read _ _ _ _ _ _ _ _ (first_ok _ _ _ _ _ I3 Cx Lx)).
            apply (wpk_read _ _ _ _ _ _ _ _ (first_ok _ _ _ _ _ I3 C3 Ly)). apply wpk_ret. unfold sort2.
            destruct (cmp_ob (n_first nx) (n_first b')); (apply lpost_id; [cbn [flat_map]; rearr I3|constructor; [assumption|constructor; [assumption|constructor]]]).
          + apply wpk_ret. apply lpost_id; [rewrite flat_map_app; cbn [flat_map] in *; rearr I3|].
            change (Forall2 (crep G3) ((x :: x2 :: cs2) ++ [y]) ((nx :: nx2 :: ns2) ++ [b'])).
            apply Forall2_app; [constructor; [exact Cx|constructor; assumption]|constructor; [exact C3|constructor]]. }
      cbn beta. intros c3 h3 G3 (lk & I3 & C3 & L3 & _) _. apply wpk_ret. split; [|reflexivity]. exists lk.
      split; [exact I3|]. split; [exact C3|]. split; [exact L3|contradiction].
Qed.

(** What the selector says. *)
Definition said (r : res bool) (s : option bool) : Prop := r = match s with Some b => Ok b | None => Err end.
Lemma try_said {A : Type} (a : A) (r : res bool) k n ok : try a r k = (n, verdict ok) -> exists s, said r s /\
  match s with Some x => k x = (n, verdict ok) | None => n = a /\ ok = false end.
Proof.
  intros E. destruct (try_inv _ _ _ _ _ E) as [(x & -> & E1)|(-> & -> & ->)].
  - exists (Some x). split; [reflexivity|exact E1].
  - exists None. split; [reflexivity|auto].
Qed.
Lemma wpk_stop c n R B h G : inv h G (node_items c ++ R ++ B) -> crep G c n -> wpk (ret (c, false)) R B (fpost R B n false) h G.
Proof.
  intros I C. apply wpk_ret. split; [|reflexivity]. exists []. split; [exact I|]. split; [exact C|]. split; [constructor|contradiction].
Qed.

Lemma retain_with_fok hs ps : fs_ok hs ps -> forall fuel, frec_ok (hf_retain_prefix_with bk dbg hs fuel) (retain_prefix_in bk dbg mem mem ps fuel).
Proof.
  intros Hs. induction fuel as [|fuel IH]; intros n m n' ok E R B h G c b I C Hb; [injection E as _ E; destruct ok; discriminate E|].
  cbn [retain_prefix_in r_prefix] in E. cbv zeta in E. stepT E ap Ea ne_prefix. stepT E bp Eb ne_prefix.
  destruct (prefixes_ok _ _ _ _ _ _ _ _ _ _ I C Hb Ea Eb) as (Pn & Pm & La & Lb).
  cbn [hf_retain_prefix_with]. apply (wpk_read _ _ _ _ _ _ _ _ La). apply (wpk_read _ _ _ _ _ _ _ _ Lb). cbv zeta in *.
  pose proof (inner_fkids bk _ _ IH fuel) as Hk. cbn [r_value_opt r_load_children] in *.
  destruct ((common_prefix ap bp =? length ap) && (common_prefix ap bp =? length bp)).
  - destruct (try_said _ _ _ _ _ E) as (s & Es & E1). clear E.
    apply (wpk_read _ _ _ _ _ _ _ _ (fselected_ok _ _ _ _ _ _ _ _ _ _ Hs I Hb Es)). destruct s as [[|]|].
    + apply (wpk_fcanon dbg c n n' ok R B h G I C E1).
    + eapply wpk_fthen; [apply (wpk_set_none c n R B h G I C)|]. intros c1 h1 G1 K1 I1 C1.
      apply (fbranch_kids dbg _ _ Hk c1 _ b m n' ok R B h1 G1 I1 C1 (bor_keeps _ _ _ _ _ _ _ K1 Hb) E1).
    + destruct E1 as [-> ->]. apply (wpk_stop c n R B h G I C).
  - destruct (common_prefix ap bp =? length bp).
    + pose proof (value_opt_ok _ _ _ (proj1 Hb)) as Ho. destruct (bor_value _ _ _ _ _ Hb) as [Vb Db].
      destruct (blob_opt (n_value m)) as [bv|].
      * destruct Ho as [-> ->]. destruct (try_said _ _ _ _ _ E) as (s & Es & E1). clear E.
        assert (hs (c_vh b, c_v b) h = Done (s, h)) as Eh by (refine (Hs _ _ Es _ B _ _ _ I _ Vb Db); occ_solve).
        apply (wpk_read _ _ _ _ _ _ _ _ Eh). destruct s as [[|]|].
        -- apply (wpk_fcanon dbg c n n' ok R B h G I C E1).
        -- apply (wpk_fclear dbg c n n' ok R B h G I C E1).
        -- destruct E1 as [-> ->]. apply (wpk_stop c n R B h G I C).
      * destruct Ho as [-> _]. stepT E a1 E1 ne_split.
        eapply wpk_fthen; [apply (wpk_split c n ap _ a1 R B h G I C Ea E1)|]. intros c1 h1 G1 K1 I1 C1.
        apply (fbranch_kids dbg _ _ Hk c1 a1 b m n' ok R B h1 G1 I1 C1 (bor_keeps _ _ _ _ _ _ _ K1 Hb) E).
    + destruct (common_prefix ap bp =? length ap).
      * eapply wpk_fthen; [apply (wpk_set_none c n R B h G I C)|]. intros c1 h1 G1 K1 I1 C1.
        apply (fbranch_short dbg _ _ Hk c1 _ b m _ n' ok R B h1 G1 I1 C1 (bor_keeps _ _ _ _ _ _ _ K1 Hb) E).
      * apply (wpk_fclear dbg c n n' ok R B h G I C E).
Qed.

Lemma remove_with_fok hs ps : fs_ok hs ps -> forall fuel, frec_ok (hf_remove_prefix_with bk dbg hs fuel) (remove_prefix_in bk dbg mem mem ps fuel).
Proof.
  intros Hs. induction fuel as [|fuel IH]; intros n m n' ok E R B h G c b I C Hb; [injection E as _ E; destruct ok; discriminate E|].
  cbn [remove_prefix_in r_prefix] in E. cbv zeta in E. stepT E ap Ea ne_prefix. stepT E bp Eb ne_prefix.
  destruct (prefixes_ok _ _ _ _ _ _ _ _ _ _ I C Hb Ea Eb) as (Pn & Pm & La & Lb).
  cbn [hf_remove_prefix_with]. apply (wpk_read _ _ _ _ _ _ _ _ La). apply (wpk_read _ _ _ _ _ _ _ _ Lb). cbv zeta in *.
  pose proof (left_fkids bk _ _ IH fuel) as Hk. cbn [r_value_opt r_load_children] in *.
  destruct ((common_prefix ap bp =? length ap) && (common_prefix ap bp =? length bp)).
  - destruct (try_said _ _ _ _ _ E) as (s & Es & E1). clear E.
    apply (wpk_read _ _ _ _ _ _ _ _ (fselected_ok _ _ _ _ _ _ _ _ _ _ Hs I Hb Es)). destruct s as [[|]|].
    + apply (wpk_fclear dbg c n n' ok R B h G I C E1).
    + apply (fbranch_kids dbg _ _ Hk c n b m n' ok R B h G I C Hb E1).
    + destruct E1 as [-> ->]. apply (wpk_stop c n R B h G I C).
  - destruct (common_prefix ap bp =? length bp).
    + destruct (try_said _ _ _ _ _ E) as (s & Es & E1). clear E.
      apply (wpk_read _ _ _ _ _ _ _ _ (fselected_ok _ _ _ _ _ _ _ _ _ _ Hs I Hb Es)). destruct s as [[|]|].
      * apply (wpk_fclear dbg c n n' ok R B h G I C E1).
      * stepT E1 a1 E2 ne_split.
        eapply wpk_fthen; [apply (wpk_split c n ap _ a1 R B h G I C Ea E2)|]. intros c1 h1 G1 K1 I1 C1.
        apply (fbranch_kids dbg _ _ Hk c1 a1 b m n' ok R B h1 G1 I1 C1 (bor_keeps _ _ _ _ _ _ _ K1 Hb) E1).
      * destruct E1 as [-> ->]. apply (wpk_stop c n R B h G I C).
    + destruct (common_prefix ap bp =? length ap).
      * apply (fbranch_short dbg _ _ Hk c n b m _ n' ok R B h G I C Hb E).
      * apply (wpk_fcanon dbg c n n' ok R B h G I C E).
Qed.
End Fail.
