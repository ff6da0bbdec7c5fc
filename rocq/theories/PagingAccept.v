(** Calls on a paging file succeed when the file below works: proofs. *)
From Verif Require Import Base BaseLemmas Header Node Store StoreProofs U64 File FileProofs Chunk ChunkProofs WebFile WebProofs WebPlans
  WebSpec WebTop WebAccept Paging PagingSpec PagingUsable PagingProofs PagingTop PagingRun PagingWeb.
Local Open Scope N_scope.

Section Accept.
Context (D : dev) (ex : bool) (inv : dv D -> file -> Prop) (ps : N) (good : dv D -> Prop) (L : N).
Context (HD : file_dev D true inv) (Hex : ex = true -> exact_length D inv) (Hps : page_size_ok ps) (HU : usable D inv good L).
Notation state_inv := (state_inv D true ex inv ps).

Lemma open_accepted s l : state_inv s l -> good (fst s) -> fst (pstep D ps POpen s) = Ok ODone.
Proof.
  intros (F & HI & HS) G. destruct (us_open _ _ _ _ HU _ _ HI G) as (s1 & E1 & G1).
  cbn [pstep]. unfold wbind at 1. rewrite E1. destruct (fd_open _ _ _ HD _ _ _ _ HI E1) as [HI1 _].
  destruct (us_length _ _ _ _ HU _ _ HI1 G1) as (n & s2 & E2 & Hr).
  destruct (fd_length _ _ _ HD _ _ _ _ HI1 E2) as [HI2 [Hn|(n' & Hn & Hn')]]; [discriminate|]. injection Hn as <-.
  unfold p_new, wbind, wret. rewrite E2. pose proof (fd_small _ _ _ HD _ _ HI1) as Hsm.
  rewrite (page_range_ok ps Hps) by (unfold lim; lia). cbn [fst snd].
  destruct (Hr (start ps n) n) as (d & s3 & E3); [apply start_bounds; exact Hps|lia|]. rewrite E3. reflexivity.
Qed.
Lemma sync_accepted s m l : state_inv (s, Some m) l -> good s -> p_len m < L ->
  fst (pstep D ps PSync (s, Some m)) = Ok ODone.
Proof.
  intros HS G HL. destruct (pstep D ps PSync (s, Some m)) as [r s'] eqn:E.
  destruct (step_ok D true ex inv ps HD Hex (or_introl eq_refl) Hps PSync _ _ _ _ HS Logic.I (or_introl eq_refl) E) as [R _].
  cbn [right] in R. destruct R as [->|R]; [|exact R]. exfalso. destruct HS as (F & HI & HP). cbn [fst snd] in *.
  pose proof (fd_small _ _ _ HD _ _ HI) as Hsm. destruct (pinv_small true ex ps Hps _ _ _ HP Hsm) as [B1 B2].
  cbn [pstep on_open snd fst] in E. unfold on_open in E. cbn [snd fst] in E. unfold p_sync, wbind, wret in E. cbn [snd] in E.
  rewrite (page_range_ok ps Hps), (offset_ok ps Hps) in E by exact B2. cbn [fst snd] in E.
  unfold slice_to in E. destruct (_ <=? _)%nat eqn:C; [|discriminate]. unfold on_dev in E. cbn [fst snd] in E.
  set (d := firstn _ _) in E.
  destruct (us_write _ _ _ _ HU s F (start ps (p_len m)) d HI G) as (s1 & E1); [|rewrite E1 in E; discriminate].
  subst d. rewrite firstn_length. pose proof (start_bounds ps Hps (p_len m)). lia.
Qed.
Lemma append_accepted s m l d : state_inv (s, Some m) l -> good s -> p_len m + ps < L ->
  N.of_nat (length d) + 12 <= ps \/ ps mod 8 = 0 /\ N.of_nat (length d) + 9 <= ps ->
  exists n, fst (pstep D ps (PAppend d) (s, Some m)) = Ok (OId n).
Proof.
  intros HS G HL Hd. destruct (pstep D ps (PAppend d) (s, Some m)) as [r s'] eqn:E.
  pose proof (ps_bounds ps Hps) as Hb.
  assert (size_ok ps (PAppend d)) as Hc by (cbn [size_ok]; unfold usize_lim; tauto || (split; [lia|tauto])).
  destruct (step_ok D true ex inv ps HD Hex (or_introl eq_refl) Hps (PAppend d) _ _ _ _ HS Hc (or_introl eq_refl) E) as [R _].
  cbn [right] in R. destruct R as [->|(n & R)]; [|exists n; exact R]. exfalso. destruct HS as (F & HI & HP). cbn [fst snd] in *.
  pose proof (fd_small _ _ _ HD _ _ HI) as Hsm. destruct (pinv_small true ex ps Hps _ _ _ HP Hsm) as [B1 B2].
  cbn [pstep on_open snd fst] in E. unfold on_open in E. cbn [snd fst] in E. unfold p_append_lp in E.
  assert (N.of_nat (length d) <? usize_lim = true) as Hu by (apply N.ltb_lt; unfold usize_lim; lia). rewrite Hu in E.
  set (x := to_be 4 (N.of_nat (length d)) ++ d) in E.
  assert (N.of_nat (length x) = 4 + N.of_nat (length d)) as Hx by (unfold x; rewrite app_length, to_be_length; lia).
  assert (forall t, fst (p_put D ps x t) <> Err) as NP.
  { intros t. unfold p_put, wbind, wret, sum_ok, offset_within_page, page_range, page_num, copy_to, bind, sum_ok.
    repeat (match goal with |- context [if ?b then _ else _] => destruct b end; cbn [fst snd]; try discriminate). }
  destruct (p_append D ps x (s, m)) as [q g] eqn:Ea. unfold wbind at 1 in E. rewrite Ea in E.
  assert (q = Err) as -> by (destruct q; unfold wret in E; congruence). clear E.
  unfold p_append, wbind, wret in Ea. cbn [snd] in Ea.
  assert (N.of_nat (length x) <=? ps = true) as Hle by (apply N.leb_le; lia). rewrite Hle in Ea.
  unfold p_remaining in Ea. rewrite (page_range_ok ps Hps) in Ea by exact B2. cbn [bind fst snd] in Ea.
  destruct (_ <? _) in Ea.
  - unfold p_close, wbind, wret in Ea. cbn [snd fst] in Ea. rewrite (page_num_ok ps Hps), (page_range_ok ps Hps) in Ea by exact B2.
    cbn [fst snd] in Ea. unfold on_dev in Ea. cbn [fst snd] in Ea.
    destruct (us_write _ _ _ _ HU s F (start ps (p_len m)) (p_last m) HI G) as (s1 & E1).
    { rewrite (pi_last _ _ _ _ _ _ HP). pose proof (start_bounds ps Hps (p_len m)). lia. }
    rewrite E1, (page_num_ok ps Hps) in Ea. destruct (_ =? _) in Ea; [|discriminate].
    match type of Ea with p_put D ps x ?t = _ => apply (NP t); rewrite Ea; reflexivity end.
  - apply (NP (s, m)). rewrite Ea. reflexivity.
Qed.
End Accept.

Theorem paging_accepts D ex inv ps good L : file_dev D true inv -> (ex = true -> exact_length D inv) -> page_size_ok ps ->
  usable D inv good L ->
  forall s F cs rs s', inv s F -> Forall (size_ok ps) cs -> prun D ps cs (s, None) = (rs, s') -> good (fst s') ->
  fst (pstep D ps POpen s') = Ok ODone /\
  forall m, snd s' = Some m -> p_len m + ps < L ->
    fst (pstep D ps PSync s') = Ok ODone /\
    forall d, N.of_nat (length d) + 12 <= ps \/ ps mod 8 = 0 /\ N.of_nat (length d) + 9 <= ps ->
      exists n, fst (pstep D ps (PAppend d) s') = Ok (OId n).
Proof.
  intros HD Hex Hps HU s F cs rs s' HI Hc E G.
  destruct (run_ok D true ex inv ps HD Hex (or_introl eq_refl) Hps cs (s, None) (Ledger [] []) rs s') as [_ HS]; auto.
  { exists F. split; [exact HI|]. split; [reflexivity|]. split; [now left|]. intros _ ? ? []. }
  split; [eapply open_accepted; eassumption|]. destruct s' as [s1 om]. intros m Em HL. cbn [snd fst] in *. subst om.
  split; [eapply sync_accepted; try eassumption; lia|]. intros d Hd. eapply append_accepted; eassumption.
Qed.

(** Files in the browser cache. *)
Lemma web_usable : usable web_dev web_any browser_works 2147483648.
Proof.
  constructor.
  - intros f F [(W & _ & HB) _] (Hf & HS & HE). cbn [dv_length web_dev]. unfold wf_length.
    eexists _, f. split; [reflexivity|]. intros a b Hab Hb. cbn [dv_read web_dev]. unfold wf_read, wbind, wret. cbn [fst snd].
    assert (ends 2147483647 f) as HB' by (intros c Hc; specialize (HE c Hc); lia).
    pose proof (length_le 2147483647 f HB') as Hl.
    unfold to_usize. assert (b - a <? usize_lim = true) as -> by (apply N.ltb_lt; unfold usize_lim; lia).
    assert (b <=? snd (crange (prev (w_chunks f))) = true) as -> by (apply N.leb_le; exact Hb).
    destruct (read_raw_accepts f 2147483647 a b) as (d & E & _); auto; [reflexivity|unfold wf_length in Hl; lia|]. rewrite E. eauto.
  - intros f F o d [(W & _) _] (Hf & HS & HE) Ho. cbn [dv_write web_dev].
    assert (o + N.of_nat (length d) <? i64_lim = true) as -> by (apply N.ltb_lt; unfold i64_lim; lia).
    unfold wf_write, wbind, wret. rewrite sum_fine by exact Ho.
    destruct (add_ends_accepts 2147483647 f o d) as (g & E & _); auto; [|reflexivity|rewrite E; eauto].
    intros c Hc. specialize (HE c Hc). lia.
  - intros f F [(W & _) _] (Hf & HS & HE). cbn [dv_open web_dev]. destruct (wf_open f) as [q g] eqn:E. exists g.
    destruct (open_same f q g W E) as [[S1 S2] _]. unfold wf_open, js in E. rewrite Hf in E. injection E as <- Eg.
    split; [reflexivity|]. unfold browser_works. rewrite <- S1, <- S2. rewrite <- Eg. cbn [w_faults]. auto.
Qed.
Theorem paging_web_accepts ps : page_size_ok ps ->
  forall t cs rs s', Forall (size_ok ps) cs -> prun web_dev ps cs (with_faults t new_web_file, None) = (rs, s') ->
  browser_works (fst s') ->
  fst (pstep web_dev ps POpen s') = Ok ODone /\
  forall m, snd s' = Some m -> p_len m + ps < 2147483648 ->
    fst (pstep web_dev ps PSync s') = Ok ODone /\
    forall d, N.of_nat (length d) + 12 <= ps \/ ps mod 8 = 0 /\ N.of_nat (length d) + 9 <= ps ->
      exists n, fst (pstep web_dev ps (PAppend d) s') = Ok (OId n).
Proof.
  intros Hps t cs rs s' Hc E G.
  eapply (paging_accepts web_dev false web_any ps browser_works); try eassumption; auto using web_file_dev, web_usable; [discriminate|apply new_any].
Qed.
