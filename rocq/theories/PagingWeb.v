(** A paging file on a file in the browser cache. *)
From Verif Require Import Base BaseLemmas Header Node Store StoreProofs U64 File FileProofs Chunk WebFile WebProofs WebPlans
  WebSpec WebTop WebAppend Paging PagingSpec PagingProofs PagingTop PagingRun.
Local Open Scope N_scope.

Definition web_any (f : wfile) (F : file) : Prop := rep f F /\ f_len F < i64_lim.
Lemma f_read_view F s n : s + N.of_nat n <= f_len F -> map (fun i => view F (s + N.of_nat i)) (seq 0 n) = f_read F s n.
Proof.
  intros H. unfold f_read. apply map_ext_in. intros i Hi. apply in_seq in Hi. unfold view.
  assert (s + N.of_nat i <? f_len F = true) as -> by (apply N.ltb_lt; lia). reflexivity.
Qed.
Lemma rep_read f F a b r f' : rep f F -> a <= b -> wf_read (a, b) f = (r, f') ->
  same f f' /\ (r = Err \/ b <= f_len F /\ r = Ok (f_read F a (N.to_nat (b - a)))).
Proof.
  intros R Hab E. apply (read_spec _ _ _ _ _ _ _ R Hab) in E as (S & G & K). split; [exact S|].
  destruct G as [->|(out & ->)]; [now left|right]. destruct (K out eq_refl) as [K1 ->]. split; [exact K1|].
  f_equal. apply f_read_view. lia.
Qed.
Lemma rep_same f g F : same f g -> rep f F -> rep g F.
Proof. intros S R. exact (same_ok _ _ _ _ S R). Qed.

Lemma web_file_dev : file_dev web_dev true web_any.
Proof.
  constructor.
  - intros s F [_ H]. exact H.
  - intros s F r s' [R H] E. cbn in E. unfold wf_length in E. injection E as <- <-. split; [now split|right].
    eexists. split; [reflexivity|]. apply length_le. apply R.
  - intros s F a b r s' [R H] Hab E. cbn in E. destruct (rep_read _ _ _ _ _ _ R Hab E) as [S K].
    split; [split; [now apply (rep_same s)|exact H]|exact K].
  - intros s F o d r s' [R H] _ E. cbn [dv_write web_dev] in E.
    destruct (N.ltb_spec (o + N.of_nat (length d)) i64_lim) as [L|L].
    2: { apply wret_inv in E as [-> ->]. exists F. split; [now split|right]. auto. }
    unfold wf_write in E. unfold sum_ok in E.
    assert (o + N.of_nat (length d) <? u64_max = true) as Hs
      by (apply N.ltb_lt; assert (i64_lim < u64_max) by reflexivity; lia).
    rewrite Hs in E. unfold wbind at 1, wret at 1 in E.
    apply (add_effect _ _ _ _ _ _ R) in E as [(-> & F' & HF & R')|(-> & R')].
    + exists F'. split; [|right; split; [reflexivity|]; destruct HF as [->| ->]; auto].
      split; [exact R'|]. destruct HF as [->| ->]; [exact H|]. cbn [f_write f_len]. lia.
    + exists (f_write F o d). split; [|left; auto]. split; [exact R'|]. cbn [f_write f_len]. lia.
  - intros s F r s' [R H] E. cbn in E. apply open_same in E as [S G]; [|apply R].
    split; [split; [now apply (rep_same s)|exact H]|]. destruct G as [->|([] & ->)]; auto.
Qed.

(** The contents as a list of bytes. *)
Definition contents (F : file) : bytes := f_read F 0 (N.to_nat (f_len F)).
Lemma contents_length F : length (contents F) = N.to_nat (f_len F).
Proof. apply f_read_length. Qed.
Lemma contents_view F x : bview (contents F) x = view F x.
Proof.
  unfold bview, view. destruct (N.ltb_spec x (f_len F)) as [L|L].
  - unfold contents, f_read. rewrite nth_indep with (d' := f_at F (0 + N.of_nat 0)) by (rewrite map_length, seq_length; lia).
    rewrite (map_nth (fun i => f_at F (0 + N.of_nat i))), seq_nth by lia. f_equal. lia.
  - apply nth_overflow. rewrite contents_length. lia.
Qed.
Lemma contents_write F d : contents (f_write F (f_len F) d) = contents F ++ d.
Proof.
  unfold contents. cbn [f_write f_len]. replace (N.to_nat (N.max (f_len F) (f_len F + N.of_nat (length d))))
    with (N.to_nat (f_len F) + length d)%nat by lia.
  rewrite f_read_app. f_equal; [apply f_read_before; lia|].
  replace (0 + N.of_nat (N.to_nat (f_len F))) with (f_len F + N.of_nat 0) by lia.
  rewrite f_read_inside by lia. cbn [skipn]. apply firstn_all.
Qed.
Definition web_end (f : wfile) (F : file) : Prop := lin (contents F) f /\ f_len F < i64_lim.
Lemma lin_rep f F : lin (contents F) f -> rep f F.
Proof.
  intros L. unfold rep. apply (state_ok_ext (bview (contents F))); [apply contents_view|].
  pose proof (lin_ok _ _ L) as K. now rewrite contents_length, N2Nat.id in K.
Qed.
Lemma web_end_dev : file_dev web_dev false web_end.
Proof.
  constructor.
  - intros s F [_ H]. exact H.
  - intros s F r s' [L H] E. cbn in E. unfold wf_length in E. injection E as <- <-. split; [now split|right].
    eexists. split; [reflexivity|]. apply length_le. apply (lin_rep _ _ L).
  - intros s F a b r s' [L H] Hab E. cbn in E. destruct (rep_read _ _ _ _ _ _ (lin_rep _ _ L) Hab E) as [S K].
    split; [split; [now apply (lin_same _ s)|exact H]|exact K].
  - intros s F o d r s' [L H] [Ho| ->] E; [discriminate|]. cbn [dv_write web_dev] in E.
    destruct (N.ltb_spec (f_len F + N.of_nat (length d)) i64_lim) as [B|B].
    2: { apply wret_inv in E as [-> ->]. exists F. split; [now split|right]. auto. }
    unfold wf_write in E. unfold sum_ok in E.
    assert (f_len F + N.of_nat (length d) <? u64_max = true) as Hs
      by (apply N.ltb_lt; assert (i64_lim < u64_max) by reflexivity; lia).
    rewrite Hs in E. unfold wbind at 1, wret at 1 in E.
    assert (exists q, wf_append d s = (q, s') /\ (r = Err /\ q = Err \/ r = Ok tt /\ exists o, q = Ok o \/ r = Panic /\ q = Panic \/ r = Fuel /\ q = Fuel)) as (q & Eq & K).
    { unfold wf_append. rewrite (lin_end _ _ L), contents_length, N2Nat.id. unfold sum_ok. rewrite Hs.
      unfold wbind at 1, wret at 1. unfold wbind at 1. rewrite E.
      destruct (add_effect _ _ _ _ _ _ (lin_rep _ _ L) E) as [(-> & _)|(-> & _)]; eexists; split; try reflexivity; eauto 6. }
    apply (append_step _ _ _ _ _ L) in Eq as [[Hq S]|(-> & L' & _)].
    + destruct Hq as [->|[_ Hq]].
      2: { exfalso. rewrite contents_length, N2Nat.id in Hq. apply N.ltb_lt in Hs. lia. }
      destruct K as [[-> _]|[-> (o & [K|[[K _]|[K _]]])]]; try discriminate.
      exists F. split; [|right; auto]. split; [now apply (lin_same _ s)|exact H].
    + destruct K as [[_ K]|[-> _]]; [discriminate|]. exists (f_write F (f_len F) d). split; [|left; auto].
      split; [rewrite contents_write; exact L'|]. cbn [f_write f_len]. lia.
  - intros s F r s' [L H] E. cbn in E. apply open_same in E as [S G]; [|apply (lin_rep _ _ L)].
    split; [split; [now apply (lin_same _ s)|exact H]|]. destruct G as [->|([] & ->)]; auto.
Qed.
Lemma web_end_exact : exact_length web_dev web_end.
Proof.
  intros s F n s' [L H] E. cbn in E. unfold wf_length in E.
  assert (n = snd (crange (prev (w_chunks s)))) as -> by congruence. rewrite (lin_end _ _ L), contents_length. lia.
Qed.
(** The cache works and the file has less than [2^31] bytes. *)
Definition works (f : wfile) : Prop := w_faults f = [] /\ exists n, length_now f = Ok n /\ n < i32_lim.
Lemma web_readable : readable web_dev web_end works.
Proof.
  intros s F a b [L H] [Hf (n & Hn & Hlt)] Hab Hb. cbn [dv_read web_dev].
  assert (n = f_len F) as ->.
  { unfold length_now, wf_length in Hn. cbn [fst] in Hn.
    assert (n = snd (crange (prev (w_chunks s)))) as -> by congruence. rewrite (lin_end _ _ L), contents_length. lia. }
  destruct (wf_read (a, b) s) as [r s'] eqn:E. exists s'.
  assert (read_now s [] a b = Ok (f_read F a (N.to_nat (b - a)))) as K.
  { apply read_accepts; [now apply lin_rep|exact Hlt|exact Hab|]. right. exists (f_len F). auto. }
  unfold read_now in K. replace (with_faults [] s) with s in K by (destruct s; cbn in *; now subst).
  rewrite E in K. cbn [fst] in K. subst r. eauto.
Qed.

Lemma new_any t : web_any (with_faults t new_web_file) empty_file.
Proof. split; [apply rep_faults, rep_new|reflexivity]. Qed.
Lemma new_end t : web_end (with_faults t new_web_file) empty_file.
Proof. split; [|reflexivity]. apply (lin_same _ new_web_file); [now split|exact lin_new]. Qed.

Theorem paging_web_session ps : page_size_ok ps ->
  forall t cs rs s', Forall (size_ok ps) cs -> prun web_dev ps cs (with_faults t new_web_file, None) = (rs, s') ->
  all_right false (Ledger [] []) cs rs.
Proof.
  intros Hps t cs rs s' Hc E.
  now apply (paging_history web_dev false web_any ps web_file_dev ltac:(discriminate) Hps _ _ cs rs s' (new_any t) Hc E).
Qed.
Theorem paging_web_once ps : page_size_ok ps ->
  forall t cs cs2 rs s', Forall (size_ok ps) cs -> Forall no_sync cs -> Forall only_reads cs2 ->
  prun web_dev ps (cs ++ PSync :: cs2) (with_faults t new_web_file, None) = (rs, s') ->
  all_right true (Ledger [] []) (cs ++ PSync :: cs2) rs /\
  (works (fst s') -> snd s' <> None -> forall id d,
    In (id, d) (saved (notes (cs ++ PSync :: cs2) rs (Ledger [] []))) ->
    fst (pstep web_dev ps (PLoad id) s') = Ok (OData d)).
Proof.
  intros Hps t cs cs2 rs s' Hc Hn Hr E.
  destruct (paging_once web_dev web_end ps web_end_dev web_end_exact Hps _ _ cs cs2 rs s' (new_end t)
    ltac:(cbn [empty_file f_len]; apply N.mod_0_l; pose proof (ps_bounds ps Hps); lia) Hc Hn Hr E) as [A B].
  split; [exact A|]. intros Hw Ho id d. apply (B works web_readable Hw Ho).
Qed.
