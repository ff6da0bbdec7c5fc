(** Tidying up a file in the browser cache: the theorems. *)
From Coq Require Import Sorted.
From Verif Require Import Base BaseLemmas Header Node Store U64 File Chunk ChunkProofs WebFile WebProofs WebPlans WebSpec WebTop
  WebAccept WebOpen WebOpenSpec WebOpenProofs.
Local Open Scope N_scope.

(** ** States after histories *)
Definition keys (f : wfile) : list chunk := map fst (w_cache f).
Definition fit (f : wfile) : Prop := wf f /\ NoDup (keys f).

Lemma delete_keys c m : forall x, In x (map fst (cache_delete c m)) -> In x (map fst m) /\ x <> c.
Proof.
  intros x H. unfold cache_delete in H. apply in_map_iff in H as ((c', d) & <- & H). apply filter_In in H as [H1 H2].
  cbn [fst] in *. apply negb_true_iff, neqb_chunk in H2. split; [apply in_map_iff; now exists (c', d)|congruence].
Qed.
Lemma delete_nodup c m : NoDup (map fst m) -> NoDup (map fst (cache_delete c m)).
Proof.
  unfold cache_delete. induction m as [|[c' d] m IH]; cbn [map filter fst]; intros H; [constructor|].
  inversion H as [|? ? H1 H2]; subst. destruct (negb (chunk_eqb c c')); [|now apply IH].
  cbn [map fst]. constructor; [|now apply IH]. intros F. apply (delete_keys c) in F. now apply H1.
Qed.
Lemma same_keys f g : same f g -> keys f = keys g.
Proof. intros [_ A]. unfold keys. now rewrite A. Qed.
Lemma write_nodup c d f q g : NoDup (keys f) -> write_chunk c d f = (q, g) -> NoDup (keys g).
Proof.
  intros H E. apply write_chunk_cases in E as [[_ S]|[_ S]]; rewrite <- (same_keys _ _ S); [exact H|].
  unfold keys, put_file, cache_put. cbn [w_cache map fst]. constructor; [|now apply delete_nodup].
  intros F. apply delete_keys in F. now apply F.
Qed.
Lemma exec_nodup o f q g : wf f -> (match o with WWrite c d => N.of_nat (length d) = len c | _ => True end) ->
  NoDup (keys f) -> exec_op o f = (q, g) -> NoDup (keys g).
Proof.
  intros W Ho H E. destruct o as [c|c|c d].
  - cbn [exec_op] in E. apply wbind_inv in E as (r1 & g1 & E1 & E). unfold crange in E1.
    apply read_raw_spec in E1 as (S1 & _ & _); [|exact W|lia]. rewrite (same_keys _ _ S1) in H.
    destruct E as [(d & _ & E)|[(_ & _ & ->)|[(_ & _ & ->)|(_ & _ & ->)]]]; auto. now apply write_nodup in E.
  - apply delete_cases in E as [[_ S]|[_ S]]; rewrite <- (same_keys _ _ S); [exact H|].
    now apply delete_nodup.
  - now apply write_nodup in E.
Qed.
Definition op_ok (o : wop) : Prop := match o with WWrite c d => N.of_nat (length d) = len c | _ => True end.
Lemma exec_wf o f q g : wf f -> op_ok o -> exec_op o f = (q, g) -> wf g /\ good_res q.
Proof.
  intros W Ho E. destruct o as [c|c|c d].
  - destruct (ends_exists f (offset c + len c)) as (B & HB & HK).
    assert (state_ok (vis f) B f) as K by (split; [exact W|]; split; [reflexivity|exact HB]).
    destruct (rewrite_ok (vis f) B c f q g K HK E) as (G & K' & _). split; [apply K'|exact G].
  - destruct (delete_any c f q g W E) as [(-> & W' & _)|(-> & W' & _)]; (split; [exact W'|]); [now left|right; eauto].
  - cbn [exec_op] in E. apply write_chunk_cases in E as [[-> S]|[-> S]].
    + split; [now apply (same_wf f)|now left].
    + split; [apply (same_wf _ _ S); now apply put_wf|right; eauto].
Qed.
Lemma plan_fit p : (forall o, In o p -> op_ok o) -> forall f q g, fit f -> execute_plan p f = (q, g) -> fit g.
Proof.
  induction p as [|o p IH]; intros Hp f q g [W H] E.
  - cbn in E. apply wret_inv in E as [-> ->]. now split.
  - apply execute_cons in E as (q1 & g1 & E1 & E). pose proof (Hp o (or_introl eq_refl)) as Ho.
    destruct (exec_wf o f q1 g1 W Ho E1) as [W1 G1]. pose proof (exec_nodup o f q1 g1 W Ho H E1) as H1.
    destruct (E G1) as [(_ & _ & ->)|(_ & E')]; [now split|]. apply (IH (fun o Ho => Hp o (or_intror Ho)) g1 q g); [now split|exact E'].
Qed.
Lemma add_ok cs o d : forall p, In p (add cs o d) -> op_ok p.
Proof.
  intros p Hp. unfold add in Hp. destruct Hp as [<-|Hp].
  - unfold op_ok, chunk_new. cbn [len fst snd]. lia.
  - apply in_app_or in Hp as [Hp|Hp].
    + apply in_map_iff in Hp as (c & <- & _). exact Logic.I.
    + apply in_flat_map in Hp as (c & _ & Hp). unfold rewrite_ops in Hp.
      repeat (apply in_app_or in Hp as [Hp|Hp]); [destruct (_ <? _)|destruct (_ <? _)|]; destruct Hp as [<-|[]] || destruct Hp; exact Logic.I.
Qed.
Lemma truncate_op cs o : forall p, In p (truncate cs o) -> op_ok p.
Proof.
  intros p Hp. unfold truncate in Hp. apply in_app_or in Hp as [Hp|Hp].
  - destruct (filter _ _) as [|c r]; [destruct Hp|]. destruct (_ <? _); destruct Hp as [<-|[]] || destruct Hp; exact Logic.I.
  - apply in_map_iff in Hp as (c & <- & _). exact Logic.I.
Qed.
Lemma open_op file l cs : forall covered p, In p (open_loop file l covered cs) -> op_ok p.
Proof.
  induction cs as [|c cs IH]; intros covered p Hp; cbn [open_loop] in Hp; [destruct Hp|].
  destruct (rs_disjoint _ _); [destruct Hp as [<-|Hp]; [exact Logic.I|eauto]|].
  apply in_app_or in Hp as [Hp|Hp]; [|eauto]. destruct (rs_eqb _ _); [destruct Hp|].
  apply in_app_or in Hp as [Hp|Hp]; [apply in_map_iff in Hp as (r & <- & _); exact Logic.I|].
  destruct Hp as [<-|[]]. exact Logic.I.
Qed.

Lemma fit_faults t f : fit f -> fit (with_faults t f).
Proof. intros [W H]. split; [|exact H]. apply (same_wf f); [now split|exact W]. Qed.
Lemma step_fit c f r f' : fit f -> step c f = (r, f') -> fit f'.
Proof.
  destruct c as [c t]. intros H E. unfold step in E. cbn [fst snd] in E. apply (fit_faults t) in H.
  set (f0 := with_faults t f) in *. clearbody f0. clear f t.
  destruct c as [o d|d|n|]; apply wbind_inv in E as (r1 & g1 & E1 & E);
    assert (f' = g1) as -> by (destruct E as [(a & _ & E)|[(_ & _ & E)|[(_ & _ & E)|(_ & _ & E)]]]; [now apply wret_inv in E|exact E..]);
    clear E.
  - unfold wf_write in E1. apply wbind_inv in E1 as (r2 & g2 & E2 & E1). apply wret_inv in E2 as [_ ->].
    destruct E1 as [(a & _ & E1)|[(_ & _ & ->)|[(_ & _ & ->)|(_ & _ & ->)]]]; try exact H.
    now apply (plan_fit _ (add_ok _ _ _)) in E1.
  - unfold wf_append in E1. apply wbind_inv in E1 as (r2 & g2 & E2 & E1). apply wret_inv in E2 as [_ ->].
    destruct E1 as [(a & _ & E1)|[(_ & _ & ->)|[(_ & _ & ->)|(_ & _ & ->)]]]; try exact H.
    apply wbind_inv in E1 as (r3 & g3 & E2 & E1). apply (plan_fit _ (add_ok _ _ _)) in E2; [|exact H].
    destruct E1 as [(b & _ & E1)|[(_ & _ & ->)|[(_ & _ & ->)|(_ & _ & ->)]]]; try exact E2. now apply wret_inv in E1 as [_ ->].
  - unfold wf_truncate in E1. now apply (plan_fit _ (truncate_op _ _)) in E1.
  - apply open_same in E1 as [S _]; [|apply H]. destruct H as [W H]. split; [now apply (same_wf f0)|].
    now rewrite <- (same_keys _ _ S).
Qed.
Lemma tidied_fit f : tidied f -> fit f.
Proof.
  induction 1 as [|f c r f' _ IH E|f t r f' _ IH E].
  - split; [|constructor]. constructor; cbn; [constructor|tauto|discriminate].
  - now apply step_fit in E.
  - unfold tidy in E. apply (plan_fit _ (open_op _ _ _ _)) in E; [exact E|now apply fit_faults].
Qed.

(** ** Positions that are stored *)
Lemma stored_cov f x : wf f -> stored f x <-> cov f x.
Proof.
  intros W. split.
  - intros (c & d & H & Hx). exists c. split; [apply (wf_keys _ W); congruence|].
    apply covers_iff. rewrite <- (wf_len _ W c d H). exact Hx.
  - intros (c & H & Hx). apply (wf_keys _ W) in H. destruct (cache_match c (w_cache f)) as [d|] eqn:E; [|congruence].
    exists c, d. split; [exact E|]. rewrite (wf_len _ W c d E). now apply covers_iff.
Qed.
Lemma gapless_cov f n : wf f -> gapless f n <-> (forall x, x < n -> cov f x) /\ ~ cov f n.
Proof.
  intros W. unfold gapless. rewrite (stored_cov f n W). split; intros [A B]; (split; [|exact B]); intros x Hx; apply (stored_cov f x W); auto.
Qed.
Lemma gapless_range f n : wf f -> gapless f n -> get_file_range (map crange (w_chunks f)) = (0, n).
Proof.
  intros W H. apply gapless_cov in H as [A B]; [|exact W]. destruct (file_range_spec f) as (k & E & A' & B'). rewrite E. f_equal.
  destruct (N.lt_trichotomy k n) as [F|[F|F]]; [|exact F|]; exfalso; auto.
Qed.
Lemma gapless_split f n c : wf f -> gapless f n -> In c (w_chunks f) -> split_at n c.
Proof.
  intros W H Hc. apply gapless_cov in H as [A B]; [|exact W]. unfold split_at.
  destruct (covers c n) eqn:E; [exfalso; apply B; now exists c|].
  destruct (N.le_gt_cases (offset c + len c) n) as [F|F]; [now left|]. right.
  destruct (N.lt_ge_cases n (offset c)) as [F'|F']; [now left|].
  assert (covers c n = true) by (apply covers_iff; lia). congruence.
Qed.

Lemma sorted_before u c v : sorted (u ++ c :: v) -> forall x, In x u -> clt x c.
Proof.
  induction u as [|a u IH]; intros H x Hx; [destruct Hx|]. cbn [app] in H. inversion H as [|? ? Hs Hf]; subst.
  destruct Hx as [<-|Hx]; [|now apply IH]. rewrite Forall_forall in Hf. apply Hf. apply in_or_app. right. now left.
Qed.
Lemma desc_rev cs : sorted cs -> desc (rev cs).
Proof.
  intros H a c b E x Hx. apply (f_equal (@rev chunk)) in E. rewrite rev_involutive, rev_app_distr in E. cbn [rev] in E.
  rewrite <- app_assoc in E. cbn [app] in E. rewrite E in H. apply (sorted_before (rev b) c (rev a)); [exact H|]. now apply in_rev in Hx.
Qed.

Lemma inv_start f n : wf f -> gapless f n -> inv n (next_level (w_chunks f)) f [] (rev (w_chunks f)).
Proof.
  intros W H. constructor.
  - exact W.
  - exact Logic.I.
  - intros c Hc. apply in_rev in Hc. split; [exact Hc|]. split; [now apply next_level_gt|now apply (gapless_split f)].
  - intros x F. destruct (in_nil _ F).
  - intros x F. destruct (in_nil _ F).
  - intros c Hc F. destruct F. now apply in_rev in Hc.
  - intros c c' x Hc F. destruct F. now apply in_rev in Hc.
Qed.

Lemma kept_gapless n f g : wf f -> gapless f n -> kept n f g -> gapless g n.
Proof.
  intros W H (W' & _ & K1 & K2). apply gapless_cov in H as [A B]; [|exact W]. apply gapless_cov; [exact W'|]. split.
  - intros x Hx. auto.
  - intros F. apply B. apply K2; [lia|exact F].
Qed.
Lemma raw_same n f g t1 t2 s e d d' : wf f -> wf g -> (forall x, x < n -> vis g x = vis f x) -> s <= e -> e <= n ->
  raw_now f t1 s e = Ok d -> raw_now g t2 s e = Ok d' -> d = d'.
Proof.
  intros W W' V Hse He E E'. unfold raw_now in *.
  destruct (read_raw (s, e) (with_faults t1 f)) as [q1 f1] eqn:E1.
  destruct (read_raw (s, e) (with_faults t2 g)) as [q2 g1] eqn:E2. cbn [fst] in E, E'. subst q1 q2.
  apply read_raw_spec in E1 as (_ & _ & D1); [|apply (same_wf f); [now split|exact W]|exact Hse].
  apply read_raw_spec in E2 as (_ & _ & D2); [|apply (same_wf g); [now split|exact W']|exact Hse].
  destruct (D1 _ eq_refl) as [L1 N1], (D2 _ eq_refl) as [L2 N2].
  apply (nth_ext _ _ x00 x00); [lia|]. intros i Hi. rewrite N1 by exact Hi. rewrite N2 by lia.
  assert (forall h t, vis (with_faults t h) (s + N.of_nat i) = vis h (s + N.of_nat i)) as F by reflexivity.
  rewrite !F. symmetry. apply V. lia.
Qed.

(** ** The size of disjoint chunks *)
Fixpoint cnt (p : N -> bool) (k : nat) : N :=
  match k with O => 0 | S k => (if p (N.of_nat k) then 1 else 0) + cnt p k end.
Lemma cnt_covers c k : cnt (covers c) k = N.min (N.of_nat k) (offset c + len c) - N.min (N.of_nat k) (offset c).
Proof.
  induction k as [|k IH]; cbn [cnt]; [lia|]. rewrite IH. unfold covers.
  destruct (N.leb_spec (offset c) (N.of_nat k)) as [A|A], (N.ltb_spec (N.of_nat k) (offset c + len c)) as [B|B]; cbn [andb]; lia.
Qed.
Lemma cnt_or p q k : (forall x, p x = true -> q x = true -> False) -> cnt (fun x => p x || q x) k = cnt p k + cnt q k.
Proof.
  intros H. induction k as [|k IH]; cbn [cnt]; [reflexivity|]. rewrite IH.
  destruct (p (N.of_nat k)) eqn:E1, (q (N.of_nat k)) eqn:E2; cbn [orb]; try lia. destruct (H _ E1 E2).
Qed.
Lemma cnt_all p k : (forall x, x < N.of_nat k -> p x = true) -> cnt p k = N.of_nat k.
Proof.
  induction k as [|k IH]; intros H; cbn [cnt]; [reflexivity|]. rewrite IH by (intros; apply H; lia).
  rewrite H by lia. lia.
Qed.
Definition total (cs : list chunk) : N := fold_right (fun c s => len c + s) 0 cs.
Lemma total_cnt n cs : NoDup cs -> (forall c, In c cs -> offset c + len c <= n) ->
  (forall c c' x, In c cs -> In c' cs -> covers c x = true -> covers c' x = true -> c = c') ->
  total cs = cnt (fun x => existsb (fun c => covers c x) cs) (N.to_nat n).
Proof.
  induction cs as [|c cs IH]; intros Hn He Hd; cbn [total fold_right existsb].
  - induction (N.to_nat n); cbn [cnt]; lia.
  - inversion Hn as [|? ? H1 H2]; subst. rewrite (cnt_or (covers c) (fun x => existsb (fun c => covers c x) cs)).
    + fold (total cs). rewrite IH; auto.
      * rewrite cnt_covers. pose proof (He c (or_introl eq_refl)). lia.
      * intros; apply He; now right.
      * intros a a' x Ha Ha'. apply Hd; now right.
    + intros x X X'. apply existsb_exists in X' as (c' & Hc' & X'). apply H1.
      rewrite (Hd c c' x); auto; [now left|now right].
Qed.
Lemma cache_total m : NoDup (map fst m) -> (forall c d, cache_match c m = Some d -> N.of_nat (length d) = len c) ->
  cache_size m = total (map fst m).
Proof.
  induction m as [|[c d] m IH]; intros Hn H; cbn [cache_size total map fold_right fst snd]; [reflexivity|].
  fold (cache_size m) (total (map fst m)). inversion Hn as [|? ? H1 H2]; subst. rewrite IH; auto.
  - rewrite (H c d); [reflexivity|]. cbn [cache_match]. now rewrite eqb_chunk_refl.
  - intros c' d' E. apply H. cbn [cache_match]. destruct (chunk_eqb c' c) eqn:Ec; [|exact E]. exfalso. apply eqb_chunk in Ec as ->.
    apply H1. apply match_keys. congruence.
Qed.

(** ** Nothing is left to do *)
Lemma loop_nothing n l cs : forall covered, norm covered -> NoDup cs ->
  (forall c, In c cs -> 0 < len c /\ offset c + len c <= n) ->
  (forall c c' x, In c cs -> In c' cs -> covers c x = true -> covers c' x = true -> c = c') ->
  (forall c x, In c cs -> covers c x = true -> ~ in_rs x covered) ->
  open_loop (rs_of (0, n)) l covered cs = [].
Proof.
  induction cs as [|c cs IH]; intros covered Hn Hu He Hd Hc; cbn [open_loop]; [reflexivity|].
  destruct (He c (or_introl eq_refl)) as [L1 L2]. inversion Hu as [|? ? U1 U2]; subst.
  destruct (rs_disjoint _ _) eqn:Ed.
  { apply (file_disjoint n) in Ed; [lia|]. now left. }
  assert (rs_of (crange c) = [(offset c, offset c + len c)]) as Er.
  { unfold rs_of. cbn [crange fst snd]. assert (offset c <? offset c + len c = true) as -> by (apply N.ltb_lt; lia). reflexivity. }
  assert (rs_minus (rs_of (crange c)) covered = rs_of (crange c)) as ->.
  { rewrite Er. unfold rs_minus. cbn [flat_map fst snd]. rewrite app_nil_r. apply cut_whole; [lia|exact Hn|].
    intros x Hx. apply (Hc c x); [now left|]. now apply covers_iff. }
  rewrite (proj2 (rs_eqb_iff _ _) eq_refl). cbn [app]. apply IH; auto.
  - now apply union_norm.
  - intros; apply He; now right.
  - intros a a' x Ha Ha'. apply Hd; now right.
  - intros a x Ha X F. apply union_in in F as [F|F]; [|exact (Hc a x (or_intror Ha) X F)].
    apply U1. rewrite (Hd c a x); auto; [now left|now right|]. now apply covers_iff.
Qed.
Theorem tidy_safe f : tidied f -> exists n, gapless f n /\ forall t r g, tidy t f = (r, g) ->
  (r = Ok tt \/ r = Err) /\ gapless g n /\
  (forall t1 t2 s e d d', s <= e -> e <= n -> raw_now f t1 s e = Ok d -> raw_now g t2 s e = Ok d' -> d = d') /\
  (r = Ok tt -> (forall x, stored g x -> x < n) /\ cache_size (w_cache g) = n /\ open_plan (w_chunks g) = []).
Proof.
  intros H. apply tidied_fit in H. destruct H as [W Hk].
  destruct (file_range_spec f) as (n & En & Hn). apply (gapless_cov f n W) in Hn. exists n. split; [exact Hn|].
  intros t r g E. unfold tidy in E. pose proof E as Ef. unfold open_plan in E. rewrite En in E.
  set (f0 := with_faults t f) in *.
  assert (fit f0) as F0 by (apply fit_faults; now split).
  assert (inv n (next_level (w_chunks f)) f0 [] (rev (w_chunks f))) as I.
  { change (w_chunks f) with (w_chunks f0). apply inv_start; [apply F0|exact Hn]. }
  pose proof (desc_rev _ (wf_sorted _ W)) as Hd.
  apply (loop_ok n _ _ _ _ _ _ I Hd) in E as (G & K & R).
  assert (gapless g n) as Hg by (apply (kept_gapless n f0 g); [apply F0|exact Hn|exact K]).
  assert (fit g) as [Wg Ng] by (apply (plan_fit _ (open_op _ _ _ _) _ _ _ F0 Ef)).
  split; [destruct G as [->|([] & ->)]; auto|]. split; [exact Hg|]. split.
  - intros t1 t2 s e d d' Hse He. apply (raw_same n); auto. apply K.
  - intros Hr. destruct (R Hr) as (covered & [_ Cn _ Cb _ Cd Cj]).
    assert (forall c, In c (w_chunks g) -> 0 < len c /\ offset c + len c <= n) as He.
    { intros c Hc. destruct (Cd c Hc) as (L & X & _); [intros []|]. split; [exact L|].
      assert (offset c + (len c - 1) < n); [|lia]. apply Cb, X. apply covers_iff. lia. }
    assert (forall x, stored g x -> x < n) as Hst.
    { intros x Hx. apply stored_cov in Hx as (c & Hc & Hx); [|exact Wg]. apply Cb. now apply (Cd c). }
    split; [exact Hst|]. split.
    + rewrite cache_total; [|exact Ng|apply Wg].
      assert (forall c, In c (map fst (w_cache g)) <-> In c (w_chunks g)) as Hkeys.
      { intros c. rewrite <- match_keys. symmetry. apply (wf_keys _ Wg). }
      rewrite (total_cnt n); [|exact Ng| |].
      * rewrite cnt_all; [lia|]. intros x Hx. apply gapless_cov in Hg as [Hg _]; [|exact Wg].
        destruct (Hg x ltac:(lia)) as (c & Hc & Hcx). apply existsb_exists. exists c. split; [now apply Hkeys|exact Hcx].
      * intros c Hc. apply He. now apply Hkeys.
      * intros c c' x Hc Hc'. apply Cj; auto; now apply Hkeys.
    + unfold open_plan. rewrite (gapless_range g n Wg Hg). apply loop_nothing.
      * exact Logic.I.
      * apply NoDup_rev, sorted_nodup, Wg.
      * intros c Hc. apply He. now apply in_rev.
      * intros c c' x Hc Hc'. apply in_rev in Hc, Hc'. apply Cj; auto.
      * intros c x _ _. apply in_nil.
Qed.

(** ** Without faults it succeeds *)
Lemma cut_weight l s : forall a b, norm s -> weight (map (fun p => WRewrite (chunk_new p l)) (rs_cut a b s)) <= b - a.
Proof.
  assert (forall a b, weight (map (fun p => WRewrite (chunk_new p l)) (rs_of (a, b))) = b - a) as P.
  { intros a b. unfold rs_of. cbn [fst snd]. destruct (N.ltb_spec a b) as [A|A]; cbn [map weight fold_right opw chunk_new len fst snd]; lia. }
  induction s as [|[c d] s IH]; intros a b Hs; cbn [rs_cut].
  - rewrite P. lia.
  - destruct Hs as (S1 & _ & S3). cbn [fst snd] in S1. rewrite map_app, weight_app, P. destruct (N.le_gt_cases b (N.max a d)) as [A|A].
    + rewrite cut_empty by exact A. cbn. lia.
    + pose proof (IH (N.max a d) b S3). lia.
Qed.
Lemma open_weight file l cs : forall covered, norm covered -> weight (open_loop file l covered cs) <= lens cs.
Proof.
  induction cs as [|c cs IH]; intros covered Hn; cbn [open_loop]; [reflexivity|]. rewrite lens_cons.
  destruct (rs_disjoint _ _).
  - rewrite weight_cons. pose proof (IH covered Hn). cbn [opw]. lia.
  - rewrite weight_app. pose proof (IH _ (union_norm covered (crange c) Hn)) as H.
    assert (weight (if rs_eqb (rs_minus (rs_of (crange c)) covered) (rs_of (crange c)) then []
      else map (fun p => WRewrite (chunk_new p l)) (rs_minus (rs_of (crange c)) covered) ++ [WDelete c]) <= len c); [|lia].
    destruct (rs_eqb _ _); [cbn; lia|]. rewrite weight_app. change (weight [WDelete c]) with 0.
    unfold rs_minus, rs_of. destruct (fst (crange c) <? snd (crange c)); cbn [flat_map map weight fold_right]; [|lia].
    rewrite app_nil_r. pose proof (cut_weight l covered (fst (crange c)) (snd (crange c)) Hn) as K. change (fst (crange c)) with (offset c) in *. change (snd (crange c)) with (offset c + len c) in *.  fold (weight (map (fun p => WRewrite (chunk_new p l)) (rs_cut (offset c) (offset c + len c) covered))). lia.
Qed.
Lemma open_fits B file l cs : forall covered, (forall c, In c cs -> offset c + len c <= B) ->
  Forall (op_fits B) (open_loop file l covered cs).
Proof.
  induction cs as [|c cs IH]; intros covered H; cbn [open_loop]; [constructor|].
  assert (forall covered, Forall (op_fits B) (open_loop file l covered cs)) as R by (intros; apply IH; intros; apply H; now right).
  destruct (rs_disjoint _ _); [constructor; [exact Logic.I|apply R]|]. apply Forall_app. split; [|apply R].
  destruct (rs_eqb _ _); [constructor|]. apply Forall_app. split; [|constructor; [exact Logic.I|constructor]].
  apply Forall_forall. intros o Ho. apply in_map_iff in Ho as (p & <- & Hp). unfold rs_minus in Hp. apply in_flat_map in Hp as (r & Hr & Hp).
  unfold rs_of in Hr. destruct (_ <? _); [|destruct Hr]. destruct Hr as [<-|[]]. apply cut_piece in Hp.
  pose proof (H c (or_introl eq_refl)). cbn [op_fits chunk_new offset len]. cbn [crange fst snd] in Hp. lia.
Qed.
Lemma lens_app a b : lens (a ++ b) = lens a + lens b.
Proof. induction a as [|c a IH]; cbn [app]; [reflexivity|]. rewrite !lens_cons, IH. lia. Qed.
Lemma lens_rev cs : lens (rev cs) = lens cs.
Proof. induction cs as [|c cs IH]; cbn [rev]; [reflexivity|]. rewrite lens_app, !lens_cons, IH. cbn [lens fold_right]. lia. Qed.

Theorem tidy_accepts f : tidied f -> (forall c, cache_match c (w_cache f) <> None -> offset c + len c < i32_lim) ->
  cache_size (w_cache f) < 2305843009213693952 -> exists g, tidy [] f = (Ok tt, g).
Proof.
  intros H Hc Hq. apply tidied_fit in H. destruct (fit_faults [] f H) as [W _]. unfold tidy.
  assert (ends (i32_lim - 1) (with_faults [] f)) as HB.
  { intros c Hi. apply (wf_keys _ W) in Hi. apply Hc in Hi. lia. }
  destruct (plan_accepts (i32_lim - 1) ltac:(reflexivity) (open_plan (w_chunks f)) (with_faults [] f)) as (g & E & _);
    [exact W|exact HB|reflexivity| | |now exists g].
  - unfold open_plan. apply open_fits. intros c Hi. apply in_rev in Hi. now apply HB.
  - unfold open_plan. pose proof (open_weight (rs_of (get_file_range (map crange (w_chunks f)))) (next_level (w_chunks f)) (rev (w_chunks f)) [] Logic.I) as K.
    rewrite lens_rev in K. pose proof (wf_lens _ W) as L. change (w_chunks (with_faults [] f)) with (w_chunks f) in L.
    change (w_cache (with_faults [] f)) with (w_cache f) in *. unfold quota. lia.
Qed.

Lemma run_tidied cs : forall f rs g, tidied f -> run cs f = (rs, g) -> tidied g.
Proof.
  induction cs as [|c cs IH]; intros f rs g H E; cbn [run] in E; [injection E as _ <-; exact H|].
  destruct (step c f) as [r f1] eqn:E1. destruct (run cs f1) as [rs' f2] eqn:E2. injection E as _ <-.
  apply (IH f1 rs'); [|exact E2]. exact (T_step _ _ _ _ H E1).
Qed.
