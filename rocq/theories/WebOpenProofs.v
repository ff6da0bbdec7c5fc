(** Proofs about tidying up a file in the browser cache. *)
From Coq Require Import Sorted.
From Verif Require Import Base BaseLemmas Header Node Store U64 File Chunk ChunkProofs WebFile WebProofs WebPlans WebSpec WebTop
  WebOpen WebOpenSpec.
Local Open Scope N_scope.

(** ** Sets of ranges *)
Definition in_rs (x : N) (s : rset) : Prop := exists r, In r s /\ fst r <= x < snd r.
Fixpoint norm (s : rset) : Prop :=
  match s with
  | [] => True
  | r :: t => fst r < snd r /\ (forall q, In q t -> snd r < fst q) /\ norm t
  end.
Lemma in_nil x : ~ in_rs x [].
Proof. intros (r & [] & _). Qed.
Lemma in_cons x r s : in_rs x (r :: s) <-> fst r <= x < snd r \/ in_rs x s.
Proof.
  split.
  - intros (q & [<-|H] & Hx); [now left|right; now exists q].
  - intros [H|(q & H & Hx)]; [exists r|exists q]; (split; [|assumption]); [now left|now right].
Qed.
Lemma in_app x s t : in_rs x (s ++ t) <-> in_rs x s \/ in_rs x t.
Proof.
  induction s as [|r s IH]; cbn [app].
  - split; [now right|]. intros [H|H]; [destruct (in_nil _ H)|exact H].
  - rewrite !in_cons, IH. tauto.
Qed.
Lemma in_of x r : in_rs x (rs_of r) <-> fst r <= x < snd r.
Proof.
  unfold rs_of. destruct (N.ltb_spec (fst r) (snd r)) as [A|A].
  - rewrite in_cons. split; [|now left]. intros [H|H]; [exact H|destruct (in_nil _ H)].
  - split; [intros H; destruct (in_nil _ H)|lia].
Qed.
Lemma norm_of r : norm (rs_of r).
Proof.
  unfold rs_of. destruct (N.ltb_spec (fst r) (snd r)) as [A|A]; [|exact Logic.I].
  split; [exact A|]. split; [intros ? []|exact Logic.I].
Qed.

Lemma add_in x s : forall a b, in_rs x (rs_add a b s) <-> a <= x < b \/ in_rs x s.
Proof.
  induction s as [|[c d] s IH]; intros a b; cbn [rs_add].
  - rewrite in_cons. reflexivity.
  - destruct (N.ltb_spec b c) as [A|A]; [apply (in_cons x (a, b))|].
    destruct (N.ltb_spec d a) as [A'|A']; rewrite ?in_cons, IH; cbn [fst snd]; [tauto|].
    assert (N.min a c <= x < N.max b d <-> a <= x < b \/ c <= x < d) by lia. tauto.
Qed.
Lemma add_low L s : forall a b, L < a -> (forall q, In q s -> L < fst q) -> forall r, In r (rs_add a b s) -> L < fst r.
Proof.
  induction s as [|[c d] s IH]; intros a b Ha Hs r Hr; cbn [rs_add] in Hr.
  - destruct Hr as [<-|[]]. exact Ha.
  - pose proof (Hs (c, d) (or_introl eq_refl)) as Hc. cbn [fst] in Hc.
    destruct (b <? c); [destruct Hr as [<-|Hr]; [exact Ha|now apply Hs]|].
    destruct (d <? a).
    + destruct Hr as [<-|Hr]; [exact Hc|]. apply (IH a b); auto. intros; apply Hs; now right.
    + apply (IH (N.min a c) (N.max b d)); auto; [lia|]. intros; apply Hs; now right.
Qed.
Lemma add_norm s : forall a b, a < b -> norm s -> norm (rs_add a b s).
Proof.
  induction s as [|[c d] s IH]; intros a b Hab Hs; cbn [rs_add].
  - split; [exact Hab|]. split; [intros ? []|exact Logic.I].
  - destruct Hs as (S1 & S2 & S3). cbn [fst snd] in *.
    destruct (N.ltb_spec b c) as [A|A].
    + split; [exact Hab|]. split; [|repeat split; assumption]. cbn [snd]. intros q [<-|Hq]; [exact A|].
      pose proof (S2 q Hq). cbn [fst snd] in *. lia.
    + destruct (N.ltb_spec d a) as [A'|A'].
      * split; [exact S1|]. split; [|now apply IH]. cbn [snd]. intros q Hq. now apply (add_low d s a b A').
      * apply IH; [lia|exact S3].
Qed.
Lemma union_of s r : rs_union s (rs_of r) = if fst r <? snd r then rs_add (fst r) (snd r) s else s.
Proof. unfold rs_union, rs_of. now destruct (fst r <? snd r). Qed.
Lemma union_in x s r : in_rs x (rs_union s (rs_of r)) <-> fst r <= x < snd r \/ in_rs x s.
Proof.
  rewrite union_of. destruct (N.ltb_spec (fst r) (snd r)) as [A|A]; [apply add_in|].
  split; [now right|]. intros [H|H]; [lia|exact H].
Qed.
Lemma union_norm s r : norm s -> norm (rs_union s (rs_of r)).
Proof. rewrite union_of. intros H. destruct (N.ltb_spec (fst r) (snd r)); [now apply add_norm|exact H]. Qed.

Lemma cut_piece s : forall a b p, In p (rs_cut a b s) -> a <= fst p /\ fst p < snd p /\ snd p <= b.
Proof.
  assert (forall a b p, In p (rs_of (a, b)) -> fst p = a /\ snd p = b /\ a < b) as P.
  { intros a b p H. unfold rs_of in H. cbn [fst snd] in H. destruct (N.ltb_spec a b) as [A|A]; [|contradiction].
    destruct H as [<-|[]]. auto. }
  induction s as [|[c d] s IH]; intros a b p H; cbn [rs_cut] in H.
  - apply P in H. lia.
  - apply in_app_or in H as [H|H]; [apply P in H; lia|]. apply IH in H. lia.
Qed.
Lemma cut_in x s : forall a b, norm s -> in_rs x (rs_cut a b s) <-> a <= x < b /\ ~ in_rs x s.
Proof.
  induction s as [|[c d] s IH]; intros a b Hs; cbn [rs_cut].
  - rewrite in_of. cbn [fst snd]. split; [|tauto]. intros H. split; [exact H|apply in_nil].
  - destruct Hs as (S1 & S2 & S3). cbn [fst snd] in *. rewrite in_app, in_of, in_cons, IH by exact S3. cbn [fst snd].
    assert (x < d -> ~ in_rs x s) as F.
    { intros Hx (q & Hq & Hq'). pose proof (S2 q Hq). lia. }
    split.
    + intros [H|[H1 H2]]; [split; [lia|]; intros [G|G]; [lia|]; apply F in G; [exact G|lia]|].
      split; [lia|]. intros [G|G]; [lia|contradiction].
    + intros [H1 H2]. destruct (N.lt_ge_cases x c) as [A|A]; [left; lia|]. right.
      split; [|intros G; apply H2; now right]. destruct (N.lt_ge_cases x d); [exfalso; apply H2; left; lia|lia].
Qed.
Lemma cut_unique x s : forall a b p q, norm s -> In p (rs_cut a b s) -> In q (rs_cut a b s) ->
  fst p <= x < snd p -> fst q <= x < snd q -> p = q.
Proof.
  assert (forall a b p q, In p (rs_of (a, b)) -> In q (rs_of (a, b)) -> p = q) as P.
  { intros a b p q H H'. unfold rs_of in *. destruct (_ <? _); [|contradiction]. destruct H as [<-|[]], H' as [<-|[]]. reflexivity. }
  assert (forall a b p, In p (rs_of (a, b)) -> fst p = a /\ snd p = b /\ a < b) as P2.
  { intros a b p H. unfold rs_of in H. cbn [fst snd] in H. destruct (N.ltb_spec a b) as [A|A]; [|contradiction].
    destruct H as [<-|[]]. auto. }
  induction s as [|[c d] s IH]; intros a b p q Hs Hp Hq Xp Xq; cbn [rs_cut] in *.
  - now apply (P a b).
  - destruct Hs as (S1 & S2 & S3). cbn [fst snd] in *.
    apply in_app_or in Hp as [Hp|Hp]; apply in_app_or in Hq as [Hq|Hq].
    + now apply (P a (N.min b c)).
    + exfalso. apply P2 in Hp. apply cut_piece in Hq. lia.
    + exfalso. apply P2 in Hq. apply cut_piece in Hp. lia.
    + now apply (IH (N.max a d) b).
Qed.
Lemma cut_empty s : forall a b, b <= a -> rs_cut a b s = [].
Proof.
  assert (forall a b, b <= a -> rs_of (a, b) = []) as P.
  { intros a b H. unfold rs_of. cbn [fst snd]. apply N.ltb_ge in H. now rewrite H. }
  induction s as [|[c d] s IH]; intros a b H; cbn [rs_cut]; [now apply P|].
  rewrite P by lia. apply IH. lia.
Qed.
Lemma cut_whole s : forall a b, a < b -> norm s -> (forall x, a <= x < b -> ~ in_rs x s) -> rs_cut a b s = [(a, b)].
Proof.
  induction s as [|[c d] s IH]; intros a b Hab Hs H; cbn [rs_cut].
  - unfold rs_of. cbn [fst snd]. apply N.ltb_lt in Hab. now rewrite Hab.
  - destruct Hs as (S1 & S2 & S3). cbn [fst snd] in *.
    assert (d <= a \/ b <= c) as [A|A].
    { destruct (N.le_gt_cases d a) as [A|A]; [now left|]. destruct (N.le_gt_cases b c) as [A'|A']; [now right|]. exfalso.
      apply (H (N.max a c)); [lia|]. apply in_cons. left. cbn [fst snd]. lia. }
    + replace (N.max a d) with a by lia. rewrite IH; auto.
      * unfold rs_of. cbn [fst snd]. assert (a <? N.min b c = false) as -> by (apply N.ltb_ge; lia). reflexivity.
      * intros x Hx G. apply (H x Hx). apply in_cons. now right.
    + rewrite cut_empty by lia. replace (N.min b c) with b by lia. unfold rs_of. cbn [fst snd].
      apply N.ltb_lt in Hab. now rewrite Hab.
Qed.
Lemma rs_eqb_iff s : forall t, rs_eqb s t = true <-> s = t.
Proof.
  induction s as [|[a b] s IH]; intros [|[c d] t]; cbn [rs_eqb]; try (split; congruence).
  cbn [fst snd]. rewrite !andb_true_iff, !N.eqb_eq, IH. split; [now intros [[-> ->] ->]|].
  intros H. injection H as -> -> ->. auto.
Qed.

(** ** The length without gaps *)
Definition cov (f : wfile) (x : N) : Prop := exists c, In c (w_chunks f) /\ covers c x = true.

Lemma fold_union l : forall s x, in_rs x (fold_left (fun a b => rs_union a (rs_of b)) l s) <->
  in_rs x s \/ exists r, In r l /\ fst r <= x < snd r.
Proof.
  induction l as [|r l IH]; intros s x; cbn [fold_left].
  - split; [now left|]. intros [H|(r & [] & _)]. exact H.
  - rewrite IH, union_in. split.
    + intros [[H|H]|(q & H & H')]; [right; exists r|now left|right; exists q]; cbn; auto.
    + intros [H|(q & [->|H] & H')]; [auto|auto|]. right. eauto.
Qed.
Lemma fold_union_norm l : forall s, norm s -> norm (fold_left (fun a b => rs_union a (rs_of b)) l s).
Proof. induction l as [|r l IH]; intros s H; cbn [fold_left]; [exact H|]. now apply IH, union_norm. Qed.

Lemma cov_ranges f x : cov f x <-> exists r, In r (map crange (w_chunks f)) /\ fst r <= x < snd r.
Proof.
  split.
  - intros (c & H & Hx). exists (crange c). split; [now apply in_map|]. now apply covers_iff in Hx.
  - intros (r & H & Hx). apply in_map_iff in H as (c & <- & H). exists c. split; [exact H|]. apply covers_iff. exact Hx.
Qed.
Lemma file_range_spec f : exists n, get_file_range (map crange (w_chunks f)) = (0, n) /\ (forall x, x < n -> cov f x) /\ ~ cov f n.
Proof.
  unfold get_file_range. set (s := fold_left _ _ _).
  assert (norm s) as Hn by (apply fold_union_norm; exact Logic.I).
  assert (forall x, in_rs x s <-> cov f x) as Hi.
  { intros x. unfold s. rewrite fold_union, cov_ranges. split; [|now right]. intros [H|H]; [destruct (in_nil _ H)|exact H]. }
  clearbody s. destruct s as [|[a e] s].
  - exists 0. split; [reflexivity|]. split; [lia|]. rewrite <- Hi. apply in_nil.
  - destruct Hn as (N1 & N2 & N3). cbn [fst snd] in *. destruct a as [|a].
    + exists e. split; [reflexivity|]. split.
      * intros x Hx. apply Hi, in_cons. left. cbn. lia.
      * rewrite <- Hi, in_cons. cbn [fst snd]. intros [H|(q & Hq & H)]; [lia|]. apply N2 in Hq. lia.
    + exists 0. split; [reflexivity|]. split; [lia|]. rewrite <- Hi, in_cons. cbn [fst snd].
      intros [H|(q & Hq & H)]; [lia|]. apply N2 in Hq. lia.
Qed.

(** ** Rewriting pieces *)
Lemma ends_exists f K : exists B, ends B f /\ K <= B.
Proof.
  unfold ends. generalize (w_chunks f). intros cs. induction cs as [|c cs (B & H & HK)].
  - exists K. split; [intros ? []|lia].
  - exists (N.max B (offset c + len c)). split; [|lia]. intros c' [->|Hc]; [lia|]. apply H in Hc. lia.
Qed.
Definition piece (l : N) (p : range) : chunk := chunk_new p l.
Lemma piece_covers l p x : fst p < snd p -> covers (piece l p) x = true <-> fst p <= x < snd p.
Proof. intros H. rewrite covers_iff. unfold piece, chunk_new. cbn [offset len]. lia. Qed.

Lemma rewrites_ok l tail ps : forall f q g, wf f -> execute_plan (map (fun p => WRewrite (chunk_new p l)) ps ++ tail) f = (q, g) ->
  exists q1 f1, good_res q1 /\ wf f1 /\ (forall x, vis f1 x = vis f x) /\
    (forall c, In c (w_chunks f) -> In c (w_chunks f1)) /\
    (forall c, In c (w_chunks f1) -> In c (w_chunks f) \/ exists p, In p ps /\ c = piece l p) /\
    (q1 = Err /\ q = Err /\ g = f1 \/
     q1 = Ok tt /\ (forall p, In p ps -> In (piece l p) (w_chunks f1)) /\ execute_plan tail f1 = (q, g)).
Proof.
  induction ps as [|p ps IH]; intros f q g W E.
  - exists (Ok tt), f. split; [right; eauto|]. split; [exact W|]. split; [reflexivity|]. split; [auto|]. split; [auto|].
    right. split; [reflexivity|]. split; [intros ? []|exact E].
  - cbn [map app] in E. apply execute_cons in E as (q1 & g1 & E1 & E).
    destruct (ends_exists f (offset (chunk_new p l) + len (chunk_new p l))) as (B & HB & HK).
    apply (rewrite_ok (vis f) B) in E1 as (G & K & M1 & M2 & M3); [|split; [exact W|]; split; [reflexivity|exact HB]|exact HK].
    destruct K as (W1 & V1 & _). destruct (E G) as [(-> & -> & ->)|(-> & E')].
    + exists Err, g1. split; [now left|]. split; [exact W1|]. split; [exact V1|]. split; [exact M1|]. split; [|now left].
      intros c Hc. apply M2 in Hc as [->|Hc]; [right; exists p; split; [now left|reflexivity]|now left].
    + apply IH in E' as (q2 & f2 & G2 & W2 & V2 & P1 & P2 & P3); [|exact W1].
      exists q2, f2. split; [exact G2|]. split; [exact W2|]. split; [intros x; now rewrite V2|].
      split; [intros c Hc; apply P1, M1, Hc|]. split.
      * intros c Hc. apply P2 in Hc as [Hc|(p' & Hp & ->)]; [|right; exists p'; split; [now right|reflexivity]].
        apply M2 in Hc as [->|Hc]; [right; exists p; split; [now left|reflexivity]|now left].
      * destruct P3 as [P3|(-> & P3 & P4)]; [now left|]. right. split; [reflexivity|]. split; [|exact P4].
        intros p' [<-|Hp]; [|auto]. apply P1. destruct M3 as [F|M3]; [discriminate|exact M3].
Qed.

Lemma delete_any c f q g : wf f -> exec_op (WDelete c) f = (q, g) ->
  q = Err /\ wf g /\ (forall x, vis g x = vis f x) /\ (forall a, In a (w_chunks g) <-> In a (w_chunks f)) \/
  q = Ok tt /\ wf g /\
    (forall x, (covers c x = true -> exists c', In c' (w_chunks f) /\ covers c' x = true /\ clt c c') -> vis g x = vis f x) /\
    (forall a, In a (w_chunks g) <-> In a (w_chunks f) /\ a <> c).
Proof.
  intros W E. apply delete_cases in E as [[-> S]|[-> S]].
  - left. split; [reflexivity|]. split; [now apply (same_wf f)|]. split; [intros x; symmetry; now apply same_vis|].
    intros a. now rewrite (proj1 S).
  - right. split; [reflexivity|]. split; [apply (same_wf (del_file c f)); [exact S|now apply del_wf]|]. split.
    + intros x H. rewrite <- (same_vis _ _ S). now apply del_vis.
    + intros a. rewrite <- (proj1 S). cbn [del_file w_chunks]. apply set_remove_in.
Qed.

(** ** The loop *)
Section Loop.
Context (n l : N).
Let file := rs_of (0, n).

Definition desc (cs : list chunk) : Prop := forall a c b, cs = a ++ c :: b -> forall x, In x b -> clt x c.
(** [c] lies before or after the end [n]. *)
Definition split_at (c : chunk) : Prop := offset c + len c <= n \/ n < offset c \/ len c = 0.

Record inv (f : wfile) (covered : rset) (rest : list chunk) : Prop := {
  i_wf : wf f;
  i_norm : norm covered;
  i_rest : forall c, In c rest -> In c (w_chunks f) /\ level c < l /\ split_at c;
  i_below : forall x, in_rs x covered -> x < n;
  i_cov : forall x, in_rs x covered -> exists c, In c (w_chunks f) /\ ~ In c rest /\ covers c x = true;
  i_done : forall c, In c (w_chunks f) -> ~ In c rest ->
    0 < len c /\ (forall x, covers c x = true -> in_rs x covered) /\ forall r, In r rest -> clt r c;
  i_disj : forall c c' x, In c (w_chunks f) -> ~ In c rest -> In c' (w_chunks f) -> ~ In c' rest ->
    covers c x = true -> covers c' x = true -> c = c' }.

(** What has to hold even when the plan is stopped. *)
Definition kept (f g : wfile) : Prop :=
  wf g /\ (forall x, x < n -> vis g x = vis f x) /\ (forall x, x < n -> cov f x -> cov g x) /\
  (forall x, n <= x -> cov g x -> cov f x).
Lemma kept_refl f : wf f -> kept f f.
Proof. intros W. split; [exact W|]. split; [auto|]. split; auto. Qed.
Lemma kept_trans f g h : kept f g -> kept g h -> kept f h.
Proof.
  intros (_ & A1 & A2 & A3) (W & B1 & B2 & B3). split; [exact W|]. split; [|split].
  - intros x Hx. rewrite B1, A1; auto.
  - intros x Hx H. auto.
  - intros x Hx H. auto.
Qed.

Lemma file_disjoint c : split_at c -> rs_disjoint (rs_of (crange c)) file = true <-> len c = 0 \/ n <= offset c.
Proof.
  intros Hc. unfold rs_disjoint, file, rs_of. cbn [crange fst snd].
  destruct (N.ltb_spec (offset c) (offset c + len c)) as [A|A].
  - destruct (N.ltb_spec 0 n) as [A'|A']; cbn [forallb].
    + rewrite !andb_true_r, negb_true_iff. unfold overlap. cbn [fst snd]. rewrite negb_false_iff, orb_true_iff, !N.leb_le.
      cbn [crange fst snd]. lia.
    + cbn. split; [intros _; lia|reflexivity].
  - cbn. split; [intros _; lia|reflexivity].
Qed.

Lemma loop_ok rest : forall f covered q g, inv f covered rest -> desc rest ->
  execute_plan (open_loop file l covered rest) f = (q, g) ->
  good_res q /\ kept f g /\ (q = Ok tt -> exists covered', inv g covered' []).
Proof.
  induction rest as [|c rest IH]; intros f covered q g I D E.
  - cbn in E. apply wret_inv in E as [-> ->]. split; [right; eauto|]. split; [apply kept_refl, I|].
    intros _. now exists covered.
  - cbn [open_loop] in E. pose proof I as [W Hn Hr Hb Hc Hd Hj].
    destruct (Hr c (or_introl eq_refl)) as (Cin & Clev & Csp).
    assert (forall x, In x rest -> clt x c) as Hlt by (intros x Hx; exact (D [] c rest eq_refl x Hx)).
    assert (~ In c rest) as Hnc by (intros F; exact (clt_irrefl _ (Hlt _ F))).
    assert (desc rest) as D' by (intros a c' b -> x Hx; exact (D (c :: a) c' b eq_refl x Hx)).
    destruct (rs_disjoint (rs_of (crange c)) file) eqn:Ed.
    + (* behind the end *)
      apply file_disjoint in Ed; [|exact Csp].
      assert (forall x, covers c x = true -> n <= x) as Hcx by (intros x Hx; apply covers_iff in Hx; lia).
      apply execute_cons in E as (q1 & g1 & E1 & E).
      destruct (delete_any c f q1 g1 W E1) as [(-> & W1 & V1 & M)|(-> & W1 & V1 & M)].
      * destruct (E ltac:(now left)) as [(_ & -> & ->)|(F & _)]; [|discriminate].
        split; [now left|]. split; [|discriminate]. split; [exact W1|]. split; [auto|]. split.
        -- intros x _ (a & Ha & Hx). exists a. now rewrite M.
        -- intros x _ (a & Ha & Hx). exists a. now rewrite <- M.
      * destruct (E ltac:(right; eauto)) as [(F & _)|(_ & E')]; [discriminate|].
        assert (kept f g1) as K1.
        { split; [exact W1|]. split; [|split].
          - intros x Hx. apply V1. intros F. apply Hcx in F. lia.
          - intros x Hx (a & Ha & Hax). exists a. split; [|exact Hax]. apply M. split; [exact Ha|].
            intros ->. apply Hcx in Hax. lia.
          - intros x _ (a & Ha & Hax). exists a. split; [|exact Hax]. now apply M. }
        apply IH in E' as (G & K2 & R); [|constructor; auto|exact D'].
        -- split; [exact G|]. split; [exact (kept_trans _ _ _ K1 K2)|exact R].
        -- intros a Ha. destruct (Hr a (or_intror Ha)) as (A1 & A2 & A3). split; [|now split].
           apply M. split; [exact A1|]. intros ->. contradiction.
        -- intros x Hx. destruct (Hc x Hx) as (a & A1 & A2 & A3). exists a. split; [|split; [|exact A3]].
           ++ apply M. split; [exact A1|]. intros ->. apply A2. now left.
           ++ intros F. apply A2. now right.
        -- intros a Ha Hna. apply M in Ha as [Ha Hac]. destruct (Hd a Ha) as (B1 & B2 & B3).
           { intros [F|F]; [congruence|contradiction]. }
           split; [exact B1|]. split; [exact B2|]. intros r Hrr. apply B3. now right.
        -- intros a a' x Ha Hna Ha' Hna' X X'. apply M in Ha as [Ha Hac], Ha' as [Ha' Hac'].
           apply (Hj a a' x); auto; intros [F|F]; congruence || contradiction.
    + (* inside the file *)
      assert (0 < len c /\ offset c + len c <= n) as [Cl Ce].
      { assert (~ (len c = 0 \/ n <= offset c)) as F by (rewrite <- (file_disjoint c Csp); congruence).
        destruct Csp as [S1|[S1|S1]]; lia. }
      set (r := rs_of (crange c)) in *.
      assert (r = [(offset c, offset c + len c)]) as Er.
      { unfold r, rs_of. cbn [crange fst snd]. assert (offset c <? offset c + len c = true) as -> by (apply N.ltb_lt; lia). reflexivity. }
      assert (rs_minus r covered = rs_cut (offset c) (offset c + len c) covered) as Em.
      { rewrite Er. unfold rs_minus. cbn [flat_map fst snd]. apply app_nil_r. }
      assert (forall x, in_rs x (rs_union covered r) <-> covers c x = true \/ in_rs x covered) as Hu.
      { intros x. unfold r. rewrite union_in, covers_iff. reflexivity. }
      assert (norm (rs_union covered r)) as Hun by (apply union_norm, Hn).
      assert (forall x, in_rs x (rs_union covered r) -> x < n) as Hub.
      { intros x Hx. apply Hu in Hx as [Hx|Hx]; [apply covers_iff in Hx; lia|auto]. }
      destruct (rs_eqb (rs_minus r covered) r) eqn:Eq.
      * (* nothing of it is covered: it stays *)
        apply rs_eqb_iff in Eq. cbn [app] in E.
        assert (forall x, covers c x = true -> ~ in_rs x covered) as Hfree.
        { intros x Hx. apply covers_iff in Hx. assert (in_rs x (rs_minus r covered)) as F.
          { rewrite Eq, Er. apply in_cons. left. exact Hx. }
          rewrite Em in F. apply cut_in in F; [|exact Hn]. apply F. }
        apply IH in E as (G & K2 & R); [|constructor; auto|exact D'].
        -- split; [exact G|]. split; [exact K2|exact R].
        -- intros a Ha. apply Hr. now right.
        -- intros x Hx. apply Hu in Hx as [Hx|Hx]; [exists c; auto|].
           destruct (Hc x Hx) as (a & A1 & A2 & A3). exists a. split; [exact A1|]. split; [|exact A3].
           intros F. apply A2. now right.
        -- intros a Ha Hna. destruct (chunk_eqb a c) eqn:Eac.
           ++ apply eqb_chunk in Eac as ->. split; [exact Cl|]. split; [|exact Hlt]. intros x Hx. apply Hu. now left.
           ++ apply neqb_chunk in Eac. destruct (Hd a Ha) as (B1 & B2 & B3).
              { intros [F|F]; [congruence|contradiction]. }
              split; [exact B1|]. split; [intros x Hx; apply Hu; right; auto|]. intros y Hy. apply B3. now right.
        -- assert (forall a x, In a (w_chunks f) -> ~ In a rest -> a <> c -> covers a x = true -> covers c x = true -> False) as Hx.
           { intros a x Ha Hna Hac X X'. destruct (Hd a Ha) as (_ & B2 & _).
             { intros [F|F]; [congruence|contradiction]. }
             exact (Hfree x X' (B2 x X)). }
           intros a a' x Ha Hna Ha' Hna' X X'.
           destruct (chunk_eqb a c) eqn:E1, (chunk_eqb a' c) eqn:E2; rewrite ?eqb_chunk, ?neqb_chunk in *.
           ++ congruence.
           ++ subst a. destruct (Hx a' x); auto.
           ++ subst a'. destruct (Hx a x); auto.
           ++ apply (Hj a a' x); auto; intros [F|F]; congruence || contradiction.
      * (* rewritten and deleted *)
        set (ps := rs_minus r covered) in *. rewrite <- app_assoc in E.
        assert (forall p, In p ps -> offset c <= fst p /\ fst p < snd p /\ snd p <= offset c + len c) as Hps.
        { intros p Hp. rewrite Em in Hp. now apply cut_piece in Hp. }
        assert (forall x, in_rs x ps <-> covers c x = true /\ ~ in_rs x covered) as Hpx.
        { intros x. rewrite Em, cut_in by exact Hn. rewrite covers_iff. reflexivity. }
        apply rewrites_ok in E as (q1 & f1 & G1 & W1 & V1 & M1 & M2 & E); [|exact W].
        assert (kept f f1) as K1.
        { split; [exact W1|]. split; [intros; apply V1|]. split.
          - intros x _ (a & Ha & Hax). exists a. auto.
          - intros x Hx (a & Ha & Hax). apply M2 in Ha as [Ha|(p & Hp & ->)]; [now exists a|].
            exfalso. pose proof (Hps p Hp). apply piece_covers in Hax; lia. }
        destruct E as [(-> & -> & ->)|(-> & M3 & E)].
        { split; [now left|]. split; [exact K1|discriminate]. }
        cbn [app] in E. apply execute_cons in E as (q2 & g2 & E2 & E).
        assert (forall x, covers c x = true -> exists c', In c' (w_chunks f1) /\ c' <> c /\ covers c' x = true /\ clt c c') as Hup.
        { intros x Hx. assert (in_rs x covered \/ in_rs x ps) as [F|F].
          { assert (forall s, in_rs x s \/ ~ in_rs x s) as Dec.
            { clear. intros s. induction s as [|p s [IH|IH]]; [right; apply in_nil|left; apply in_cons; now right|].
              destruct (N.le_gt_cases (fst p) x), (N.lt_ge_cases x (snd p)); rewrite in_cons; try (left; lia); right; intros [F|F]; lia || contradiction. }
            destruct (Dec covered) as [F|F]; [now left|]. right. now apply Hpx. }
          - destruct (Hc x F) as (a & A1 & A2 & A3). exists a. split; [auto|]. split; [intros ->; apply A2; now left|]. split; [exact A3|].
            apply (Hd a A1 A2). now left.
          - destruct F as (p & Hp & F). exists (piece l p). split; [auto|]. split; [intros F'; rewrite <- F' in Clev; cbn in Clev; lia|].
            split; [apply piece_covers; [apply Hps in Hp; lia|exact F]|]. apply level_clt. exact Clev. }
        destruct (delete_any c f1 q2 g2 W1 E2) as [(-> & W2 & V2 & M)|(-> & W2 & V2 & M)].
        { destruct (E ltac:(now left)) as [(_ & -> & ->)|(F & _)]; [|discriminate].
          split; [now left|]. split; [|discriminate]. apply (kept_trans _ f1 _ K1). split; [exact W2|]. split; [auto|]. split.
          - intros x _ (a & Ha & Hx). exists a. now rewrite M.
          - intros x _ (a & Ha & Hx). exists a. now rewrite <- M. }
        destruct (E ltac:(right; eauto)) as [(F & _)|(_ & E')]; [discriminate|].
        assert (kept f1 g2) as K2.
        { split; [exact W2|]. split; [|split].
          - intros x Hx. apply V2. intros F. destruct (Hup x F) as (a & A1 & _ & A2 & A3). eauto.
          - intros x Hx (a & Ha & Hax). destruct (chunk_eqb a c) eqn:Eac; rewrite ?eqb_chunk, ?neqb_chunk in Eac.
            + subst a. destruct (Hup x Hax) as (a & A1 & A2 & A3 & _). exists a. split; [apply M; auto|exact A3].
            + exists a. split; [apply M; auto|exact Hax].
          - intros x _ (a & Ha & Hax). exists a. split; [now apply M|exact Hax]. }
        (* the chunks that are settled now *)
        assert (forall a, In a (w_chunks g2) -> ~ In a rest ->
                  In a (w_chunks f) /\ ~ In a (c :: rest) \/ exists p, In p ps /\ a = piece l p) as Hset.
        { intros a Ha Hna. apply M in Ha as [Ha Hac]. apply M2 in Ha as [Ha|Ha]; [left|now right]. split; [exact Ha|].
          intros [F|F]; congruence || contradiction. }
        assert (forall p, In p ps -> ~ In (piece l p) rest) as Hpr.
        { intros p Hp F. destruct (Hr _ (or_intror F)) as (_ & F' & _). cbn in F'. lia. }
        apply IH in E' as (G & K3 & R); [|constructor; auto|exact D'].
        -- split; [exact G|]. split; [|exact R]. exact (kept_trans _ _ _ K1 (kept_trans _ _ _ K2 K3)).
        -- intros a Ha. destruct (Hr a (or_intror Ha)) as (A1 & A2 & A3). split; [|now split].
           apply M. split; [auto|]. intros ->. contradiction.
        -- intros x Hx. assert (covers c x = true \/ in_rs x covered) as [F|F] by now apply Hu.
           ++ destruct (Hup x F) as (a & A1 & A2 & A3 & A4). exists a. split; [apply M; auto|]. split; [|exact A3].
              intros F'. exact (clt_irrefl _ (clt_trans _ _ _ A4 (Hlt _ F'))).
           ++ destruct (Hc x F) as (a & A1 & A2 & A3). exists a. split; [apply M; split; [auto|intros ->; apply A2; now left]|].
              split; [|exact A3]. intros F'. apply A2. now right.
        -- intros a Ha Hna. destruct (Hset a Ha Hna) as [[A1 A2]|(p & Hp & ->)].
           ++ destruct (Hd a A1 A2) as (B1 & B2 & B3). split; [exact B1|]. split; [intros x Hx; apply Hu; right; auto|].
              intros y Hy. apply B3. now right.
           ++ pose proof (Hps p Hp) as P. split; [unfold piece, chunk_new; cbn [len]; lia|]. split.
              ** intros x Hx. apply piece_covers in Hx; [|lia]. apply Hu. left. apply covers_iff. lia.
              ** intros y Hy. apply level_clt. apply (Hr y). now right.
        -- intros a a' x Ha Hna Ha' Hna' X X'.
           assert (forall b p, In b (w_chunks f) -> ~ In b (c :: rest) -> In p ps -> covers b x = true -> covers (piece l p) x = true -> False) as Hno.
           { intros b p B1 B2 Hp Y Y'. destruct (Hd b B1 B2) as (_ & B3 & _). apply piece_covers in Y'; [|apply Hps in Hp; lia].
             assert (in_rs x ps) as F by (exists p; auto). apply Hpx in F. destruct F as [_ F]. apply F. auto. }
           destruct (Hset a Ha Hna) as [[A1 A2]|(p & Hp & ->)], (Hset a' Ha' Hna') as [[A1' A2']|(p' & Hp' & ->)].
           ++ now apply (Hj a a' x).
           ++ destruct (Hno a p'); auto.
           ++ destruct (Hno a' p); auto.
           ++ f_equal. rewrite Em in Hp, Hp'. pose proof (cut_piece _ _ _ _ Hp). pose proof (cut_piece _ _ _ _ Hp').
              apply piece_covers in X; [|lia]. apply piece_covers in X'; [|lia]. now apply (cut_unique x covered (offset c) (offset c + len c)).
Qed.
End Loop.
