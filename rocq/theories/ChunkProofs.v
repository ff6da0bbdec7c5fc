(** Proofs about ranges and names of chunks. *)
From Coq Require Import ZArith.
From Verif Require Import Base BaseLemmas U64 Chunk.
Local Open Scope N_scope.

(** ** Hexadecimal *)
Lemma hex_digit_val n : n < 16 -> digit_val (hex_digit n) = Some n.
Proof.
  intros H.
  assert (n = 0 \/ n = 1 \/ n = 2 \/ n = 3 \/ n = 4 \/ n = 5 \/ n = 6 \/ n = 7 \/ n = 8 \/ n = 9
          \/ n = 10 \/ n = 11 \/ n = 12 \/ n = 13 \/ n = 14 \/ n = 15) as D by lia.
  repeat (destruct D as [->|D]; [reflexivity|]). subst n. reflexivity.
Qed.
Lemma digit_not_sep n : n < 16 -> hex_digit n <> dash /\ hex_digit n <> plus.
Proof.
  intros H. pose proof (hex_digit_val n H) as E.
  split; intros F; rewrite F in E; cbv in E; discriminate.
Qed.
Lemma mod16 x : x mod 16 < 16. Proof. apply N.mod_lt. discriminate. Qed.

Lemma parse_app s : forall acc t n, parse_digits acc s = Ok n ->
  parse_digits acc (s ++ t) = parse_digits n t.
Proof.
  induction s as [|b s IH]; intros acc t n H; cbn [parse_digits app] in *.
  - congruence.
  - destruct (digit_val b); [|discriminate]. destruct (_ <? _); [|discriminate]. now apply IH.
Qed.

Lemma parse_hex_digits k : forall x, x < 16 ^ N.of_nat k -> x < u64_max ->
  parse_digits 0 (hex_digits k x) = Ok x.
Proof.
  induction k as [|k IH]; intros x Hx Hu.
  - cbn in Hx. cbn. f_equal. lia.
  - cbn [hex_digits]. rewrite Nat2N.inj_succ, N.pow_succ_r' in Hx.
    pose proof (N.div_mod x 16 ltac:(discriminate)) as D. pose proof (mod16 x).
    rewrite (parse_app _ _ _ (x / 16)).
    + cbn [parse_digits]. rewrite hex_digit_val by apply mod16.
      replace (x / 16 * 16 + x mod 16) with x by lia.
      apply N.ltb_lt in Hu. now rewrite Hu.
    + apply IH; [apply N.div_lt_upper_bound; [discriminate|lia]|].
      assert (x / 16 <= x) by (generalize dependent (x mod 16); generalize (x / 16); intros; lia). lia.
Qed.

Lemma pow16 a : 16 ^ a = 2 ^ (4 * a).
Proof. now rewrite N.pow_mul_r. Qed.
Lemma hex_width w x : x < 16 ^ N.of_nat (Nat.max w (N.to_nat (N.log2 x / 4 + 1))).
Proof.
  set (k := N.log2 x / 4 + 1).
  assert (x < 16 ^ k) as H.
  { destruct (N.eq_dec x 0) as [->|Hx]; [cbv; reflexivity|].
    rewrite pow16. apply N.log2_lt_pow2; [lia|]. unfold k.
    pose proof (N.div_mod (N.log2 x) 4 ltac:(discriminate)).
    pose proof (N.mod_lt (N.log2 x) 4 ltac:(discriminate)). lia. }
  eapply N.lt_le_trans; [exact H|]. apply N.pow_le_mono_r; [discriminate|]. lia.
Qed.

Lemma hex_digits_chars k : forall x, Forall (fun b => b <> dash /\ b <> plus) (hex_digits k x).
Proof.
  induction k as [|k IH]; intros x; cbn [hex_digits]; [constructor|].
  apply Forall_app. split; [apply IH|]. constructor; [|constructor]. apply digit_not_sep, mod16.
Qed.
Lemma hex_digits_length k : forall x, length (hex_digits k x) = k.
Proof.
  induction k as [|k IH]; intros x; cbn [hex_digits]; [reflexivity|].
  rewrite app_length, IH. cbn. lia.
Qed.

Lemma eqb_neq b c : b <> c -> Byte.eqb b c = false.
Proof. intros H. destruct (Byte.eqb b c) eqn:E; [|reflexivity]. apply Byte.byte_dec_bl in E. contradiction. Qed.
Lemma eqb_same b : Byte.eqb b b = true.
Proof. now apply Byte.byte_dec_lb. Qed.

Lemma parse_hex_ok w x : (0 < w)%nat -> x < u64_max -> parse_hex (hex w x) = Ok x.
Proof.
  intros Hw Hx. unfold hex.
  set (k := Nat.max w (N.to_nat (N.log2 x / 4 + 1))).
  pose proof (hex_digits_length k x) as Hl. pose proof (hex_digits_chars k x) as Hc.
  pose proof (parse_hex_digits k x (hex_width w x) Hx) as Hp.
  destruct (hex_digits k x) as [|b s]; [cbn in Hl; lia|].
  unfold parse_hex. rewrite (eqb_neq b plus) by (inversion Hc; tauto). exact Hp.
Qed.

Lemma split_free sep s : Forall (fun b => b <> sep) s -> split_at sep s = [s].
Proof.
  induction 1 as [|b s Hb Hs IH]; cbn [split_at]; [reflexivity|].
  rewrite (eqb_neq b sep Hb), IH. reflexivity.
Qed.
Lemma split_cons sep s t : Forall (fun b => b <> sep) s ->
  split_at sep (s ++ sep :: t) = s :: split_at sep t.
Proof.
  induction 1 as [|b s Hb Hs IH]; cbn [split_at app].
  - now rewrite eqb_same.
  - rewrite (eqb_neq b sep Hb), IH. reflexivity.
Qed.
Lemma hex_no_dash w x : Forall (fun b => b <> dash) (hex w x).
Proof. eapply Forall_impl; [|apply hex_digits_chars]. cbn. tauto. Qed.

(** The fields fit in [u64]. *)
Definition chunk_u64 (c : chunk) : Prop :=
  level c < u64_max /\ offset c < u64_max /\ len c < u64_max.

Lemma parse_name c : chunk_u64 c -> parse_chunk (chunk_name c) = Ok c.
Proof.
  intros (Hl & Ho & Hn). unfold parse_chunk, chunk_name.
  rewrite split_cons by apply hex_no_dash. rewrite split_cons by apply hex_no_dash.
  rewrite split_free by apply hex_no_dash.
  rewrite !parse_hex_ok by (auto; lia). cbn [bind]. destruct c; reflexivity.
Qed.

Lemma cut_query_app f q : ~ In quest f -> cut_query (f ++ quest :: q) = (f, Some q).
Proof.
  induction f as [|b f IH]; intros H; cbn [cut_query app].
  - now rewrite eqb_same.
  - rewrite (eqb_neq b quest) by (intros ->; apply H; now left).
    rewrite IH by (intros F; apply H; now right). reflexivity.
Qed.
Lemma bytes_eqb_spec a : forall b, bytes_eqb a b = true <-> a = b.
Proof.
  induction a as [|x a IH]; intros [|y b]; cbn [bytes_eqb]; try (split; [discriminate|discriminate] || tauto).
  rewrite andb_true_iff, IH. split.
  - intros [H ->]. apply Byte.byte_dec_bl in H. now subst.
  - intros E. injection E as -> ->. split; [apply eqb_same|reflexivity].
Qed.

Lemma request_cut f c : ~ In quest f -> cut_query (request_str f c) = (slash :: f, Some (chunk_name c)).
Proof.
  intros H. unfold request_str. change (slash :: f ++ quest :: chunk_name c) with ((slash :: f) ++ quest :: chunk_name c).
  apply cut_query_app. intros [F|F]; [discriminate|contradiction].
Qed.

Lemma parse_request f g c : ~ In quest f -> chunk_u64 c ->
  parse_and_filter (request_str f c) g = Ok (if bytes_eqb f g then Some c else None).
Proof.
  intros Hq Hc. unfold parse_and_filter. rewrite request_cut by exact Hq. rewrite eqb_same.
  destruct (bytes_eqb f g); [|reflexivity]. now rewrite parse_name.
Qed.

Lemma request_inj f g c d : ~ In quest f -> ~ In quest g -> chunk_u64 c -> chunk_u64 d ->
  request_str f c = request_str g d -> f = g /\ c = d.
Proof.
  intros Hf Hg Hc Hd E. pose proof (request_cut f c Hf) as A. rewrite E, (request_cut g d Hg) in A.
  injection A as <- A. split; [reflexivity|].
  pose proof (parse_name c Hc) as B. rewrite <- A, (parse_name d Hd) in B. congruence.
Qed.

(** ** Ranges *)
Lemma ranges_eq src tgt : fst src <= snd src -> fst tgt <= snd tgt ->
  snd src < i64_lim -> snd tgt < i64_lim -> snd src - fst src < usize_lim -> snd tgt - fst tgt < usize_lim ->
  overlap src tgt = true ->
  ranges src tgt = Ok ((N.max (fst src) (fst tgt) - fst src, N.min (snd src) (snd tgt) - fst src),
                       (N.max (fst src) (fst tgt) - fst tgt, N.min (snd src) (snd tgt) - fst tgt)).
Proof.
  destruct src as [a b], tgt as [c d]. cbn [fst snd]. intros H1 H2 H3 H4 H5 H6 H7.
  unfold overlap in H7. cbn [fst snd] in H7. apply negb_true_iff, orb_false_iff in H7 as [O1 O2].
  apply N.leb_gt in O1, O2. unfold ranges, to_i64. cbn [fst snd].
  assert (N.min (c - a) (b - a) <? i64_lim = true) as -> by (apply N.ltb_lt; lia).
  assert (N.min (d - a) (b - a) <? i64_lim = true) as -> by (apply N.ltb_lt; lia).
  assert (a <? i64_lim = true) as -> by (apply N.ltb_lt; lia).
  assert (c <? i64_lim = true) as -> by (apply N.ltb_lt; lia).
  cbn [bind]. unfold z_to_usize.
  repeat match goal with
  | |- context [(?z <? 0)%Z] => assert ((z <? 0)%Z = false) as -> by (apply Z.ltb_ge; lia)
  end.
  repeat match goal with
  | |- context [?z <? usize_lim] => assert (z <? usize_lim = true) as -> by (apply N.ltb_lt; lia)
  end.
  cbn [bind]. repeat f_equal; lia.
Qed.

(** No sum or difference in [ranges] overflows. *)
Lemma ranges_no_overflow src tgt : fst src <= snd src -> fst src < i64_lim -> fst tgt < i64_lim ->
  forall a, (a = N.min (fst tgt - fst src) (snd src - fst src) \/
             a = N.min (snd tgt - fst src) (snd src - fst src)) -> a < i64_lim -> snd tgt < i64_lim ->
  (- Z.of_N i64_lim <= Z.of_N (fst src) - Z.of_N (fst tgt) < Z.of_N i64_lim)%Z /\
  (- Z.of_N i64_lim <= Z.of_N a + (Z.of_N (fst src) - Z.of_N (fst tgt)) < Z.of_N i64_lim)%Z.
Proof. intros. split; [lia|]. destruct H2; lia. Qed.

Lemma bind_ok {A B} (x : res A) (k : A -> res B) b : bind x k = Ok b -> exists a, x = Ok a /\ k a = Ok b.
Proof. destruct x; cbn; try discriminate. eauto. Qed.

Lemma ranges_ok src tgt r : fst src <= snd src -> fst tgt <= snd tgt -> overlap src tgt = true ->
  ranges src tgt = Ok r ->
  r = ((N.max (fst src) (fst tgt) - fst src, N.min (snd src) (snd tgt) - fst src),
       (N.max (fst src) (fst tgt) - fst tgt, N.min (snd src) (snd tgt) - fst tgt)).
Proof.
  destruct src as [a b], tgt as [c d]. cbn [fst snd]. intros H1 H2 H7 E.
  unfold overlap in H7. cbn [fst snd] in H7. apply negb_true_iff, orb_false_iff in H7 as [O1 O2].
  apply N.leb_gt in O1, O2. unfold ranges in E. cbn [fst snd] in E.
  unfold to_i64, z_to_usize in E.
  repeat (apply bind_ok in E as (? & ?E & E)).
  repeat match goal with
  | H : (if ?c then _ else _) = Ok _ |- _ => destruct c; try discriminate; try (injection H as <-)
  end.
  injection E as <-. repeat f_equal; lia.
Qed.

Lemma ranges_total src tgt : ranges src tgt = Err \/ exists r, ranges src tgt = Ok r.
Proof.
  unfold ranges, to_i64, z_to_usize.
  repeat match goal with
  | |- context [if ?c then _ else _] => destruct c; cbn [bind]; try (now left)
  end; eauto.
Qed.

(** ** Statements about [ranges] *)
Definition right_parts (a b c d s1 e1 s2 e2 : N) : Prop :=
  s1 <= e1 /\ e1 <= b - a /\ s2 <= e2 /\ e2 <= d - c /\ e1 - s1 = e2 - s2 /\
  (forall i, s1 <= i < e1 -> a + i = c + (s2 + (i - s1))) /\
  (forall x, a <= x < b /\ c <= x < d <-> exists i, s1 <= i < e1 /\ x = a + i).
Lemma parts_right a b c d : a <= b -> c <= d -> overlap (a, b) (c, d) = true ->
  right_parts a b c d (N.max a c - a) (N.min b d - a) (N.max a c - c) (N.min b d - c).
Proof.
  intros H1 H2 O. unfold overlap in O. cbn [fst snd] in O. apply negb_true_iff, orb_false_iff in O as [O1 O2].
  apply N.leb_gt in O1, O2. unfold right_parts.
  split; [lia|]. split; [lia|]. split; [lia|]. split; [lia|]. split; [lia|]. split; [lia|].
  intros x. split.
  - intros H. exists (x - a). lia.
  - intros (i & Hi & ->). lia.
Qed.
Lemma ranges_correct a b c d : a <= b -> c <= d -> b < i64_lim -> d < i64_lim -> b - a < usize_lim -> d - c < usize_lim ->
  overlap (a, b) (c, d) = true ->
  exists s1 e1 s2 e2, ranges (a, b) (c, d) = Ok ((s1, e1), (s2, e2)) /\ right_parts a b c d s1 e1 s2 e2.
Proof.
  intros. eexists _, _, _, _. split; [apply ranges_eq; assumption|]. cbn [fst snd]. now apply parts_right.
Qed.
Lemma ranges_correct_or_error a b c d : a <= b -> c <= d -> overlap (a, b) (c, d) = true ->
  ranges (a, b) (c, d) = Err \/
  exists s1 e1 s2 e2, ranges (a, b) (c, d) = Ok ((s1, e1), (s2, e2)) /\ right_parts a b c d s1 e1 s2 e2.
Proof.
  intros. destruct (ranges_total (a, b) (c, d)) as [E|(r & E)]; [now left|right].
  pose proof (ranges_ok (a, b) (c, d) r ltac:(assumption) ltac:(assumption) ltac:(assumption) E) as ->.
  cbn [fst snd] in E. eexists _, _, _, _. split; [exact E|]. now apply parts_right.
Qed.
Lemma overlap_correct a b c d : a < b -> c < d ->
  (overlap (a, b) (c, d) = true <-> exists x, a <= x < b /\ c <= x < d) /\
  (contains (a, b) (c, d) = true <-> forall x, c <= x < d -> a <= x < b).
Proof.
  intros H1 H2. unfold overlap, contains. cbn [fst snd].
  rewrite negb_true_iff, orb_false_iff, !N.leb_gt, andb_true_iff, !N.leb_le. split.
  - split; [intros; exists (N.max a c); lia|]. intros (x & Hx). lia.
  - split; [intros; lia|]. intros H. pose proof (H c ltac:(lia)). pose proof (H (d - 1) ltac:(lia)). lia.
Qed.
