From Verif Require Import Base BaseLemmas Header Node Raw RawSpec.

Lemma nth_skip {A} n : forall (l : list A) i, nth_error (skipn n l) i = nth_error l (n + i).
Proof. induction n as [|n IH]; intros [|x l] i; cbn; auto. now destruct i. Qed.
Lemma block_skip m a bs n : block m a bs -> block m (a + n) (skipn n bs).
Proof. intros B i b E. rewrite nth_skip in E. rewrite <- Nat.add_assoc. now apply B. Qed.
Lemma block_cons m a x bs : block m a (x :: bs) -> m a = Some x /\ block m (S a) bs.
Proof.
  intros B. split.
  - rewrite <- (Nat.add_0_r a). now apply B.
  - intros i b E. rewrite Nat.add_succ_comm. now apply B.
Qed.
Lemma fetch_block m n : forall a bs, block m a bs -> n <= length bs -> fetch m a n = Val (firstn n bs).
Proof.
  induction n as [|n IH]; intros a bs B L; [reflexivity|]. destruct bs as [|x bs]; cbn in L; [lia|].
  apply block_cons in B as [E B]. cbn [fetch firstn]. rewrite E, (IH (S a) bs B) by lia. reflexivity.
Qed.

Lemma raw_field_ok m a x : block m a x ->
  match read_field x with
  | None => raw_field m (Slice a (length x)) = Val None
  | Some (b, rest) => exists r, raw_field m (Slice a (length x)) = Val (Some (r, Slice (a + (hdr_len (rb_hdr r) + 1)) (length rest))) /\
      rb_read m r = Val b /\ rb_slice m r = Val (blob_slice b) /\ rest = skipn (hdr_len (rb_hdr r) + 1) x /\
      length x = hdr_len (rb_hdr r) + 1 + length rest
  end.
Proof.
  intros B. unfold read_field, raw_field, s_first. cbn [s_len s_at]. destruct x as [|h tl]; [reflexivity|].
  pose proof (block_cons _ _ _ _ B) as [E _]. cbn [length]. rewrite E. cbn [rbind].
  destruct (Nat.ltb_spec (length tl) (hdr_len h)) as [H|H].
  - replace (S (length tl) <? hdr_len h + 1) with true; [reflexivity|]. symmetry. apply Nat.ltb_lt. lia.
  - replace (S (length tl) <? hdr_len h + 1) with false; [|symmetry; apply Nat.ltb_ge; lia].
    unfold s_from. cbn [s_len s_at].
    replace (hdr_len h + 1 <=? S (length tl)) with true; [|symmetry; apply Nat.leb_le; lia].
    cbn [rbind]. exists (RBlob h a). cbn [rb_hdr].
    assert (length (skipn (hdr_len h) tl) = length tl - hdr_len h) as Ls by apply skipn_length.
    assert (rb_slice m (RBlob h a) = Val (firstn (hdr_len h) tl)) as Es.
    { unfold rb_slice, rb_bytes. cbn [rb_at rb_hdr].
      rewrite (fetch_block m (hdr_len h + 1) a (h :: tl) B) by (cbn; lia).
      rewrite Nat.add_1_r. reflexivity. }
    split; [|split; [|split; [|split]]].
    + do 4 f_equal. rewrite Ls. lia.
    + unfold rb_read. rewrite Es. reflexivity.
    + rewrite Es. destruct (hdr_is_id h); reflexivity.
    + rewrite Nat.add_1_r. reflexivity.
    + rewrite Ls. lia.
Qed.

Lemma skipn_add {A} n k (l : list A) : skipn n (skipn k l) = skipn (k + n) l.
Proof. revert l. induction k as [|k IH]; intros [|x l]; cbn; auto. now destruct n. Qed.

Lemma raw_read_one_ok m a x : block m a x ->
  match read_one x with
  | None => raw_read_one m (Slice a (length x)) = Val None
  | Some (b, rest) => exists r, raw_read_one m (Slice a (length x)) = Val (Some (r, Slice (a + rn_len r) (length rest))) /\
      rn_read m r = Val b /\ rn_first m r = Val (first_byte (b_prefix b)) /\ rest = skipn (rn_len r) x /\
      length x = rn_len r + length rest
  end.
Proof.
  intros B. unfold read_one, raw_read_one.
  pose proof (raw_field_ok m a x B) as P. destruct (read_field x) as [[p x1]|]; [|now rewrite P].
  destruct P as (rp & Ep & Lp & Sp & X1 & N1). rewrite Ep. cbn [rbind].
  assert (block m (a + (hdr_len (rb_hdr rp) + 1)) x1) as B1 by (rewrite X1; now apply block_skip).
  pose proof (raw_field_ok m _ x1 B1) as P. destruct (read_field x1) as [[v x2]|]; [|now rewrite P].
  destruct P as (rv & Ev & Lv & Sv & X2 & N2). rewrite Ev. cbn [rbind].
  assert (block m (a + (hdr_len (rb_hdr rp) + 1) + (hdr_len (rb_hdr rv) + 1)) x2) as B2 by (rewrite X2; now apply block_skip).
  pose proof (raw_field_ok m _ x2 B2) as P. destruct (read_field x2) as [[c x3]|]; [|now rewrite P].
  destruct P as (rc & Ec & Lc & Sc & X3 & N3). rewrite Ec. cbn [rbind].
  exists (RNode rp rv rc). unfold rn_len. cbn [rn_prefix rn_value rn_children].
  split; [|split; [|split; [|split]]].
  - do 4 f_equal. lia.
  - unfold rn_read. cbn [rn_prefix rn_value rn_children]. rewrite Lp, Lv, Lc. reflexivity.
  - unfold rn_first. cbn [rn_prefix]. rewrite Sp. reflexivity.
  - rewrite X3, X2, X1, !skipn_add. f_equal. lia.
  - lia.
Qed.

Section Iter.
Context (m : memory) (a : nat) (bs : bytes) (B : block m a bs).
Notation data := (Slice a (length bs)).
Lemma at_off off : off <= length bs ->
  match read_one (skipn off bs) with
  | None => forall A (k : option (rnode * slice) -> raw A), (s <~ s_from data off ;; x <~ raw_read_one m s ;; k x) = k None
  | Some (b, rest) => exists r s', (forall A (k : option (rnode * slice) -> raw A),
      (s <~ s_from data off ;; x <~ raw_read_one m s ;; k x) = k (Some (r, s'))) /\
      rn_read m r = Val b /\ rn_first m r = Val (first_byte (b_prefix b)) /\ rest = skipn (off + rn_len r) bs /\
      off + rn_len r <= length bs /\ 0 < rn_len r
  end.
Proof.
  intros L. unfold s_from. cbn [s_len s_at].
  replace (off <=? length bs) with true by (symmetry; now apply Nat.leb_le). cbn [rbind].
  pose proof (raw_read_one_ok m (a + off) (skipn off bs) (block_skip m a bs off B)) as P.
  rewrite skipn_length in P.
  destruct (read_one (skipn off bs)) as [[b rest]|].
  - destruct P as (r & E & Er & Ef & Es & Ln). exists r, (Slice (a + off + rn_len r) (length rest)).
    split; [intros A k; now rewrite E|]. split; [exact Er|]. split; [exact Ef|]. split; [now rewrite Es, skipn_add|].
    unfold rn_len in *. lia.
  - intros A k. now rewrite P.
Qed.

Definition shows (r : option rnode) (b : option bnode) : Prop :=
  match r, b with
  | None, None => True
  | Some r, Some b => rn_read m r = Val b
  | _, _ => False
  end.
Lemma find_ok c : forall fuel off, off <= length bs -> length bs < off + fuel ->
  exists r, ri_find m data fuel off c = Val r /\
    forall f', length bs < off + f' -> shows r (find_borrowed f' (skipn off bs) c).
Proof.
  induction fuel as [|fuel IH]; intros off L F; [lia|]. cbn [ri_find].
  pose proof (at_off off L) as P. destruct (read_one (skipn off bs)) as [[b rest]|] eqn:E.
  - destruct P as (r & s' & P & Er & Ef & Es & L' & Z). rewrite P, Ef. cbn [rbind].
    destruct (cmp_ob (first_byte (b_prefix b)) (Some c)) eqn:Ec.
    + exists (Some r). split; [reflexivity|]. intros [|f'] H; [lia|]. cbn [find_borrowed]. now rewrite E, Ec.
    + destruct (IH (off + rn_len r) L') as (q & Eq & Sq); [lia|]. exists q. split; [exact Eq|].
      intros [|f'] H; [lia|]. cbn [find_borrowed]. rewrite E, Ec, Es. apply Sq. lia.
    + exists None. split; [reflexivity|]. intros [|f'] H; [lia|]. cbn [find_borrowed]. now rewrite E, Ec.
  - rewrite P. exists None. split; [reflexivity|]. intros [|f'] H; [lia|]. cbn [find_borrowed]. now rewrite E.
Qed.
Lemma last_ok : forall fuel off l l0, off <= length bs -> length bs < off + fuel -> shows l l0 ->
  exists r, ri_last m data fuel off l = Val r /\
    forall f', length bs < off + f' -> shows r (last_borrowed f' (skipn off bs) l0).
Proof.
  induction fuel as [|fuel IH]; intros off l l0 L F Sl; [lia|]. cbn [ri_last s_len].
  destruct (Nat.ltb_spec off (length bs)) as [Ho|Ho].
  - pose proof (at_off off L) as P. destruct (read_one (skipn off bs)) as [[b rest]|] eqn:E.
    + destruct P as (r & s' & P & Er & Ef & Es & L' & Z). rewrite P.
      destruct (IH (off + rn_len r) (Some r) (Some b) L') as (q & Eq & Sq); [lia|exact Er|]. exists q. split; [exact Eq|].
      intros [|f'] H; [lia|]. cbn [last_borrowed]. rewrite E, Es. apply Sq. lia.
    + rewrite P. exists l. split; [reflexivity|]. intros [|f'] H; [lia|]. cbn [last_borrowed]. now rewrite E.
  - exists l. split; [reflexivity|]. intros [|f'] H; [lia|]. cbn [last_borrowed].
    rewrite skipn_all2 by lia. exact Sl.
Qed.

Lemma see_ok r b : shows r b -> raw_see m r = Val (SawNode b).
Proof. destruct r, b; cbn; try tauto. intros E. now rewrite E. Qed.
Lemma keep_ok got got' r b : Forall2 (fun r b => rn_read m r = Val b) got got' -> shows r b ->
  Forall2 (fun r b => rn_read m r = Val b) (keep got r) (keep got' b).
Proof. intros F. destruct r, b; cbn; try tauto. intros E. apply Forall2_app; auto. Qed.
Lemma borrowed_map (o : option bnode) : borrowed (option_map RBorrowed o) = o.
Proof. now destruct o. Qed.

Lemma uses_ok us : forall off got got', off <= length bs -> Forall2 (fun r b => rn_read m r = Val b) got got' ->
  raw_uses m (RIter data off) got us = Val (uses (IBorrowed (skipn off bs)) got' us).
Proof.
  induction us as [|u us IH]; intros off got got' L F; [reflexivity|].
  destruct u as [| |c| |i]; cbn [raw_uses uses].
  - unfold ri_next. cbn [ri_data ri_off it_next].
    pose proof (at_off off L) as P. destruct (read_one (skipn off bs)) as [[b rest]|] eqn:E.
    + destruct P as (r & s' & P & Er & _ & Es & L' & _). rewrite P. cbn [rbind fst snd].
      rewrite (see_ok (Some r) (Some b) Er). cbn [rbind borrowed]. rewrite Es.
      rewrite (IH _ _ (keep got' (Some b)) L'); [reflexivity|]. now apply (keep_ok got got' (Some r) (Some b)).
    + rewrite P. cbn [rbind fst snd raw_see keep]. now rewrite (IH off got got' L F).
  - unfold ri_first. cbn [ri_data ri_off it_first].
    pose proof (at_off off L) as P. destruct (read_one (skipn off bs)) as [[b rest]|] eqn:E.
    + destruct P as (r & s' & P & _ & Ef & _). rewrite P, Ef. cbn [rbind]. now rewrite (IH off got got' L F).
    + rewrite P. cbn [rbind]. now rewrite (IH off got got' L F).
  - cbn [ri_data ri_off s_len it_find]. destruct (find_ok c (S (length bs)) off L) as (r & E & Sr); [lia|].
    rewrite E, borrowed_map. cbn [rbind]. rewrite (skipn_length off bs) in *.
    assert (shows r (find_borrowed (S (length bs - off)) (skipn off bs) c)) as Sr' by (apply Sr; lia).
    rewrite (see_ok _ _ Sr'). cbn [rbind].
    rewrite (IH off _ _ L (keep_ok _ _ _ _ F Sr')). reflexivity.
  - cbn [ri_data ri_off s_len it_last]. destruct (last_ok (S (length bs)) off None None L) as (r & E & Sr); [lia|exact Logic.I|].
    rewrite E, borrowed_map. cbn [rbind]. rewrite (skipn_length off bs) in *.
    assert (shows r (last_borrowed (S (length bs - off)) (skipn off bs) None)) as Sr' by (apply Sr; lia).
    rewrite (see_ok _ _ Sr'). cbn [rbind].
    rewrite (IH off _ _ L (keep_ok _ _ _ _ F Sr')). reflexivity.
  - assert (shows (nth_error got i) (nth_error got' i)) as Sh.
    { clear -F. revert i. induction F as [|r b got got' H F IH]; intros [|i]; cbn; auto. }
    rewrite (see_ok _ _ Sh). cbn [rbind]. now rewrite (IH off got got' L F).
Qed.
End Iter.

Theorem raw_iter_safe m a bs : block m a bs -> forall us,
  raw_uses m (RIter (Slice a (length bs)) 0) [] us = Val (uses (IBorrowed bs) [] us).
Proof. intros B us. rewrite (uses_ok m a bs B us 0 [] []); [reflexivity|lia|constructor]. Qed.
Theorem raw_deserialize_safe m a bs : block m a bs ->
  raw_deserialize m (Slice a (length bs)) = Val (deserialize bs).
Proof.
  intros B. unfold raw_deserialize, deserialize. pose proof (raw_read_one_ok m a bs B) as P.
  destruct (read_one bs) as [[b rest]|]; [|now rewrite P].
  destruct P as (r & E & Er & _). rewrite E. cbn [rbind s_len]. destruct rest; cbn [length Nat.eqb]; [|reflexivity].
  now rewrite Er.
Qed.
