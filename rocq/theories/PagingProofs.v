(** Proofs about the paging file. *)
From Verif Require Import Base BaseLemmas Header Node Store StoreProofs U64 File FileProofs Chunk WebFile WebProofs Paging PagingSpec.
Local Open Scope N_scope.

Lemma skipn_plus {A} a b (l : list A) : skipn a (skipn b l) = skipn (a + b) l.
Proof.
  revert l. induction b as [|b IH]; intros l; [now rewrite Nat.add_0_r|]. rewrite Nat.add_succ_r.
  destruct l; cbn [skipn]; [apply skipn_nil|apply IH].
Qed.
Lemma f_read_split F p n o k : (o + k <= n)%nat -> firstn k (skipn o (f_read F p n)) = f_read F (p + N.of_nat o) k.
Proof.
  intros H. replace n with (o + (k + (n - o - k)))%nat by lia. rewrite !f_read_app.
  rewrite skipn_app, f_read_length, Nat.sub_diag, skipn_all2 by (rewrite f_read_length; lia). cbn [app skipn].
  rewrite firstn_app, f_read_length, Nat.sub_diag, firstn_all2 by (rewrite f_read_length; lia). cbn [firstn]. apply app_nil_r.
Qed.
Lemma f_read_before F s x p n : p + N.of_nat n <= s -> p + N.of_nat n <= f_len F -> f_read (f_write F s x) p n = f_read F p n.
Proof. intros A B. apply f_read_ext. intros i Hi. apply f_write_at; lia. Qed.
Lemma f_read_inside F s x o k : (o + k <= length x)%nat ->
  f_read (f_write F s x) (s + N.of_nat o) k = firstn k (skipn o x).
Proof.
  intros H. rewrite <- (f_read_write_same F s x) at 2. now rewrite f_read_split.
Qed.

Section PS.
Context (ps : N) (Hps : page_size_ok ps).
Definition start (n : N) : N := n / ps * ps.
Lemma ps_bounds : 0 < ps /\ ps < 2147483648.
Proof. exact Hps. Qed.
Lemma start_bounds n : start n <= n < start n + ps.
Proof.
  unfold start. pose proof ps_bounds. assert (ps <> 0) as Hz by lia.
  pose proof (N.div_mod n ps Hz) as E. pose proof (N.mod_lt n ps Hz).
  rewrite (N.mul_comm ps) in E. generalize dependent (n mod ps). generalize (n / ps * ps). intros; lia.
Qed.
Lemma page_unique q n : q * ps <= n < q * ps + ps -> n / ps = q.
Proof. intros H. symmetry. apply (N.div_unique n ps q (n - q * ps)); rewrite ?(N.mul_comm ps); lia. Qed.
Lemma page_lt p q : p < q -> p * ps + ps <= q * ps.
Proof. intros H. nia. Qed.
Lemma page_mono a b : a <= b -> a / ps <= b / ps.
Proof. intros H. apply N.div_le_mono; [pose proof ps_bounds; lia|exact H]. Qed.
Definition lim : N := i64_lim + i32_lim.
Lemma page_num_ok n : page_num ps n = Ok (n / ps).
Proof. unfold page_num. pose proof ps_bounds. destruct (N.eqb_spec ps 0); [lia|reflexivity]. Qed.
Lemma sum_ok_ok a b : a + b < u64_max -> sum_ok a b = Ok tt.
Proof. unfold sum_ok. intros H. apply N.ltb_lt in H. now rewrite H. Qed.
Lemma page_range_ok n : n < lim -> page_range ps n = Ok (start n, start n + ps).
Proof.
  intros H. unfold page_range. rewrite page_num_ok. cbn [bind].
  pose proof ps_bounds. pose proof (start_bounds n) as B. unfold start in *. unfold lim, i64_lim, i32_lim in H.
  rewrite sum_ok_ok by (unfold u64_max; lia). reflexivity.
Qed.
Lemma offset_ok n : n < lim -> offset_within_page ps n = Ok (n - start n).
Proof.
  intros H. unfold offset_within_page. rewrite page_range_ok by exact H. cbn [bind fst].
  pose proof ps_bounds. pose proof (start_bounds n). unfold usize_lim.
  destruct (N.ltb_spec (n - start n) 4294967296); [reflexivity|lia].
Qed.

(** A blob with its length inside a page. *)
Definition frame (pg : bytes) (o : N) (d : bytes) : Prop :=
  firstn (4 + length d) (skipn (N.to_nat o) pg) = to_be 4 (N.of_nat (length d)) ++ d.
Lemma frame_room pg o d : frame pg o d -> (N.to_nat o + 4 + length d <= length pg)%nat.
Proof.
  intros H. apply (f_equal (@length byte)) in H. rewrite firstn_length, skipn_length, app_length, to_be_length in H. lia.
Qed.
Lemma firstn_firstn_le {A} a b (l : list A) : (a <= b)%nat -> firstn a (firstn b l) = firstn a l.
Proof. intros H. rewrite firstn_firstn. now rewrite Nat.min_l by lia. Qed.
Lemma frame_prefix pg o d k : frame pg o d -> (N.to_nat o + 4 + length d <= k)%nat -> frame (firstn k pg) o d.
Proof.
  unfold frame. intros H Hk. rewrite <- H. rewrite skipn_firstn_comm. apply firstn_firstn_le. lia.
Qed.
Lemma p_frame_ok pg o d : frame pg o d -> N.of_nat (length pg) < usize_lim -> p_frame pg o = Ok d.
Proof.
  intros H Hl. pose proof (frame_room _ _ _ H) as R. unfold p_frame. unfold frame in H.
  set (q := skipn (N.to_nat o) pg) in *.
  assert (firstn 4 q = to_be 4 (N.of_nat (length d))) as E4.
  { apply (f_equal (firstn 4)) in H. rewrite firstn_firstn_le in H by lia. rewrite H.
    rewrite <- (to_be_length 4 (N.of_nat (length d))) at 1. apply firstn_app_l. }
  assert (firstn (length d) (skipn 4 q) = d) as Ed.
  { apply (f_equal (skipn 4)) in H. rewrite skipn_firstn_comm in H. replace (4 + length d - 4)%nat with (length d) in H by lia.
    rewrite H. rewrite <- (to_be_length 4 (N.of_nat (length d))) at 1. apply skipn_app_l. }
  destruct (N.leb_spec (o + 4) (N.of_nat (length pg))); [|lia]. cbn [negb].
  rewrite E4, of_to_be by (unfold usize_lim in *; change (256 ^ N.of_nat 4) with 4294967296; lia).
  destruct (N.leb_spec usize_lim (o + 4 + N.of_nat (length d))); [lia|].
  destruct (N.leb_spec (o + 4 + N.of_nat (length d)) (N.of_nat (length pg))); [|lia]. cbn [negb].
  f_equal. rewrite Nat2N.id. replace (N.to_nat (o + 4)) with (4 + N.to_nat o)%nat by lia.
  rewrite <- skipn_plus. exact Ed.
Qed.

(** A blob with its length in the file. *)
Definition on_file (F : file) (n : N) (d : bytes) : Prop :=
  f_read F n (4 + length d) = to_be 4 (N.of_nat (length d)) ++ d /\ n + 4 + N.of_nat (length d) <= f_len F.
Definition in_page (n : N) (d : bytes) : Prop := n + 4 + N.of_nat (length d) <= start n + ps.
Lemma file_frame F n d : on_file F n d -> in_page n d -> frame (f_read F (start n) (N.to_nat ps)) (n - start n) d.
Proof.
  intros [A B] C. unfold frame, in_page in *. pose proof (start_bounds n). rewrite f_read_split by lia.
  rewrite <- A. f_equal. lia.
Qed.

Definition placed (F : file) (m : pmem) (n : N) (d : bytes) : Prop :=
  n + 4 + N.of_nat (length d) <= p_len m /\ in_page n d /\
  (n / ps = p_len m / ps -> frame (p_last m) (n - start n) d) /\
  (n / ps < p_len m / ps -> on_file F n d).

Context (any ex : bool).
Record pinv (F : file) (m : pmem) (l : ledger) : Prop := {
  pi_last : length (p_last m) = N.to_nat ps;
  pi_start : start (p_len m) <= f_len F;
  pi_mode : any = true \/ f_len F = start (p_len m);
  pi_full : forall p d, full_get p (p_full m) = Some d -> p < p_len m / ps /\ d = f_read F (p * ps) (N.to_nat ps);
  pi_fresh : forall n d, In (n, d) (fresh l) -> placed F m n d /\
    (n / ps < p_len m / ps -> full_get (n / ps) (p_full m) <> None);
  pi_saved : ex = true -> forall n d, In (n, d) (saved l) -> placed F m n d /\ on_file F n d
}.

(** Writing a part of the last page. *)
Lemma file_write_page F m n d k : start (p_len m) <= f_len F -> length (p_last m) = N.to_nat ps ->
  placed F m n d -> (N.to_nat (p_len m - start (p_len m)) <= k)%nat ->
  on_file (f_write F (start (p_len m)) (firstn k (p_last m))) n d.
Proof.
  intros Hs Hl (P1 & P2 & P3 & P4) Hk. pose proof (start_bounds n) as Bn. pose proof (start_bounds (p_len m)) as Bm.
  assert (n / ps <= p_len m / ps) as Hle by (apply page_mono; lia).
  unfold in_page in P2. unfold on_file. cbn [f_write f_len].
  destruct (N.eq_dec (n / ps) (p_len m / ps)) as [E|E].
  - specialize (P3 E). assert (start n = start (p_len m)) as Es by (unfold start; now rewrite E).
    pose proof (frame_room _ _ _ P3) as R. split.
    + rewrite <- (frame_prefix _ _ _ k P3) by lia. rewrite <- f_read_inside with (F := F) (s := start (p_len m)).
      * f_equal. lia.
      * rewrite firstn_length. lia.
    + rewrite firstn_length. lia.
  - assert (n / ps < p_len m / ps) as L by lia. destruct (P4 L) as [A B].
    apply page_lt in L. fold (start n) (start (p_len m)) in L. split.
    + rewrite f_read_before by lia. exact A.
    + lia.
Qed.
Lemma page_write F m p k : start (p_len m) <= f_len F -> p < p_len m / ps ->
  f_read (f_write F (start (p_len m)) (firstn k (p_last m))) (p * ps) (N.to_nat ps) = f_read F (p * ps) (N.to_nat ps).
Proof.
  intros Hs L. apply page_lt in L. fold (start (p_len m)) in L. apply f_read_before; lia.
Qed.
Lemma pinv_write F m l k : pinv F m l -> any = true -> (N.to_nat (p_len m - start (p_len m)) <= k)%nat ->
  pinv (f_write F (start (p_len m)) (firstn k (p_last m))) m l.
Proof.
  intros [H1 H2 H3 H4 H5 H6] Ha Hk. constructor.
  - exact H1.
  - cbn [f_write f_len]. lia.
  - now left.
  - intros p d E. destruct (H4 p d E) as [L ->]. split; [exact L|]. symmetry. now apply page_write.
  - intros n d Hin. destruct (H5 n d Hin) as [P G]. split; [|exact G].
    pose proof (file_write_page F m n d k H2 H1 P Hk) as W. destruct P as (P1 & P2 & P3 & P4). unfold placed; auto.
  - intros He n d Hin. destruct (H6 He n d Hin) as [P G].
    pose proof (file_write_page F m n d k H2 H1 P Hk) as W. destruct P as (P1 & P2 & P3 & P4). unfold placed; auto.
Qed.
Lemma pinv_sync F m l k : pinv F m l -> any = true -> (N.to_nat (p_len m - start (p_len m)) <= k)%nat ->
  pinv (f_write F (start (p_len m)) (firstn k (p_last m))) m (Ledger (fresh l) (fresh l ++ saved l)).
Proof.
  intros H Ha Hk. pose proof (pinv_write _ _ _ _ H Ha Hk) as [K1 K2 K3 K4 K5 K6].
  constructor; auto. cbn [saved]. intros He n d Hin. apply in_app_or in Hin as [Hin|Hin]; [|auto].
  destruct (K5 n d Hin) as [P _]. split; [exact P|].
  destruct H as [H1 H2 H3 H4 H5 H6]. destruct (H5 n d Hin) as [P' _]. now apply file_write_page.
Qed.
Definition closed (m : pmem) : pmem :=
  PMem ((p_len m / ps, p_last m) :: p_full m) (repeat x00 (length (p_last m))) (start (p_len m) + ps).
Lemma closed_page m : (start (p_len m) + ps) / ps = p_len m / ps + 1.
Proof. apply page_unique. unfold start. pose proof ps_bounds. nia. Qed.
Lemma closed_start m : start (p_len (closed m)) = start (p_len m) + ps.
Proof. unfold start at 1. cbn [closed p_len]. rewrite closed_page. unfold start. nia. Qed.
Lemma pinv_close F m l : pinv F m l ->
  pinv (f_write F (start (p_len m)) (p_last m)) (closed m) l.
Proof.
  intros [H1 H2 H3 H4 H5 H6]. pose proof ps_bounds as Hb. pose proof (start_bounds (p_len m)) as Bm.
  set (F' := f_write F (start (p_len m)) (p_last m)).
  assert (F' = f_write F (start (p_len m)) (firstn (N.to_nat ps) (p_last m))) as EF.
  { unfold F'. rewrite <- H1, firstn_all. reflexivity. }
  assert (forall n d, placed F m n d -> placed F' (closed m) n d /\ on_file F' n d) as K.
  { intros n d P. assert (on_file F' n d) as W by (rewrite EF; apply file_write_page; [assumption..|lia]).
    split; [|exact W]. destruct P as (P1 & P2 & P3 & P4). pose proof (start_bounds n).
    split; [|split; [exact P2|split; [|auto]]].
    - cbn [closed p_len]. lia.
    - cbn [closed p_len]. rewrite closed_page. intros E. exfalso.
      assert (n / ps <= p_len m / ps) by (apply page_mono; lia). lia. }
  constructor.
  - cbn [closed p_last]. rewrite repeat_length. exact H1.
  - rewrite closed_start. unfold F'. cbn [f_write f_len]. lia.
  - destruct H3 as [->|E]; [now left|right]. rewrite closed_start. unfold F'. cbn [f_write f_len]. lia.
  - intros p d E. cbn [closed p_full p_len full_get] in E |- *. rewrite closed_page.
    destruct (N.eqb_spec p (p_len m / ps)) as [->|Hne].
    + injection E as <-. split; [lia|]. unfold F'. fold (start (p_len m)). rewrite <- H1. now rewrite f_read_write_same.
    + destruct (H4 p d E) as [L ->]. split; [lia|]. rewrite EF. symmetry. now apply page_write.
  - intros n d Hin. destruct (H5 n d Hin) as [P G]. split; [now apply K|].
    cbn [closed p_full full_get p_len]. intros _. destruct (N.eqb_spec (n / ps) (p_len m / ps)) as [E|E]; [discriminate|].
    apply G. destruct P as (P1 & _). assert (n / ps <= p_len m / ps) by (apply page_mono; lia). lia.
  - intros He n d Hin. destruct (H6 He n d Hin) as [P G]. now apply K.
Qed.

(** Adding a blob to the last page. *)
Lemma pinv_put F m l n x last d : pinv F m l ->
  x = to_be 4 (N.of_nat (length d)) ++ d ->
  p_len m <= n -> n + N.of_nat (length x) < start (p_len m) + ps ->
  last = firstn (N.to_nat (n - start (p_len m))) (p_last m) ++ x ++ skipn (N.to_nat (n - start (p_len m)) + length x) (p_last m) ->
  pinv F (PMem (p_full m) last (n + N.of_nat (length x))) (Ledger ((n, d) :: fresh l) (saved l)).
Proof.
  intros [H1 H2 H3 H4 H5 H6] Hx Hn Hr Hlast. pose proof ps_bounds as Hb. pose proof (start_bounds (p_len m)) as Bm.
  assert (length x = 4 + length d)%nat as Lx by (rewrite Hx, app_length, to_be_length; reflexivity).
  assert ((n + N.of_nat (length x)) / ps = p_len m / ps) as Ep.
  { apply page_unique. fold (start (p_len m)). lia. }
  assert (n / ps = p_len m / ps) as En by (apply page_unique; fold (start (p_len m)); lia).
  set (o := N.to_nat (n - start (p_len m))) in *.
  assert (length last = N.to_nat ps) as Ll.
  { rewrite Hlast, !app_length, firstn_length, skipn_length. lia. }
  assert (forall n' d', placed F m n' d' -> placed F (PMem (p_full m) last (n + N.of_nat (length x))) n' d') as K.
  { intros n' d' (P1 & P2 & P3 & P4). split; [cbn [p_len]; lia|]. split; [exact P2|].
    cbn [p_len p_last]. rewrite Ep. split; [|exact P4]. intros E. specialize (P3 E).
    assert (start n' = start (p_len m)) as Es by (unfold start; now rewrite E). pose proof (start_bounds n') as Bn.
    unfold frame in *. rewrite <- P3. rewrite Hlast. rewrite skipn_app, firstn_app.
    assert (4 + length d' <= length (skipn (N.to_nat (n' - start n')) (firstn o (p_last m))))%nat as L1.
    { rewrite skipn_length, firstn_length. lia. }
    replace (4 + length d' - length (skipn (N.to_nat (n' - start n')) (firstn o (p_last m))))%nat with 0%nat by lia.
    cbn [firstn]. rewrite app_nil_r. rewrite skipn_firstn_comm. apply firstn_firstn_le. lia. }
  assert (start (n + N.of_nat (length x)) = start (p_len m)) as Est by (unfold start; now rewrite Ep).
  constructor; cbn [p_last p_len p_full fresh saved].
  - exact Ll.
  - rewrite Est. exact H2.
  - rewrite Est. exact H3.
  - rewrite Ep. exact H4.
  - intros n' d' [E|Hin].
    + injection E as <- <-. assert (start n = start (p_len m)) as Esn by (unfold start; now rewrite En).
      split; [|intros L; rewrite Ep, En in L; lia]. split; [cbn [p_len]; lia|]. split; [unfold in_page; lia|].
      cbn [p_len p_last]. rewrite Ep. split; [|lia]. intros _. unfold frame. rewrite <- Hx, Hlast, Esn. fold o.
      rewrite skipn_app. rewrite skipn_all2 by (rewrite firstn_length; lia). cbn [app].
      rewrite firstn_length, Nat.min_l by lia. rewrite Nat.sub_diag. cbn [skipn].
      rewrite firstn_app. replace (4 + length d - length x)%nat with 0%nat by lia. cbn [firstn]. rewrite app_nil_r.
      apply firstn_all2. lia.
    + destruct (H5 n' d' Hin) as [P G]. split; [now apply K|]. rewrite Ep. exact G.
  - intros He n' d' Hin. destruct (H6 He n' d' Hin) as [P G]. split; [now apply K|exact G].
Qed.
End PS.
