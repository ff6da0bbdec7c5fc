(** Page sizes with which the paged file store does not work. *)
From Verif Require Import Base BaseLemmas Header Node Store U64 File FileProofs PagedFile PagedFileProofs PagedSpec PagedTop PagedSizesSpec PagedSizes.
Local Open Scope N_scope.

(** Zero. *)
Lemma size_zero dbg :
  exists s, step dbg 0 new_file (OReopen, None) = (Ok [], Opened s) /\
  (forall d, N.of_nat (length d) + 8 <= u64_max -> fst (step dbg 0 (Opened s) (OWrite d, None)) = Panic) /\
  (forall id, length id = 8%nat -> fst (step dbg 0 (Opened s) (ORead id, None)) = Panic).
Proof.
  eexists. split; [destruct dbg; reflexivity|]. split.
  - intros d L. destruct dbg; [reflexivity|].
    unfold step. cbn [fst snd]. unfold pf_write, append, pure, wbind, wret.
    change (u_sub false 0 8) with (@Ok N (u64_max - 8)). cbv iota beta.
    assert (u64_max - 8 <? N.of_nat (length d) = false) as -> by (apply N.ltb_ge; unfold u64_max in *; lia).
    unfold u_add at 1. destruct (_ <? u64_max); cbv iota beta.
    all: unfold lift, h_seek_end, with_tick, tick, plan; cbn [i_fh h_fault h_file h_pos f_len f_set_len].
    all: change (4096 + 0) with 4096; unfold HEADER; rewrite ?N.ltb_irrefl.
    all: unfold u_add; destruct (_ <? u64_max); reflexivity.
  - intros id H. unfold step. cbn [fst snd]. unfold pf_read. rewrite H. reflexivity.
Qed.

(** Larger than 2^32: the length of a blob is stored in four bytes. *)
Lemma byte_of_mod x y : x mod 256 = y mod 256 -> byte_of x = byte_of y.
Proof. intros H. apply bnum_inj. now rewrite !bnum_byte_of'. Qed.
Lemma to_be_mod n : forall x, to_be n (x mod 256 ^ N.of_nat n) = to_be n x.
Proof.
  induction n as [|n IH]; intros x; [reflexivity|]. cbn [to_be].
  rewrite Nat2N.inj_succ, N.pow_succ_r'. assert (256 ^ N.of_nat n <> 0) as Hm by (apply N.pow_nonzero; discriminate).
  rewrite N.mod_mul_r by (discriminate || exact Hm).
  rewrite (N.add_comm (x mod 256)), (N.mul_comm 256). f_equal.
  - rewrite N.div_add_l by discriminate. rewrite (N.div_small (x mod 256)) by (apply N.mod_lt; discriminate).
    rewrite N.add_0_r. apply IH.
  - f_equal. apply byte_of_mod. rewrite N.add_comm, N.mod_add by discriminate. apply N.mod_mod. discriminate.
Qed.

Section Large.
Context (dbg : bool) (ps : N) (d : bytes).
Context (H8 : ps mod 8 = 0) (Hd : N.of_nat (length d) + 8 <= ps) (Hm : ps < 4611686018427387904).
(** Of the length [n] of [d] only the low 32 bits [m] are kept. *)
Notation n := (N.of_nat (length d)).
Definition low32 : N := n mod 4294967296.
Context (Hlow : low32 + 4 < 4294967296).

Definition f_new : file := f_set_len (f_set_len (File 0 (fun _ => x00)) 4096) 4096.
Lemma open_new : step dbg ps new_file (OReopen, None) = (Ok [], Opened (Inner (FH f_new 4096 None) [] [] 0)).
Proof.
  unfold step. cbn [fst snd]. unfold open. apply N.eqb_eq in H8. rewrite H8. destruct dbg; reflexivity.
Qed.

Definition f_big (g : file) : Prop :=
  f_len g = HEADER + n + 4 /\ hdr g = n + 4 /\ f_read g HEADER (length d) = d /\
  f_read g (HEADER + n) 4 = to_be 4 n.

Lemma write_new :
  wp (append dbg ps d) (fun id s' => id = n + 4 /\ f_big (h_file (i_fh s'))) (fun _ => False)
     (Inner (FH f_new 4096 None) [] [] 0).
Proof.
  assert (HEADER = 4096) as Hh by reflexivity. assert (max_file = 9223372036854775808) as Hx by reflexivity.
  assert (u64_max = 18446744073709551616) as Hu by reflexivity.
  unfold append, pure. rewrite u_sub_ok by lia. apply wp_bind, wp_ret.
  assert (ps - 8 <? n = false) as -> by (apply N.ltb_ge; lia).
  rewrite u_add_ok by lia. apply wp_bind, wp_ret.
  apply wp_bind, wp_lift, (wp_seek_end true); [now intros _| |discriminate].
  cbn [i_fh i_pages i_recent i_last h_file]. change (f_len f_new) with 4096. intros h1 F1 E1 P1.
  change (4096 <? HEADER) with false. cbv iota. change (4096 - HEADER) with 0.
  rewrite u_add_ok by lia. apply wp_bind, wp_ret.
  unfold page. rewrite !u_div_ok by lia. apply wp_bind, wp_ret. apply wp_bind, wp_ret.
  rewrite N.div_0_l by lia. rewrite N.div_small by lia. cbn [N.eqb]. apply wp_bind, wp_ret.
  apply wp_bind, wp_lift, (wp_write true); cbn [i_fh i_pages i_recent i_last h_file]; [exact F1|rewrite P1; cbn; lia| |].
  2:{ intros h2 k [Hn|Hn]; [discriminate|]. rewrite P1 in Hn. lia. }
  intros h2 F2 E2 P2 N2. rewrite P1, E1 in E2. rewrite P1 in P2.
  assert (f_len (h_file h2) = 4096 + n) as L2 by (rewrite E2; change 4096 with (f_len f_new) at 2; rewrite len_write; reflexivity).
  apply wp_bind, wp_lift, (wp_write true); cbn [i_fh i_pages i_recent i_last h_file]; [exact F2|rewrite P2; lia| |].
  2:{ intros h3 k [Hn|Hn]; [discriminate|]. rewrite P2, to_be_length in Hn. lia. }
  intros h3 F3 E3 P3 N3. rewrite P2, <- L2 in E3.
  assert (f_len (h_file h3) = 4096 + n + 4) as L3 by (rewrite E3, len_write, to_be_length, L2; lia).
  set (g := h_file h3) in *.
  assert (f_read g HEADER (length d) = d) as R1.
  { rewrite E3. transitivity (f_read (h_file h2) HEADER (length d)).
    - apply f_read_ext. intros i Hi. apply app_write. lia.
    - rewrite E2. apply f_read_write_same. }
  assert (f_read g (HEADER + n) 4 = to_be 4 n) as R2.
  { rewrite E3. replace (HEADER + n) with (f_len (h_file h2)) by lia.
    transitivity (f_read (f_write (h_file h2) (f_len (h_file h2)) (to_be 4 n)) (f_len (h_file h2)) (length (to_be 4 n)));
      [now rewrite to_be_length|]. apply f_read_write_same. }
  apply wp_bind. eapply wp_mono; [apply (commit_spec dbg true); cbn [i_fh]; [exact F3|fold g; lia]| |].
  2:{ intros s [Hn _]. discriminate Hn. }
  intros id s4 (F4 & _ & -> & E4 & _). cbn [i_fh] in E4. fold g in E4. cbn [i_fh]. fold g.
  replace (f_len g - HEADER) with (n + 4) in * by lia.
  apply wp_bind. unfold wp at 1. rewrite u_mod_ok by lia. apply wp_bind, wp_ret.
  rewrite N.mod_small by lia. assert (n + 4 <? 4 = false) as -> by (apply N.ltb_ge; lia). cbn [andb].
  apply wp_ret. split; [reflexivity|]. cbn [i_fh]. rewrite E4.
  assert (ext g (set_hdr g (n + 4))) as X by (apply ext_set_hdr; lia).
  unfold f_big. split; [rewrite len_set_hdr by lia; lia|]. split; [apply hdr_set_hdr; lia|]. split.
  - etransitivity; [|exact R1]. apply f_read_ext. intros i Hi. apply X. lia.
  - etransitivity; [|exact R2]. apply f_read_ext. intros i Hi. apply X. lia.
Qed.

Definition tail32 : bytes := skipn (length d - N.to_nat low32) d.
Lemma low32_le : low32 <= n.
Proof. apply N.mod_le. discriminate. Qed.
Lemma tail32_len : length tail32 = N.to_nat low32.
Proof. unfold tail32. rewrite skipn_length. pose proof low32_le. lia. Qed.

Lemma f_big_blob g : f_big g -> vblob 4294967296 g (n + 4) tail32.
Proof.
  intros (L & _ & R1 & R2). assert (HEADER = 4096) as Hh by reflexivity. pose proof low32_le as Hle.
  assert (N.of_nat (length tail32) = low32) as Ht by (rewrite tail32_len; lia).
  unfold vblob, blob_at. rewrite Ht.
  assert (4 + low32 <= (n + 4) mod 4294967296) as Hmod.
  { rewrite N.add_mod by discriminate. fold low32. change (4 mod 4294967296) with 4. rewrite N.mod_small by exact Hlow. lia. }
  split; [|exact Hmod]. split; [lia|]. split; [lia|]. split; [lia|]. split.
  - rewrite tail32_len. replace (n + 4 + HEADER - 4 - low32) with (HEADER + N.of_nat (length d - N.to_nat low32)) by lia.
    assert (length d = (length d - N.to_nat low32) + N.to_nat low32)%nat as Es by lia.
    rewrite Es in R1 at 1. rewrite f_read_app in R1. unfold tail32. rewrite <- R1 at 3.
    rewrite skipn_app, f_read_length, Nat.sub_diag. cbn [skipn].
    rewrite skipn_all2 by (rewrite f_read_length; lia). reflexivity.
  - replace (n + 4 + HEADER - 4) with (HEADER + n) by lia. rewrite R2. symmetry.
    exact (to_be_mod 4 n).
Qed.

Lemma open_big g : f_big g ->
  exists s, step dbg ps (Closed g) (OReopen, None) = (Ok [], Opened s) /\ f_big (h_file (i_fh s)) /\
            i_recent s = [] /\ i_last s = n + 4.
Proof.
  intros G. pose proof G as (L & D & R1 & R2).
  assert (HEADER = 4096) as Hh by reflexivity. assert (max_file = 9223372036854775808) as Hx by reflexivity.
  assert (u64_max = 18446744073709551616) as Hu by reflexivity.
  unfold step. cbn [fst snd contents].
  assert (wp (open dbg ps) (fun s _ => f_big (h_file (i_fh s)) /\ i_recent s = [] /\ i_last s = n + 4) (fun _ => False) (FH g 0 None)) as A.
  { unfold open. apply N.eqb_eq in H8. rewrite H8. cbn [negb].
    apply wp_bind, (wp_seek_end true); [now intros _| |discriminate]. cbn [h_file]. intros h1 F1 E1 P1.
    rewrite L. assert (HEADER + n + 4 =? 0 = false) as -> by (apply N.eqb_neq; lia).
    assert (HEADER + n + 4 <? HEADER = false) as -> by (apply N.ltb_ge; lia). apply wp_bind, wp_ret.
    apply wp_bind. eapply wp_mono; [apply (read_size_spec 8 ltac:(lia) ltac:(lia) true); [exact F1|rewrite E1; lia]| |].
    2:{ intros h [Hn _]. discriminate Hn. }
    intros k h2 (F2 & E2 & ->). rewrite E1, D. unfold pure. rewrite u_add_ok by lia. apply wp_bind, wp_ret.
    apply wp_bind, (wp_set_len true); [exact F2|lia| |discriminate|discriminate].
    intros h3 F3 E3. rewrite E2, E1 in E3.
    apply wp_bind, (wp_seek_end true); [exact F3| |discriminate]. intros h4 F4 E4 P4.
    unfold wp. cbn [i_fh i_recent i_last]. rewrite E4, E3. split; [|split; reflexivity].
    assert (forall i, i < HEADER + n + 4 -> f_at (f_set_len g (n + 4 + HEADER)) i = f_at g i) as Hc
      by (intros i Hi; apply f_set_len_at; lia).
    unfold f_big. cbn [f_len f_set_len]. split; [lia|]. split; [|split].
    - rewrite <- D. unfold hdr. f_equal. apply f_read_ext. intros i Hi. apply Hc. lia.
    - etransitivity; [|exact R1]. apply f_read_ext. intros i Hi. apply Hc. lia.
    - etransitivity; [|exact R2]. apply f_read_ext. intros i Hi. apply Hc. lia. }
  apply wp_elim in A. destruct A as [(s & h & A & B)|(h & A & [])]. rewrite A. eauto.
Qed.

Lemma read_big s : f_big (h_file (i_fh s)) -> i_recent s = [] -> i_last s = n + 4 ->
  fst (step dbg ps (Opened s) (ORead (to_be 8 (n + 4)), None)) = Ok tail32.
Proof.
  intros G Hr Hl. pose proof (f_big_blob _ G) as V. pose proof G as (L & _).
  assert (HEADER = 4096) as Hh by reflexivity. assert (max_file = 9223372036854775808) as Hx by reflexivity.
  assert (u64_max = 18446744073709551616) as Hu by reflexivity.
  unfold step. cbn [fst snd]. unfold pf_read. rewrite to_be_length. cbn [Nat.eqb].
  rewrite of_to_be by (rewrite u64_pow; lia).
  assert (wp (bytes_at dbg ps (n + 4)) (fun e _ => e = tail32) (fun _ => False) (plan None s)) as A.
  { unfold bytes_at, wp at 1. cbn [plan i_last].
    match goal with |- match ?m ?s0 with _ => _ end => change (wp m (fun e _ => e = tail32) (fun _ => False) s0) end.
    rewrite Hl. unfold pure, page, offset_within_page. rewrite u_div_ok by lia. apply wp_bind, wp_ret.
    rewrite u_sub_ok by lia. cbn [bind]. rewrite u_div_ok by lia. apply wp_bind, wp_ret.
    rewrite u_mod_ok by lia. apply wp_bind, wp_ret. rewrite !N.div_small by lia. cbn [N.ltb N.compare].
    cbn [plan i_recent]. rewrite Hr. cbn [assoc]. apply wp_bind.
    eapply wp_mono; [apply (load_recent_spec dbg 4294967296 ltac:(lia) ltac:(lia) true);
                     [intros _; reflexivity|cbn [plan i_fh h_file]; lia|lia|intros _; lia]| |].
    - intros _ s1 ([E1 E2] & e & Er & B). unfold wp. rewrite Er. cbn [assoc]. rewrite N.eqb_refl.
      eapply blob_unique; [apply B; lia|apply V].
    - intros s1 (_ & _ & B). exact (B eq_refl _ V). }
  apply wp_elim in A. destruct A as [(e & s' & A & ->)|(s' & A & [])]. now rewrite A.
Qed.

Lemma large_page :
  exists id q, run dbg ps new_file [(OReopen, None); (OWrite d, None); (OReopen, None); (ORead id, None)] =
    ([(OReopen, Ok []); (OWrite d, Ok id); (OReopen, Ok []); (ORead id, Ok tail32)], q).
Proof.
  exists (to_be 8 (n + 4)). cbn [run]. rewrite open_new.
  assert (exists s1, step dbg ps (Opened (Inner (FH f_new 4096 None) [] [] 0)) (OWrite d, None) = (Ok (to_be 8 (n + 4)), Opened s1)
            /\ f_big (h_file (i_fh s1))) as (s1 & E1 & G1).
  { pose proof write_new as A. apply wp_elim in A. destruct A as [(id & s1 & A & -> & G)|(s1 & A & [])].
    exists s1. split; [|exact G]. unfold step. cbn [fst snd]. unfold pf_write, wbind, plan. cbn [i_fh h_file h_pos i_pages i_recent i_last].
    rewrite A. reflexivity. }
  rewrite E1. destruct (open_big _ G1) as (s2 & E2 & G2 & R2 & L2).
  assert (step dbg ps (Opened s1) (OReopen, None) = (Ok [], Opened s2)) as -> by exact E2.
  pose proof (read_big s2 G2 R2 L2) as E3. destruct (step dbg ps (Opened s2) (ORead _, None)) as [r p].
  cbn [fst] in E3. subst r. eauto.
Qed.
End Large.

(** A blob of 2^32 bytes becomes empty. *)
Lemma large_zero dbg :
  exists ps d id q, ps mod 8 = 0 /\ N.of_nat (length d) = 4294967296 /\
  run dbg ps new_file [(OReopen, None); (OWrite d, None); (OReopen, None); (ORead id, None)] =
    ([(OReopen, Ok []); (OWrite d, Ok id); (OReopen, Ok []); (ORead id, Ok [])], q).
Proof.
  assert (exists d : bytes, N.of_nat (length d) = 4294967296) as [d Hd].
  { exists (repeat x01 (N.to_nat 4294967296)). rewrite repeat_length. apply N2Nat.id. }
  assert (low32 d = 0) as Hl by (unfold low32; rewrite Hd; reflexivity).
  destruct (large_page dbg 8589934592 d eq_refl ltac:(lia) ltac:(lia) ltac:(lia)) as (id & q & E).
  exists 8589934592, d, id, q. split; [reflexivity|]. split; [exact Hd|].
  assert (tail32 d = []) as Ht by (apply length_zero_iff_nil; unfold tail32; rewrite skipn_length, Hl; lia).
  now rewrite Ht in E.
Qed.
