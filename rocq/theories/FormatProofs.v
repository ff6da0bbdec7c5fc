(** The code writes the documented format, and the format is unambiguous. *)
From Verif Require Import Base BaseLemmas Header Node Tree Rep Spec Client Store StoreSpec StoreProofs Format MemLemmas.

Lemma shape_ind' (P : shape -> Prop) :
  (forall p v cs, Forall P cs -> P (Shape p v cs)) -> forall s, P s.
Proof.
  intros H. fix IH 1. intros [p v cs]. apply H. induction cs; constructor; auto.
Qed.

Lemma len_byte_data n : n < 128 -> len_byte n = hdr_data n.
Proof.
  intros H. unfold len_byte, hdr_data. replace (n <=? 127) with true by (symmetry; apply Nat.leb_le; lia).
  reflexivity.
Qed.
Lemma len_byte_id n : n < 128 -> len_byte (128 + n) = byte_of (N.lor (N.of_nat n) 128).
Proof.
  intros H. unfold len_byte. rewrite Nat2N.inj_add.
  pose proof (small_N (fun x => Byte.eqb (byte_of (N.of_nat 128 + x)) (byte_of (N.lor x 128))) ltac:(vm_compute; reflexivity) n H) as E.
  apply byte_dec_bl in E. exact E.
Qed.
Lemma len_byte_inj a b : a < 256 -> b < 256 -> len_byte a = len_byte b -> a = b.
Proof.
  intros Ha Hb E. apply (f_equal bnum) in E. unfold len_byte in E. rewrite !bnum_byte_of in E.
  rewrite !N.mod_small in E by lia. lia.
Qed.

(** Growing stores keep encodings. *)
Section Mono.
Context (b1 b2 : bytes -> bytes -> Prop) (Hb : forall i d, b1 i d -> b2 i d).
Lemma prefix_field_mono p bs : prefix_field b1 p bs -> prefix_field b2 p bs.
Proof. intros []; constructor; auto. Qed.
Lemma value_field_mono p bs : value_field b1 p bs -> value_field b2 p bs.
Proof. intros []; constructor; auto. Qed.
Lemma encodes_mono s : forall bs, encodes b1 s bs -> encodes b2 s bs.
Proof.
  induction s as [p v cs IH] using shape_ind'. intros bs H.
  inversion H as [p1 v1 pb1 vb1 P1 V1|p1 v1 cs1 recs1 pb1 vb1 rs1 id1 P1 V1 N1 F1 R1 L1 B1]; subst.
  - apply enc_leaf; auto using prefix_field_mono, value_field_mono.
  - eapply enc_inner; eauto using prefix_field_mono, value_field_mono.
    clear - IH F1. revert recs1 F1. induction IH; intros recs F; inversion F; subst; constructor; auto.
Qed.
End Mono.

(** Unambiguous. *)
Section Unique.
Context (blob : bytes -> bytes -> Prop) (Hb : forall i d d', blob i d -> blob i d' -> d = d').

Lemma app_len_eq (a b r r' : bytes) : length a = length b -> a ++ r = b ++ r' -> a = b /\ r = r'.
Proof.
  revert b. induction a as [|x a IH]; intros [|y b]; cbn; try discriminate; auto.
  intros E H. injection H as -> H. destruct (IH b) as [-> ->]; auto.
Qed.

Lemma field_split (n m : nat) (a b r r' : bytes) : n < 256 -> m < 256 -> (n = m -> length a = length b) ->
  (len_byte n :: a) ++ r = (len_byte m :: b) ++ r' -> n = m /\ a = b /\ r = r'.
Proof.
  intros Hn Hm Hl E. cbn [app] in E. injection E as E1 E2. apply len_byte_inj in E1; auto. split; [exact E1|].
  apply app_len_eq; auto.
Qed.

Lemma prefix_field_unique p p' b b' r r' : prefix_field blob p b -> prefix_field blob p' b' ->
  b ++ r = b' ++ r' -> p = p' /\ b = b' /\ r = r'.
Proof.
  intros H H' E. destruct H as [p Hp|c q id Hq Hi Hd], H' as [p' Hp'|c' q' id' Hq' Hi' Hd'].
  - apply field_split in E as (_ & -> & ->); try lia; auto.
  - apply field_split in E as (E & _); lia.
  - apply field_split in E as (E & _); lia.
  - apply field_split in E as (_ & E & ->); try lia; [|intros; cbn; unfold bytes in *; lia].
    injection E as -> ->. specialize (Hb _ _ _ Hd Hd'). injection Hb as ->. auto.
Qed.

Lemma value_field_unique p p' b b' r r' : value_field blob p b -> value_field blob p' b' ->
  b ++ r = b' ++ r' -> p = p' /\ b = b' /\ r = r'.
Proof.
  change [x80] with (len_byte 128 :: []).
  intros H H' E. destruct H as [|v Hp|v id Hq Hi Hd], H' as [|v' Hp'|v' id' Hq' Hi' Hd'];
    change [x80] with (len_byte 128 :: []) in *; apply field_split in E as (E & E' & ->); try lia; auto;
    try (intros; cbn; unfold bytes in *; lia).
  - subst v'. auto.
  - subst id'. now rewrite (Hb _ _ _ Hd Hd').
Qed.

Lemma encodes_unique s : forall s' b b' r r', encodes blob s b -> encodes blob s' b' ->
  b ++ r = b' ++ r' -> s = s' /\ b = b' /\ r = r'.
Proof.
  induction s as [p v cs IH] using shape_ind'. intros s' b b' r r' H H' E.
  assert (forall (q : shape) (bs : bytes), encodes blob q bs -> bs <> []) as Hne.
  { intros q bs Hq. destruct Hq as [? ? ? ? Hpp _|? ? ? ? ? ? ? ? Hpp _ _ _ _ _ _]; destruct Hpp; discriminate. }
  inversion H as [p1 v1 pb1 vb1 P1 V1|p1 v1 cs1 recs1 pb1 vb1 rs1 id1 P1 V1 N1 F1 R1 L1 B1]; subst;
  inversion H' as [p2 v2 pb2 vb2 P2 V2|p2 v2 cs2 recs2 pb2 vb2 rs2 id2 P2 V2 N2 F2 R2 L2 B2]; subst;
    rewrite <- !app_assoc in E;
    destruct (prefix_field_unique _ _ _ _ _ _ P1 P2 E) as (-> & -> & E1);
    destruct (value_field_unique _ _ _ _ _ _ V1 V2 E1) as (-> & -> & E2);
    change [x80] with (len_byte 128 :: []) in E2.
  - apply field_split in E2 as (_ & _ & ->); auto; lia.
  - apply field_split in E2 as (E3 & _); lia.
  - apply field_split in E2 as (E3 & _); lia.
  - apply field_split in E2 as (_ & E3 & ->); try lia; [|intros; cbn; unfold bytes in *; lia].
    injection E3 as -> ->. specialize (Hb _ _ _ B1 B2).
    assert (cs = cs2) as ->; [|auto].
    clear - IH F1 F2 Hb Hne. revert recs1 recs2 cs2 F1 F2 Hb.
    induction IH as [|c cs Hc _ IHl]; intros recs1 recs2 cs2 F1 F2 E; inversion F1 as [|? r1 ? l1 Hr1 F1']; subst.
    + destruct F2 as [|c2 r2 cs2 l2 Hr2 F2]; [reflexivity|]. cbn in E. apply Hne in Hr2. destruct r2; [congruence|discriminate].
    + destruct F2 as [|c2 r2 cs2 l2 Hr2 F2]; cbn in E.
      * apply Hne in Hr1. destruct r1; [congruence|discriminate].
      * destruct (Hc _ _ _ _ _ Hr1 Hr2 E) as (-> & -> & E'). f_equal. eapply IHl; eauto.
Qed.
End Unique.

(** The record size computed by the loop. *)
Lemma record_fold recs : Forall (fun r : bytes => r <> []) recs ->
  forall n, 0 < n -> fold_left record_step (map (@length byte) recs) (Some n) =
    if forallb (fun r : bytes => length r =? n) recs then Some n else None.
Proof.
  induction 1 as [|r recs Hr _ IH]; intros n Hn; [reflexivity|]. cbn [map fold_left forallb record_step].
  destruct n as [|n]; [lia|]. rewrite Nat.eqb_sym. destruct (length r =? S n); cbn [andb]; [now apply IH|].
  clear. induction recs; cbn; auto.
Qed.
Lemma record_spec recs : recs <> [] -> Forall (fun r : bytes => r <> []) recs ->
  record_size recs (record_byte (fold_left record_step (map (@length byte) recs) (Some 0))).
Proof.
  intros Hn F. destruct recs as [|r recs]; [congruence|]. inversion F as [|? ? Hr F']; subst.
  cbn [map fold_left record_step]. rewrite record_fold; [|exact F'|destruct r; [congruence|cbn; lia]].
  destruct (forallb (fun x : bytes => length x =? length r) recs) eqn:E.
  - rewrite forallb_forall in E.
    assert (Forall (fun x : bytes => length x = length r) (r :: recs)) as U.
    { constructor; [reflexivity|]. apply Forall_forall. intros x Hx. apply Nat.eqb_eq. auto. }
    cbn [record_byte]. unfold u8_or_0. destruct (length r <=? 255) eqn:El.
    + left. exists (length r). split; [split; [now apply Nat.leb_le|exact U]|reflexivity].
    + right. split; [|reflexivity]. intros n [Hl Hu]. inversion Hu; subst. apply Nat.leb_gt in El. lia.
  - right. split; [|reflexivity]. intros n [_ Hu]. inversion Hu as [|? ? Hl Hu']; subst.
    assert (forallb (fun x : bytes => length x =? length r) recs = true) as E'; [|congruence].
    apply forallb_forall. rewrite Forall_forall in Hu'. intros x Hx. apply Nat.eqb_eq. auto.
Qed.

Section Ser.
Context (S : store) (inv : st S -> Prop) (L : strict S inv).

Definition blob_at (s : st S) (id d : bytes) : Prop := st_read S s id = Ok d.
Notation enc s := (encodes (blob_at s)).

Lemma enc_grows s s' g bs : grows S s s' -> enc s g bs -> enc s' g bs.
Proof. intros G. apply encodes_mono. exact G. Qed.

Lemma ser_prefix_enc s p : inv s -> wpost S inv (ser_blob S 1 (Data p)) s (fun bs s' => prefix_field (blob_at s') p bs).
Proof.
  intros I. unfold ser_blob. cbn [blob_is_id orb blob_slice]. destruct (length p <? 128) eqn:El.
  - apply Nat.ltb_lt in El. apply wpost_ret; [exact I|]. cbn [blob_hdr]. rewrite <- len_byte_data by exact El. now constructor.
  - apply Nat.ltb_ge in El. eapply wpost_bind; [apply wpost_write; [exact L|exact I]|]. intros id s' I' G [Hl Hr].
    rewrite hdr_id_ok by lia. apply wpost_pure. apply wpost_ret; [exact I'|].
    destruct p as [|c q]; [cbn in El; lia|]. cbn [firstn app]. rewrite <- len_byte_id by lia.
    rewrite (Nat.add_comm (length id) 1). constructor; auto.
Qed.
Lemma ser_value_enc s (v : option bytes) : inv s ->
  wpost S inv (ser_blob S 0 (match v with Some x => Data x | None => Id [] end)) s (fun bs s' => value_field (blob_at s') v bs).
Proof.
  intros I. destruct v as [v|]; unfold ser_blob; cbn [blob_is_id orb blob_slice].
  - destruct (length v <? 128) eqn:El.
    + apply Nat.ltb_lt in El. apply wpost_ret; [exact I|]. cbn [blob_hdr]. rewrite <- len_byte_data by exact El. now constructor.
    + apply Nat.ltb_ge in El. eapply wpost_bind; [apply wpost_write; [exact L|exact I]|]. intros id s' I' G [Hl Hr].
      rewrite hdr_id_ok by lia. apply wpost_pure. apply wpost_ret; [exact I'|].
      cbn [firstn app]. rewrite Nat.add_0_r, <- len_byte_id by lia. constructor; auto.
  - apply wpost_ret; [exact I|]. constructor.
Qed.

Lemma encodes_ne b g bs : encodes b g bs -> bs <> [].
Proof. intros Hq. destruct Hq as [? ? ? ? Hpp _|? ? ? ? ? ? ? ? Hpp _ _ _ _ _ _]; destruct Hpp; discriminate. Qed.

Lemma serialize_enc g : forall n s, inv s -> DRep n g ->
  wpost S inv (serialize S n) s (fun bs s' => enc s' (tshape g) bs).
Proof.
  induction g as [p v cs IH] using tree_ind'. intros n s I R. destruct n as [pb vb kb].
  apply Rep_inv in R as (RP & RV & ns & RK & F). cbn [n_prefix n_value n_kids] in *.
  rewrite serialize_eq.
  assert (pb = Data p) as -> by (destruct RP as [->|[? _]]; [reflexivity|discriminate]).
  assert (vb = match v with Some x => Data x | None => Id [] end) as ->.
  { destruct v as [x|]; [|exact RV]. destruct RV as [->|(c & id & _ & Hr)]; [reflexivity|discriminate]. }
  eapply wpost_bind; [eapply ser_prefix_enc; eauto|]. intros pbs s1 I1 G1 Ep.
  eapply wpost_bind; [eapply ser_value_enc; eauto|]. intros vbs s2 I2 G2 Ev.
  assert (forall l ds rs s, inv s -> Forall2 DRep l ds ->
    Forall (fun c => forall n s, inv s -> DRep n c -> wpost S inv (serialize S n) s (fun bs s' => enc s' (tshape c) bs)) ds ->
    wpost S inv (sers S rs l) s (fun x s' => exists recs, fst x = concat recs /\ Forall2 (enc s') (map tshape ds) recs /\
      snd x = fold_left record_step (map (@length byte) recs) rs)) as Loop.
  { clear. induction l as [|c l IHl]; intros ds rs s I F H; inversion F as [|? d ? ds' Rc F']; subst.
    - cbn. apply wpost_ret; [exact I|]. exists []. cbn. repeat split; constructor.
    - cbn [sers]. inversion H as [|? ? Hc H']; subst.
      eapply wpost_bind; [eauto|]. intros b s1 I1 G1 Eb.
      eapply wpost_bind; [apply (IHl ds' (record_step rs (length b)) s1); auto|].
      intros [bs rs'] s2 I2 G2 (recs & E1 & E2 & E3). apply wpost_ret; [exact I2|]. cbn [fst snd] in *.
      exists (b :: recs). subst. repeat split; auto. cbn [map]. constructor; [|exact E2]. eapply enc_grows; eauto. }
  destruct RK as [->|[[-> ->]|(r & id & data & -> & E & D & N)]]; [| |discriminate].
  - destruct ns as [|c ns]; cbn [ser_kids].
    + inversion F; subst. eapply wpost_bind; [apply wpost_ret with (Q := fun b _ => b = [hdr_none]); auto|]. intros kb s3 I3 G3 ->.
      apply wpost_ret; [exact I3|]. apply enc_leaf.
      * eapply prefix_field_mono; [|exact Ep]. intros i d H. apply G3, G2, H.
      * eapply value_field_mono; [|exact Ev]. intros i d H. apply G3, H.
    + eapply wpost_bind.
      { eapply wpost_bind; [apply (Loop (c :: ns) cs (Some 0) s2); auto|].
        intros [bs rs] s3 I3 G3 (recs & E1 & E2 & E3). cbn [fst snd] in *.
        eapply wpost_bind; [apply wpost_write; [exact L|exact I3]|]. intros id s4 I4 G4 [Hl Hr].
        rewrite hdr_id_ok by lia. apply wpost_pure.
        apply wpost_ret with (Q := fun kb s' => exists recs rs id, Forall2 (enc s') (map tshape cs) recs /\
          record_size recs rs /\ 1 <= length id <= 126 /\ blob_at s' id (concat recs) /\ kb = len_byte (128 + (1 + length id)) :: rs :: id); [exact I4|].
        exists recs, (record_byte rs), id. subst rs bs. split; [|split; [|split; [|split]]]; auto.
        - clear - E2 G4. induction E2; constructor; auto. eapply enc_grows; eauto.
        - apply record_spec.
          + intros ->. inversion E2 as [E|]. destruct cs; [inversion F|discriminate].
          + clear - E2. induction E2; constructor; auto. eapply encodes_ne; eauto.
        - rewrite len_byte_id by lia. now rewrite (Nat.add_comm 1 (length id)). }
      intros kb s3 I3 G3 (recs & rs & id & E2 & Hrs & Hl & Hr & ->). apply wpost_ret; [exact I3|].
      eapply enc_inner; eauto.
      * eapply prefix_field_mono; [|exact Ep]. intros i d H. apply G3, G2, H.
      * eapply value_field_mono; [|exact Ev]. intros i d H. apply G3, H.
      * destruct cs; [inversion F|discriminate].
  - cbn [ser_kids]. inversion F; subst. eapply wpost_bind; [apply wpost_ret with (Q := fun b _ => b = [x80]); auto|]. intros kb s3 I3 G3 ->.
    apply wpost_ret; [exact I3|]. apply enc_leaf.
    + eapply prefix_field_mono; [|exact Ep]. intros i d H. apply G3, G2, H.
    + eapply value_field_mono; [|exact Ev]. intros i d H. apply G3, H.
Qed.
End Ser.
