(** Decoding of arbitrary bytes, and the round trip of single nodes. *)
From Verif Require Import Base BaseLemmas Header Node Tree Rep Store StoreSpec StoreProofs Format FormatProofs.

Lemma hdr_len_mod h : N.of_nat (hdr_len h) = (bnum h mod 128)%N.
Proof. unfold hdr_len. rewrite N2Nat.id. destruct h; reflexivity. Qed.
Lemma hdr_is_id_ge h : hdr_is_id h = (128 <=? bnum h)%N.
Proof. destruct h; reflexivity. Qed.

Lemma read_field_field i x tl : field i x -> exists b, read_field (x ++ tl) = Some (b, tl) /\ blob_is_id b = i.
Proof.
  intros [h payload Hl]. rewrite <- hdr_len_mod in Hl. apply Nat2N.inj in Hl.
  cbn [read_field app]. rewrite app_length, <- Hl.
  replace (length payload + length tl <? length payload) with false by (symmetry; apply Nat.ltb_ge; lia).
  rewrite firstn_app_l, skipn_app_l. eexists. split; [reflexivity|]. rewrite hdr_is_id_ge.
  destruct (128 <=? bnum h)%N; reflexivity.
Qed.
Lemma read_field_some rest b tl : read_field rest = Some (b, tl) ->
  exists x, field (blob_is_id b) x /\ rest = x ++ tl.
Proof.
  destruct rest as [|h r]; [discriminate|]. cbn [read_field]. destruct (length r <? hdr_len h) eqn:El; [discriminate|].
  apply Nat.ltb_ge in El. intros H. injection H as <- <-.
  exists (h :: firstn (hdr_len h) r). split.
  - assert (blob_is_id (if hdr_is_id h then Id (firstn (hdr_len h) r) else Data (firstn (hdr_len h) r)) = (128 <=? bnum h)%N) as ->.
    { rewrite <- hdr_is_id_ge. destruct (hdr_is_id h); reflexivity. }
    constructor. rewrite firstn_length, Nat.min_l by exact El. apply hdr_len_mod.
  - cbn. now rewrite firstn_skipn.
Qed.

Lemma three_read i data : three_fields i data -> exists p v c, read_one data = Some (BNode p v c, []) /\ blob_is_id c = i.
Proof.
  intros (j & k & a & b & c & Fa & Fb & Fc & ->). unfold read_one.
  destruct (read_field_field _ a (b ++ c) Fa) as (p & -> & _).
  destruct (read_field_field _ b c Fb) as (v & -> & _).
  destruct (read_field_field _ c [] Fc) as (k' & E & Hk). rewrite app_nil_r in E. rewrite E. eauto 6.
Qed.

(** What decoding does on any bytes. *)
Lemma decode_any data :
  (three_fields true data -> exists n, deserialize data = Ok n) /\
  (three_fields false data -> deserialize data = Panic) /\
  (~ three_fields true data -> ~ three_fields false data -> deserialize data = Err).
Proof.
  split; [|split].
  - intros H. destruct (three_read _ _ H) as (p & v & c & E & Hc). unfold deserialize. rewrite E. unfold b_to_owned. cbn.
    destruct c; [discriminate|]. eauto.
  - intros H. destruct (three_read _ _ H) as (p & v & c & E & Hc). unfold deserialize. rewrite E. unfold b_to_owned. cbn.
    destruct c; [reflexivity|discriminate].
  - intros H1 H2. unfold deserialize. destruct (read_one data) as [[[p v c] rest]|] eqn:E; [|reflexivity].
    destruct rest as [|]; [|reflexivity]. exfalso. unfold read_one in E.
    destruct (read_field data) as [[p' r1]|] eqn:E1; [|discriminate].
    destruct (read_field r1) as [[v' r2]|] eqn:E2; [|discriminate].
    destruct (read_field r2) as [[c' r3]|] eqn:E3; [|discriminate]. injection E as -> -> -> ->.
    apply read_field_some in E1 as (x1 & F1 & ->). apply read_field_some in E2 as (x2 & F2 & ->).
    apply read_field_some in E3 as (x3 & F3 & ->). rewrite app_nil_r in *.
    destruct c; [apply H2|apply H1]; exists (blob_is_id p), (blob_is_id v), x1, x2, x3; auto.
Qed.

(** Round trip of one node.  [b'] is what comes back for the field [b], of which the
    first [k] bytes are kept when it is moved to the store. *)
Definition field_back (S : store) (s : st S) (k : nat) (b b' : blob) : Prop :=
  (b' = b /\ (blob_is_id b = true \/ length (blob_slice b) < 128)) \/
  (blob_is_id b = false /\ 128 <= length (blob_slice b) /\
   exists id, b' = Id (firstn k (blob_slice b) ++ id) /\ st_read S s id = Ok (blob_slice b)).

Section Back.
Context (S : store) (inv : st S -> Prop) (L : strict S inv).

Lemma ser_blob_back k b s : k <= 1 -> inv s -> (blob_is_id b = true -> length (blob_slice b) < 128) ->
  wpost S inv (ser_blob S k b) s (fun bs s' => exists b', (forall rest, read_field (bs ++ rest) = Some (b', rest)) /\
    field_back S s' k b b').
Proof.
  intros Hk I Hb. unfold ser_blob. destruct (blob_is_id b) eqn:Ei; cbn [orb].
  - apply wpost_ret; [exact I|]. exists b. split; [intros; apply read_field_hdr; auto|]. left. auto.
  - destruct (length (blob_slice b) <? 128) eqn:El.
    + apply Nat.ltb_lt in El. apply wpost_ret; [exact I|]. exists b. split; [intros; apply read_field_hdr; auto|]. left. auto.
    + apply Nat.ltb_ge in El. eapply wpost_bind; [apply wpost_write; [exact L|exact I]|]. intros id s' I' G [Hl Hr].
      rewrite hdr_id_ok by lia. apply wpost_pure. apply wpost_ret; [exact I'|].
      assert (length (firstn k (blob_slice b) ++ id) = length id + k) as E.
      { rewrite app_length, firstn_length, Nat.min_l by lia. lia. }
      exists (Id (firstn k (blob_slice b) ++ id)). split.
      * intros rest. rewrite <- E. apply read_field_id. rewrite E. lia.
      * right. split; [exact Ei|]. split; [exact El|]. exists id. auto.
Qed.

Lemma field_back_grows s s' k b b' : grows S s s' -> field_back S s k b b' -> field_back S s' k b b'.
Proof. intros G [H|(H1 & H2 & id & E & H)]; [now left|right]. eauto 8. Qed.

(** A node whose children are stored or absent. *)
Lemma node_back p v c s : inv s ->
  (blob_is_id p = true -> length (blob_slice p) < 128) -> (blob_is_id v = true -> length (blob_slice v) < 128) ->
  length c < 128 ->
  (exists bs s' p' v', serialize S (Node p v (KId c)) s = (Ok bs, s') /\ inv s' /\
    deserialize bs = Ok (Node p' v' (KId c)) /\ field_back S s' 1 p p' /\ field_back S s' 0 v v') \/
  (exists s', serialize S (Node p v (KId c)) s = (Err, s') /\ inv s' /\ may_refuse S inv).
Proof.
  intros I Hp Hv Hc.
  assert (wpost S inv (serialize S (Node p v (KId c))) s (fun bs s' => exists p' v',
    deserialize bs = Ok (Node p' v' (KId c)) /\ field_back S s' 1 p p' /\ field_back S s' 0 v v')) as W.
  { rewrite serialize_eq. eapply wpost_bind; [apply (ser_blob_back 1 p); auto|]. intros pb s1 I1 G1 (p' & E1 & F1).
    eapply wpost_bind; [apply (ser_blob_back 0 v); auto|]. intros vb s2 I2 G2 (v' & E2 & F2).
    cbn [ser_kids]. apply wpost_pure. apply wpost_ret; [exact I2|]. exists p', v'. split; [|split; [|exact F2]].
    - pose proof (read_one_fields pb vb (blob_hdr (Id c) :: c) p' v' (Id c) E1 E2
        (fun rest => read_field_id c rest Hc) []) as E. rewrite app_nil_r in E.
      unfold deserialize. rewrite E. reflexivity.
    - eapply field_back_grows; eauto. }
  destruct W as (r & s' & E & I' & _ & [[-> M]|(bs & -> & p' & v' & D)]).
  - right. eauto.
  - left. exists bs, s', p', v'. tauto.
Qed.
End Back.
