(** Writing a tree to a store and reading it back. *)
From Verif Require Import Base BaseLemmas Header Node Tree Rep PrefixProofs Store StoreSpec.

(* ------------------------------------------------------------------ *)
(** Header bytes. *)

Lemma bnum_byte_of n : bnum (byte_of n) = (n mod 256)%N.
Proof.
  unfold byte_of, bnum. assert (n mod 256 < 256)%N as H by (apply N.mod_lt; discriminate).
  destruct (Byte.of_N (n mod 256)) as [b|] eqn:E.
  - now apply Byte.to_of_N.
  - apply Byte.of_N_None_iff in E. lia.
Qed.

Lemma small_N (P : N -> bool) : forallb P (map N.of_nat (seq 0 128)) = true ->
  forall n, n < 128 -> P (N.of_nat n) = true.
Proof.
  intros H n Hn. rewrite forallb_forall in H. apply H, in_map, in_seq. lia.
Qed.

Lemma hdr_data_len n : n < 128 -> hdr_len (hdr_data n) = n /\ hdr_is_id (hdr_data n) = false.
Proof.
  intros H. unfold hdr_data, hdr_len, hdr_is_id. replace (n <=? 127) with true by (symmetry; apply Nat.leb_le; lia).
  pose proof (small_N (fun x => andb (N.eqb (N.land (bnum (byte_of x)) 127) x)
    (N.eqb (N.land (bnum (byte_of x)) 128) 0)) ltac:(vm_compute; reflexivity) n H) as E.
  apply andb_true_iff in E as [E1 E2]. apply N.eqb_eq in E1. rewrite E1, E2. split; [lia|reflexivity].
Qed.

Lemma hdr_id_len n : n < 128 ->
  hdr_len (byte_of (N.lor (N.of_nat n) 128)) = n /\ hdr_is_id (byte_of (N.lor (N.of_nat n) 128)) = true.
Proof.
  intros H. unfold hdr_len, hdr_is_id.
  pose proof (small_N (fun x => andb (N.eqb (N.land (bnum (byte_of (N.lor x 128))) 127) x)
    (negb (N.eqb (N.land (bnum (byte_of (N.lor x 128))) 128) 0))) ltac:(vm_compute; reflexivity) n H) as E.
  apply andb_true_iff in E as [E1 E2]. apply N.eqb_eq in E1. rewrite E1, E2. split; [lia|reflexivity].
Qed.

Lemma hdr_id_ok n : n < 128 -> hdr_id n = Ok (byte_of (N.lor (N.of_nat n) 128)).
Proof. intros H. unfold hdr_id. apply Nat.ltb_lt in H. now rewrite H. Qed.

(** Reading back one field. *)
Lemma firstn_app_l {A} (a b : list A) : firstn (length a) (a ++ b) = a.
Proof. rewrite firstn_app, Nat.sub_diag, firstn_all. cbn. apply app_nil_r. Qed.
Lemma skipn_app_l {A} (a b : list A) : skipn (length a) (a ++ b) = b.
Proof. rewrite skipn_app, Nat.sub_diag, skipn_all. reflexivity. Qed.

Lemma read_field_data x rest : length x < 128 ->
  read_field ((hdr_data (length x) :: x) ++ rest) = Some (Data x, rest).
Proof.
  intros H. unfold bytes in *. destruct (hdr_data_len _ H) as [E1 E2]. cbn [read_field app]. rewrite E1, E2, app_length.
  replace (length x + length rest <? length x) with false by (symmetry; apply Nat.ltb_ge; lia).
  now rewrite firstn_app_l, skipn_app_l.
Qed.

Lemma read_field_id x rest : length x < 128 ->
  read_field ((byte_of (N.lor (N.of_nat (length x)) 128) :: x) ++ rest) = Some (Id x, rest).
Proof.
  intros H. unfold bytes in *. destruct (hdr_id_len _ H) as [E1 E2]. cbn [read_field app]. rewrite E1, E2, app_length.
  replace (length x + length rest <? length x) with false by (symmetry; apply Nat.ltb_ge; lia).
  now rewrite firstn_app_l, skipn_app_l.
Qed.

Lemma read_field_hdr b rest : length (blob_slice b) < 128 ->
  read_field ((blob_hdr b :: blob_slice b) ++ rest) = Some (b, rest).
Proof. destruct b; [apply read_field_data|apply read_field_id]. Qed.

(** All edges of the tree are shorter than 128 bytes. *)
Fixpoint tshort (t : tree) : Prop :=
  match t with
  | T p _ cs => length p < 128 /\
      (fix go (l : list tree) : Prop := match l with [] => True | c :: l => tshort c /\ go l end) cs
  end.
Lemma tshort_kids p v cs : tshort (T p v cs) <-> length p < 128 /\ Forall tshort cs.
Proof.
  cbn. split; intros [H H']; split; auto.
  - induction cs; constructor; [apply H'|apply IHcs, H'].
  - induction H'; auto.
Qed.

(** A stricter contract than [lawful]: writes never change what any id reads.  The
    proofs are done for stores with this contract; Logged.v extends them to all
    lawful stores. *)
Record strict (S : store) (inv : st S -> Prop) : Prop := {
  str_write : forall s d r s', inv s -> st_write S s d = (r, s') ->
    inv s' /\
    (r = Err \/ exists id, r = Ok id /\ 1 <= length id <= 126 /\ st_read S s' id = Ok d);
  str_keep : forall s d r s' id x, inv s -> st_write S s d = (r, s') ->
    st_read S s id = Ok x -> st_read S s' id = Ok x;
  str_ids : forall s id x, inv s -> st_read S s id = Ok x -> length id <= 126
}.

Definition grows (S : store) (s s' : st S) : Prop :=
  forall id x, st_read S s id = Ok x -> st_read S s' id = Ok x.
Lemma grows_refl S s : grows S s s.
Proof. intros id x H. exact H. Qed.
Lemma grows_trans S s s' s'' : grows S s s' -> grows S s' s'' -> grows S s s''.
Proof. intros H H' id x E. auto. Qed.

Section Ser.
Context (S : store) (inv : st S -> Prop) (L : strict S inv).

(** A computation either is refused by the store or ends in a state satisfying
    [Q]; in both cases the store only grows. *)
Definition wpost {A} (m : wm (st S) A) (s : st S) (Q : A -> st S -> Prop) : Prop :=
  exists r s', m s = (r, s') /\ inv s' /\ grows S s s' /\
    ((r = Err /\ may_refuse S inv) \/ exists a, r = Ok a /\ Q a s').

Lemma wpost_ret {A} (a : A) s (Q : A -> st S -> Prop) : inv s -> Q a s -> wpost (wret (Ok a)) s Q.
Proof.
  intros I H. exists (Ok a), s. split; [reflexivity|]. split; [exact I|]. split; [apply grows_refl|].
  right. eauto.
Qed.

Lemma wpost_bind {A B} (m : wm (st S) A) (k : A -> wm (st S) B) s P Q :
  wpost m s P -> (forall a s', inv s' -> grows S s s' -> P a s' -> wpost (k a) s' Q) -> wpost (wbind m k) s Q.
Proof.
  intros (r & s' & E & I & G & H) K. unfold wbind. destruct H as [[-> M]|(a & -> & H)].
  - exists Err, s'. rewrite E. auto 6.
  - destruct (K a s' I G H) as (r' & s'' & E' & I' & G' & H'). exists r', s''.
    unfold wpost. rewrite E. split; [exact E'|]. split; [exact I'|]. split; [|exact H'].
    eapply grows_trans; eauto.
Qed.

Lemma wpost_pure {A B} (a : A) (k : A -> wm (st S) B) s Q : wpost (k a) s Q -> wpost (wbind (wret (Ok a)) k) s Q.
Proof. exact (fun H => H). Qed.

Lemma wpost_imp {A} (m : wm (st S) A) s (P Q : A -> st S -> Prop) :
  wpost m s P -> (forall a s', inv s' -> grows S s s' -> P a s' -> Q a s') -> wpost m s Q.
Proof.
  intros (r & s' & E & I & G & H) K. exists r, s'. repeat split; auto.
  destruct H as [H|(a & -> & H)]; [now left|right]. exists a. split; auto.
Qed.

Lemma wpost_write d s : inv s -> wpost (w_write S d) s
  (fun id s' => 1 <= length id <= 126 /\ st_read S s' id = Ok d).
Proof.
  intros I. unfold w_write. destruct (st_write S s d) as [r s'] eqn:E.
  destruct (str_write _ _ L _ _ _ _ I E) as [I' H]. exists r, s'.
  split; [exact E|]. split; [exact I'|]. split.
  - intros id x Hx. exact (str_keep _ _ L s d r s' id x I E Hx).
  - destruct H as [->|(id & -> & H)]; [left|right; eauto]. split; [reflexivity|]. exists s, d, s'. auto.
Qed.

(** What the fields of a written node must satisfy. *)
Lemma ser_prefix_ok ids s b p : inv s -> RepP ids (st_read S s) b p -> (ids = true \/ length p < 128) ->
  wpost (ser_blob S 1 b) s (fun bs s' => exists b', (forall rest, read_field (bs ++ rest) = Some (b', rest)) /\
    RepP ids (st_read S s') b' p).
Proof.
  intros I R Hs. unfold ser_blob. destruct (blob_is_id b) eqn:Eid; cbn [orb].
  - apply wpost_ret; [exact I|]. exists b. split; [|exact R]. intros rest. apply read_field_hdr.
    destruct R as [->|(_ & c & id & q & -> & Hr & _)]; [discriminate|]. cbn.
    pose proof (str_ids _ _ L _ _ _ I Hr). lia.
  - assert (b = Data p) as -> by (eapply RepP_data; eauto). cbn [blob_slice]. destruct (length p <? 128) eqn:El.
    + apply Nat.ltb_lt in El. apply wpost_ret; [exact I|]. exists (Data p). split; [|now left].
      intros rest. now apply read_field_data.
    + apply Nat.ltb_ge in El. destruct Hs as [->|Hs]; [|lia].
      eapply wpost_bind; [apply wpost_write; exact I|]. intros id s' I' G [Hl Hr].
      rewrite hdr_id_ok by lia. apply wpost_pure. 
      destruct p as [|c q]; [cbn in El; lia|]. apply wpost_ret; [exact I'|].
      exists (Id (c :: id)). split.
      * intros rest. cbn [firstn app]. rewrite Nat.add_1_r.
        apply (read_field_id (c :: id)). cbn; lia.
      * right. split; [reflexivity|]. exists c, id, q. auto.
Qed.

Lemma ser_value_ok s b v : inv s -> RepV (st_read S s) b v ->
  wpost (ser_blob S 0 b) s (fun bs s' => exists b', (forall rest, read_field (bs ++ rest) = Some (b', rest)) /\
    RepV (st_read S s') b' v).
Proof.
  intros I R. unfold ser_blob. destruct (blob_is_id b) eqn:Eid; cbn [orb].
  - apply wpost_ret; [exact I|]. exists b. split; [|exact R]. intros rest. apply read_field_hdr.
    destruct v as [x|]; [destruct R as [->|(c & id & -> & Hr)]; [discriminate|]|].
    + pose proof (str_ids _ _ L _ _ _ I Hr). cbn in *. lia.
    + cbn in R. subst. cbn. lia.
  - destruct v as [x|]; [destruct R as [->|(c & id & -> & Hr)]; [|discriminate]|cbn in R; subst; discriminate].
    cbn [blob_slice]. destruct (length x <? 128) eqn:El.
    + apply Nat.ltb_lt in El. apply wpost_ret; [exact I|]. exists (Data x). split; [|now left].
      intros rest. now apply read_field_data.
    + eapply wpost_bind; [apply wpost_write; exact I|]. intros id s' I' G [Hl Hr].
      rewrite hdr_id_ok by lia. apply wpost_pure. apply wpost_ret; [exact I'|].
      exists (Id id). split.
      * intros rest. cbn [firstn app]. rewrite Nat.add_0_r. apply read_field_id. lia.
      * right. destruct id as [|c id]; [cbn in Hl; lia|]. eauto.
Qed.

(** The node in the bytes [bs] stands for [g]. *)
Definition written ids (g : tree) (bs : bytes) (s : st S) : Prop :=
  exists b n, (forall rest, read_one (bs ++ rest) = Some (b, rest)) /\ b_to_owned b = Ok n /\
    Rep ids (st_read S s) n g.

Lemma Rep_grows ids s s' n g : grows S s s' -> Rep ids (st_read S s) n g -> Rep ids (st_read S s') n g.
Proof. intros G. apply Rep_mono; auto. Qed.

(** The loop over the children. *)
Fixpoint sers (rs : option nat) (l : list node) : wm (st S) (bytes * option nat) :=
  match l with
  | [] => wret (Ok ([], rs))
  | c :: l' =>
      b <~ serialize S c ;;
      r <~ sers (record_step rs (length b)) l' ;;
      wret (Ok (b ++ fst r, snd r))
  end.

Definition ser_kids (k : kids) : wm (st S) bytes :=
  match k with
  | KArc (c :: cs) =>
      x <~ sers (Some 0) (c :: cs) ;;
      id <~ w_write S (fst x) ;;
      h <~ wret (hdr_id (length id + 1)) ;;
      wret (Ok (h :: record_byte (snd x) :: id))
  | KArc [] => wret (Ok [hdr_none])
  | KId id => wret (Ok (blob_hdr (Id id) :: id))
  end.

Lemma serialize_eq p v k : serialize S (Node p v k) =
  (pb <~ ser_blob S 1 p ;; vb <~ ser_blob S 0 v ;; kb <~ ser_kids k ;; wret (Ok (pb ++ vb ++ kb))).
Proof. reflexivity. Qed.

Lemma read_one_fields pb vb kb p v c :
  (forall rest, read_field (pb ++ rest) = Some (p, rest)) ->
  (forall rest, read_field (vb ++ rest) = Some (v, rest)) ->
  (forall rest, read_field (kb ++ rest) = Some (c, rest)) ->
  forall rest, read_one ((pb ++ vb ++ kb) ++ rest) = Some (BNode p v c, rest).
Proof. intros H1 H2 H3 rest. unfold read_one. now rewrite <- !app_assoc, H1, H2, H3. Qed.

Lemma serialize_ok ids g : forall n s, inv s -> Rep ids (st_read S s) n g -> (ids = true \/ tshort g) ->
  wpost (serialize S n) s (written ids g).
Proof.
  induction g as [p v cs IH] using tree_ind'. intros n s I R Hs. destruct n as [pb vb kb].
  apply Rep_inv in R as (RP & RV & ns & RK & F). cbn [n_prefix n_value n_kids] in *.
  assert (ids = true \/ length p < 128) as Hp.
  { destruct Hs as [Hs|Hs]; auto. apply tshort_kids in Hs. tauto. }
  assert (Forall (fun c => ids = true \/ tshort c) cs) as Hc.
  { destruct Hs as [Hs|Hs]; [apply Forall_forall; auto|]. apply tshort_kids in Hs as [_ Hs].
    eapply Forall_impl; [|exact Hs]. auto. }
  rewrite serialize_eq.
  eapply wpost_bind; [eapply ser_prefix_ok; eauto|]. intros pbs s1 I1 G1 (pb' & Ep & RP').
  assert (RepV (st_read S s1) vb v) as RV1.
  { destruct v as [x|]; [|exact RV]. destruct RV as [->|(c & id & -> & Hr)]; [now left|right]. eauto. }
  eapply wpost_bind; [eapply ser_value_ok; eauto|]. intros vbs s2 I2 G2 (vb' & Ev & RV').
  (* the children *)
  assert (Forall2 (Rep ids (st_read S s2)) ns cs) as F2.
  { assert (G : grows S s s2) by (eapply grows_trans; eauto). clear - F G.
    induction F; constructor; auto. eapply Rep_grows; eauto. }
  assert (forall l ds rs s, inv s -> Forall2 (Rep ids (st_read S s)) l ds ->
    Forall (fun c => forall n s, inv s -> Rep ids (st_read S s) n c -> ids = true \/ tshort c ->
                     wpost (serialize S n) s (written ids c)) ds ->
    Forall (fun c => ids = true \/ tshort c) ds ->
    wpost (sers rs l) s (fun x s' => exists ms, decode (fst x) ms /\ Forall2 (Rep ids (st_read S s')) ms ds)) as Loop.
  { clear. induction l as [|c l IHl]; intros ds rs s I F H Hs; inversion F; subst.
    - cbn. apply wpost_ret; [exact I|]. exists []. cbn. split; constructor.
    - cbn [sers]. inversion H; inversion Hs; subst.
      eapply wpost_bind; [eauto|]. intros b s1 I1 G1 (bn & m & E & O & Rm).
      eapply wpost_bind; [apply (IHl l' _ s1); auto|].
      { clear - G1 H4. induction H4; constructor; auto. eapply Rep_grows; eauto. }
      intros [bs rs'] s2 I2 G2 (ms & D & Fm). apply wpost_ret; [exact I2|]. cbn [fst snd] in *.
      exists (m :: ms). split.
      + econstructor; [apply E|exact O|exact D].
      + constructor; [|exact Fm]. eapply Rep_grows; eauto. }
  assert (wpost (ser_kids kb) s2 (fun bs s' => exists id ns', (forall rest, read_field (bs ++ rest) = Some (Id id, rest)) /\
    KidsOf (st_read S s') (KId id) ns' /\ Forall2 (Rep ids (st_read S s')) ns' cs)) as Kids.
  { unfold ser_kids. destruct RK as [->|[[-> ->]|(r & id & data & -> & E & D & N)]].
    - destruct ns as [|c ns].
      + inversion F; subst. apply wpost_ret; [exact I2|]. exists [], []. split; [|split].
        * intros rest. apply (read_field_id []). cbn; lia.
        * right; left. auto.
        * constructor.
      + eapply wpost_bind; [apply (Loop (c :: ns) cs); auto|].
        intros [bs rs] s3 I3 G3 (ms & D & Fm). cbn [fst snd] in *.
        eapply wpost_bind; [apply wpost_write; exact I3|]. intros id s4 I4 G4 [Hl Hr].
        rewrite hdr_id_ok by lia. apply wpost_pure. apply wpost_ret; [exact I4|].
        exists (record_byte rs :: id), ms. split; [|split].
        * intros rest. rewrite Nat.add_1_r. apply (read_field_id (record_byte rs :: id)). cbn; lia.
        * right; right. exists (record_byte rs), id, bs. repeat split; auto.
          intros ->. inversion Fm; subst. inversion F.
        * clear - Fm G4. induction Fm; constructor; auto. eapply Rep_grows; eauto.
    - inversion F; subst. apply wpost_ret; [exact I2|]. exists [], []. split; [|split].
      + intros rest. apply (read_field_id []). cbn; lia.
      + right; left. auto.
      + constructor.
    - assert (st_read S s2 id = Ok data) as E2 by (apply G2, G1, E).
      apply wpost_ret; [exact I2|]. exists (r :: id), ns. split; [|split].
      + intros rest. apply (read_field_id (r :: id)). pose proof (str_ids _ _ L _ _ _ I2 E2). cbn; lia.
      + right; right. exists r, id, data. auto.
      + exact F2. }
  eapply wpost_bind; [exact Kids|]. intros kbs s3 I3 G3 (id & ns' & Ek & RK' & F').
  apply wpost_ret; [exact I3|].
  exists (BNode pb' vb' (Id id)), (Node pb' vb' (KId id)). split; [|split].
  - apply read_one_fields; auto.
  - reflexivity.
  - apply Rep_mk with (ns := ns'); cbn; auto.
    + destruct RP' as [->|(E & c & i & q & -> & Hr & ->)]; [now left|right]. split; [exact E|].
      exists c, i, q. auto.
    + destruct v as [x|]; [|exact RV']. destruct RV' as [->|(c & i & -> & Hr)]; [now left|right]. eauto.
Qed.

Lemma written_deserialize ids g bs s : written ids g bs s ->
  exists n, deserialize bs = Ok n /\ Rep ids (st_read S s) n g /\ is_empty n = tnil g.
Proof.
  intros (b & n & E & O & R). exists n. specialize (E []). rewrite app_nil_r in E.
  unfold deserialize. rewrite E. split; [exact O|]. split; [exact R|].
  destruct (tnil g) eqn:En; [|eapply Rep_tnil; eauto].
  unfold b_to_owned in O. destruct (b_children b) as [|c]; [discriminate|]. injection O as <-.
  destruct g as [p v cs]. unfold tnil in En. cbn in En. destruct v; [discriminate|]. destruct cs; [|discriminate].
  apply Rep_inv in R as (_ & RV & ns & RK & F). inversion F; subst. cbn in *. rewrite RV.
  unfold is_empty, has_value, is_leaf. cbn.
  destruct RK as [?|[[H _]|(r & id & data & _ & _ & _ & N)]]; [discriminate| |congruence].
  injection H as ->. reflexivity.
Qed.

Lemma attached_ok ids g n s : inv s -> Rep ids (st_read S s) n g -> (ids = true \/ tshort g) ->
  wpost (t_attached S n) s (fun n' s' => Rep ids (st_read S s') n' g /\ is_empty n' = tnil g).
Proof.
  intros I R Hs. unfold t_attached. eapply wpost_bind; [eapply serialize_ok; eauto|].
  intros bs s' I' G' W. destruct (written_deserialize _ _ _ _ W) as (n' & -> & R' & E').
  apply wpost_ret; auto.
Qed.

Lemma reattach_ok ids g n s : inv s -> Rep ids (st_read S s) n g -> (ids = true \/ tshort g) ->
  wpost (t_reattach S n) s (fun x s' => t_load S s' (Some (fst x)) = Ok (snd x) /\
    Rep ids (st_read S s') (snd x) g /\ is_empty (snd x) = tnil g).
Proof.
  intros I R Hs. unfold t_reattach. eapply wpost_bind; [eapply serialize_ok; eauto|].
  intros bs s' I' G' W.
  eapply wpost_bind; [apply wpost_write; exact I'|]. intros id s2 I2 G2 [_ Hr].
  destruct (written_deserialize _ _ _ _ W) as (n' & E & R' & E'). rewrite E.
  apply wpost_pure.
  apply wpost_ret; [exact I2|]. cbn [fst snd]. split; [|split; auto].
  - unfold t_load. rewrite Hr. exact E.
  - eapply Rep_grows; [exact G2|exact R'].
Qed.
End Ser.

(** Edges are at most as long as keys. *)
Lemma short_edges g : croot g -> (forall k, lookup g k <> None -> length k < 128) -> tshort g.
Proof.
  assert (forall g, cc g -> (forall k, lookup g k <> None -> length k < 128) -> tshort g) as A.
  { induction g0 as [p v cs IH] using tree_ind'. intros C H. inversion C as [? ? ? Np Lv So Fc]; subst.
    apply tshort_kids. split.
    - destruct (cc_has_key _ C) as [k Hk]. pose proof (H k Hk) as Hl.
      destruct (lookup (T p v cs) k) eqn:E; [|congruence]. rewrite lookup_raw in E. unfold rawlook in E.
      destruct (strip p k) as [r|] eqn:Es; [|discriminate]. apply strip_spec in Es. subst.
      rewrite app_length in Hl. unfold bytes in *. lia.
    - rewrite Forall_forall in *. intros c Hc. apply IH; auto. intros k Hk.
      destruct (lookup c k) as [x|] eqn:E; [|congruence].
      assert (lookup (T p v cs) (p ++ k) = Some x) as E'.
      { eapply lookup_child; eauto. now apply Forall_forall. }
      specialize (H (p ++ k)). rewrite E', app_length in H. assert (Some x <> None) as N by discriminate.
      specialize (H N). unfold bytes in *. lia. }
  intros [->|(Lv & So & Fc)] H.
  - apply tshort_kids. cbn. split; [lia|constructor].
  - destruct g as [p v cs]. cbn [tp tv tc] in *. apply tshort_kids. 
    assert (croot (T p v cs)) as C by (right; auto). split.
    + assert (T p v cs <> tempty) as Ne.
      { intros E. injection E as -> -> ->. destruct Lv as [Lv|Lv]; [congruence|cbn in Lv; lia]. }
      destruct (croot_has_key _ C Ne) as [k Hk]. pose proof (H k Hk) as Hl.
      destruct (lookup (T p v cs) k) eqn:E; [|congruence]. rewrite lookup_raw in E. unfold rawlook in E.
      destruct (strip p k) as [r|] eqn:Es; [|discriminate]. apply strip_spec in Es. subst.
      rewrite app_length in Hl. unfold bytes in *. lia.
    + rewrite Forall_forall in *. intros c Hc. apply A; auto. intros k Hk.
      destruct (lookup c k) as [x|] eqn:E; [|congruence].
      assert (lookup (T p v cs) (p ++ k) = Some x) as E'.
      { eapply lookup_child; eauto. now apply Forall_forall. }
      specialize (H (p ++ k)). rewrite E', app_length in H. assert (Some x <> None) as N by discriminate.
      specialize (H N). unfold bytes in *. lia.
Qed.
