(** Attaching a tree succeeds when the store accepts the writes. *)
From Verif Require Import Base BaseLemmas Header Node Combine Iter Api Tree Rep Sim Spec Client Top TopOps
  PrefixProofs FindProofs Entries IterProofs MemLemmas Store StoreSpec StoreProofs World WorldProofs FailSpec FailProofs Logged
  AcceptSpec.
Local Open Scope nat_scope.

Notation len d := (N.of_nat (length d)).

Lemma takes_S S b k : forall s, takes S b (Datatypes.S k) s -> takes S b k s.
Proof.
  induction k as [|k IH]; intros s H; [exact Logic.I|]. intros d Hd.
  destruct (H d Hd) as (id & s' & E & H'). exists id, s'. split; [exact E|]. now apply IH.
Qed.
Lemma takes_le S b k k' s : k' <= k -> takes S b k s -> takes S b k' s.
Proof. intros L. induction L; auto. intros H. apply IHL. now apply takes_S. Qed.

(** Every edge and value fits, and no node has more than 256 children. *)
Fixpoint tfits (b : N) (t : tree) : Prop :=
  match t with
  | T p v cs => (len p <= b)%N /\ (match v with Some x => len x <= b | None => True end)%N /\ length cs <= 256 /\
      (fix go (l : list tree) : Prop := match l with [] => True | c :: l => tfits b c /\ go l end) cs
  end.
Lemma tfits_kids b p v cs : tfits b (T p v cs) <->
  (len p <= b)%N /\ (match v with Some x => len x <= b | None => True end)%N /\ length cs <= 256 /\ Forall (tfits b) cs.
Proof.
  cbn. split; intros (A & B & C & H); (split; [exact A|]); (split; [exact B|]); (split; [exact C|]).
  - clear C. induction cs; constructor; [apply H|apply IHcs, H].
  - clear C. induction H; auto.
Qed.

Section Ser.
Context (S : store) (inv : st S -> Prop) (L : strict S inv) (b : N) (Hb : (kids_max <= b)%N).
(** States in which [k] more writes are accepted. *)
Context (tk : nat -> st S -> Prop) (tk_S : forall k s, tk (Datatypes.S k) s -> tk k s)
  (tk_write : forall k s d, tk (Datatypes.S k) s -> (len d <= b)%N -> exists id s', st_write S s d = (Ok id, s') /\ tk k s').

Lemma tk_le k k' s : k' <= k -> tk k s -> tk k' s.
Proof. intros H. induction H; auto. Qed.

(** The computation succeeds, and [k] more writes are accepted. *)
Definition wacc {A} (m : wm (st S) A) (s : st S) (k : nat) (Q : A -> Prop) : Prop :=
  exists a s', m s = (Ok a, s') /\ inv s' /\ grows S s s' /\ tk k s' /\ Q a.

Lemma wacc_ret {A} (a : A) s k (Q : A -> Prop) : inv s -> tk k s -> Q a -> wacc (wret (Ok a)) s k Q.
Proof. intros I T H. exists a, s. split; [reflexivity|]. split; [exact I|]. split; [apply grows_refl|]. auto. Qed.
Lemma wacc_bind {A B} (m : wm (st S) A) (k : A -> wm (st S) B) s j j' P Q :
  wacc m s j P -> (forall a s', inv s' -> grows S s s' -> tk j s' -> P a -> wacc (k a) s' j' Q) ->
  wacc (wbind m k) s j' Q.
Proof.
  intros (a & s' & E & I & G & T & H) K. destruct (K a s' I G T H) as (a' & s2 & E' & I' & G' & T' & H').
  exists a', s2. unfold wbind. rewrite E. split; [exact E'|]. split; [exact I'|]. split; [|auto].
  eapply grows_trans; eauto.
Qed.
Lemma wacc_pure {A B} (a : A) (k : A -> wm (st S) B) s j Q : wacc (k a) s j Q -> wacc (wbind (wret (Ok a)) k) s j Q.
Proof. exact (fun H => H). Qed.
Lemma wacc_write d s k : inv s -> tk (Datatypes.S k) s -> (len d <= b)%N ->
  wacc (w_write S d) s k (fun id => 1 <= length id <= 126).
Proof.
  intros I T Hd. destruct (tk_write _ _ d T Hd) as (id & s' & E & T').
  destruct (str_write _ _ L _ _ _ _ I E) as [I' [H|(i & H & Hl & _)]]; [discriminate|]. injection H as <-.
  exists id, s'. split; [exact E|]. split; [exact I'|]. split; [|auto].
  intros i x Hx. exact (str_keep _ _ L s d (Ok id) s' i x I E Hx).
Qed.

Lemma acc_prefix ids s k pb p : inv s -> RepP ids (st_read S s) pb p -> (len p <= b)%N -> tk (Datatypes.S k) s ->
  wacc (ser_blob S 1 pb) s k (fun bs => length bs <= 128).
Proof.
  intros I R Hp T. unfold ser_blob. destruct (blob_is_id pb) eqn:Eid; cbn [orb].
  - apply wacc_ret; [exact I|now apply tk_S|]. 
    destruct R as [->|(_ & c & id & q & -> & Hr & _)]; [discriminate|].
    pose proof (str_ids _ _ L _ _ _ I Hr). cbn in *. unfold bytes in *. lia.
  - assert (pb = Data p) as -> by (eapply RepP_data; eauto). cbn [blob_slice]. destruct (length p <? 128) eqn:El.
    + apply Nat.ltb_lt in El. apply wacc_ret; [exact I|now apply tk_S|]. cbn. unfold bytes in *. lia.
    + eapply wacc_bind; [apply wacc_write; eauto|]. intros id s' I' G T' Hl.
      cbn beta in Hl. unfold bytes in *. rewrite hdr_id_ok by lia. apply wacc_pure. apply wacc_ret; [exact I'|exact T'|].
      cbn [length]. rewrite app_length, firstn_length. lia.
Qed.
Lemma acc_value s k vb v : inv s -> RepV (st_read S s) vb v -> (match v with Some x => len x <= b | None => True end)%N ->
  tk (Datatypes.S k) s -> wacc (ser_blob S 0 vb) s k (fun bs => length bs <= 128).
Proof.
  intros I R Hp T. unfold ser_blob. destruct (blob_is_id vb) eqn:Eid; cbn [orb].
  - apply wacc_ret; [exact I|now apply tk_S|].
    destruct v as [x|]; [destruct R as [->|(c & id & -> & Hr)]; [discriminate|]|].
    + pose proof (str_ids _ _ L _ _ _ I Hr). cbn in *. unfold bytes in *. lia.
    + cbn in R. subst. cbn. lia.
  - destruct v as [x|]; [destruct R as [->|(c & id & -> & Hr)]; [|discriminate]|cbn in R; subst; discriminate].
    cbn [blob_slice]. destruct (length x <? 128) eqn:El.
    + apply Nat.ltb_lt in El. apply wacc_ret; [exact I|now apply tk_S|]. cbn. unfold bytes in *. lia.
    + eapply wacc_bind; [apply wacc_write; eauto|]. intros id s' I' G T' Hl.
      cbn beta in Hl. unfold bytes in *. rewrite hdr_id_ok by lia. apply wacc_pure. apply wacc_ret; [exact I'|exact T'|].
      cbn [length]. rewrite app_length, firstn_length. lia.
Qed.

Lemma acc_serialize ids g : forall n s k, inv s -> Rep ids (st_read S s) n g -> tfits b g ->
  tk (3 * size g + k) s -> wacc (serialize S n) s k (fun bs => length bs <= 384).
Proof.
  induction g as [p v cs IH] using tree_ind'. intros n s k I R Hs T. destruct n as [pb vb kb].
  apply Rep_inv in R as (RP & RV & ns & RK & F). cbn [n_prefix n_value n_kids] in *.
  apply tfits_kids in Hs as (Hp & Hv & Hc & Hk). rewrite size_T in T.
  rewrite serialize_eq.
  eapply wacc_bind; [eapply acc_prefix with (k := 2 + 3 * sizes cs + k); eauto; eapply tk_le; [|exact T]; lia|].
  intros pbs s1 I1 G1 T1 Lp.
  assert (RepV (st_read S s1) vb v) as RV1.
  { destruct v as [x|]; [|exact RV]. destruct RV as [->|(c & id & -> & Hr)]; [now left|right]. eauto. }
  eapply wacc_bind; [eapply acc_value with (k := 1 + 3 * sizes cs + k); eauto|].
  intros vbs s2 I2 G2 T2 Lv.
  assert (Forall2 (Rep ids (st_read S s2)) ns cs) as F2.
  { assert (G : grows S s s2) by (eapply grows_trans; eauto). clear - F G.
    induction F; constructor; auto. eapply Rep_grows; eauto. }
  assert (forall l ds rs s k, inv s -> Forall2 (Rep ids (st_read S s)) l ds -> Forall (tfits b) ds ->
    Forall (fun c => forall n s k, inv s -> Rep ids (st_read S s) n c -> tfits b c ->
                     tk (3 * size c + k) s -> wacc (serialize S n) s k (fun bs => length bs <= 384)) ds ->
    tk (3 * sizes ds + k) s ->
    wacc (sers S rs l) s k (fun x => (len (fst x) <= 384 * len ds)%N)) as Loop.
  { clear - L tk_S tk_write. induction l as [|c l IHl]; intros ds rs s k I F Hf H T; inversion F; subst.
    - cbn [sers]. apply wacc_ret; [exact I|exact T|]. cbn. lia.
    - cbn [sers]. inversion Hf; inversion H; subst. rewrite sizes_cons in T.
      eapply wacc_bind; [eapply H8 with (k := 3 * sizes l' + k); eauto; eapply tk_le; [|exact T]; lia|].
      intros bs s1 I1 G1 T1 Lb.
      eapply wacc_bind; [eapply IHl with (ds := l'); eauto|].
      { clear - G1 H4. induction H4; constructor; auto. eapply Rep_grows; eauto. }
      intros x s2 I2 G2 T2 Lx. apply wacc_ret; [exact I2|exact T2|]. cbn [fst snd length].
      rewrite app_length. cbn beta in *. lia. }
  assert (wacc (ser_kids S kb) s2 k (fun bs => length bs <= 128)) as Kids.
  { unfold ser_kids. destruct RK as [->|[[-> ->]|(r & id & data & -> & E & D & N)]].
    - destruct ns as [|c ns].
      + apply wacc_ret; [exact I2|eapply tk_le; [|exact T2]; lia|]. cbn. lia.
      + eapply wacc_bind; [eapply Loop with (ds := cs) (k := Datatypes.S k); eauto; eapply tk_le; [|exact T2]; lia|].
        intros x s3 I3 G3 T3 Lx.
        eapply wacc_bind; [apply wacc_write; [exact I3|exact T3|]|].
        { unfold kids_max in Hb. cbn beta in *. unfold bytes in *. lia. }
        intros id s4 I4 G4 T4 Hl. cbn beta in Hl. unfold bytes in *. rewrite hdr_id_ok by lia. apply wacc_pure. apply wacc_ret; [exact I4|exact T4|].
        cbn. lia.
    - apply wacc_ret; [exact I2|eapply tk_le; [|exact T2]; lia|]. cbn. lia.
    - assert (st_read S s2 id = Ok data) as E2 by (apply G2, G1, E).
      apply wacc_ret; [exact I2|eapply tk_le; [|exact T2]; lia|].
      pose proof (str_ids _ _ L _ _ _ I2 E2). cbn in *. unfold bytes in *. lia. }
  eapply wacc_bind; [exact Kids|]. intros kbs s3 I3 G3 T3 Lk.
  apply wacc_ret; [exact I3|exact T3|]. rewrite !app_length. cbn beta in *. unfold bytes in *. lia.
Qed.
End Ser.

(* ------------------------------------------------------------------ *)
(** Trees whose entries fit. *)

Lemma kids_256 cs : ksorted cs -> Forall cc cs -> length cs <= 256.
Proof.
  intros So C. destruct (le_lt_dec (length cs) 256) as [H|H]; [exact H|].
  destruct (nth_error cs 256) as [a|] eqn:E; [|apply nth_error_None in E; lia].
  pose proof (proj1 (Forall_forall _ _) C a (nth_error_In _ _ E)) as Ca. destruct (cc_fb _ Ca) as (x & Hx & Lx).
  pose proof (sorted_ge cs So C 256 a x E Hx). lia.
Qed.

Lemma entries_len_kids path cs : length (entriesl path cs) = list_sum (map (fun c => length (entries path c)) cs).
Proof. unfold entriesl. induction cs as [|c cs IH]; [reflexivity|]. cbn. now rewrite app_length, IH. Qed.

Lemma cc_size g : cc g -> forall path, size g + 1 <= 2 * length (entries path g).
Proof.
  induction g as [p v cs IH] using tree_ind'. intros C path. inversion C as [? ? ? Np Lv So Fc]; subst.
  rewrite entries_T, app_length, entries_len_kids, size_T.
  assert (sizes cs + length cs <= 2 * list_sum (map (fun c => length (entries (path ++ p) c)) cs)) as A.
  { clear - IH Fc. induction cs as [|c cs IHc]; [cbn; lia|]. inversion IH; inversion Fc; subst.
    specialize (IHc H2 H6). rewrite sizes_cons. cbn [map list_sum fold_right length]. specialize (H1 H5 (path ++ p)).
    fold (list_sum (map (fun c => length (entries (path ++ p) c)) cs)) in *. unfold list_sum in *. lia. }
  destruct Lv as [Lv|Lv]; [destruct v; [cbn [length]|congruence]; lia|lia].
Qed.
Lemma croot_size g : croot g -> size g <= 2 * length (entries [] g) + 1.
Proof.
  intros [->|(Lv & So & Fc)]; [cbn; lia|]. destruct g as [p v cs]. cbn [tv tc] in *.
  rewrite entries_T, app_length, entries_len_kids, size_T.
  assert (sizes cs <= 2 * list_sum (map (fun c => length (entries ([] ++ p) c)) cs)) as A.
  { clear - Fc. induction Fc as [|c cs H Fc IHc]; [cbn; lia|]. rewrite sizes_cons. cbn [map list_sum fold_right].
    pose proof (cc_size c H ([] ++ p)). unfold list_sum in *. lia. }
  lia.
Qed.

Lemma tfits_ok b g : croot g -> (forall k x, lookup g k = Some x -> len k <= b /\ len x <= b)%N -> tfits b g.
Proof.
  assert (forall g, cc g -> (forall k x, lookup g k = Some x -> len k <= b /\ len x <= b)%N -> tfits b g) as A.
  { induction g0 as [p v cs IH] using tree_ind'. intros C H. inversion C as [? ? ? Np Lv So Fc]; subst.
    apply tfits_kids. split; [|split; [|split]].
    - destruct (cc_has_key _ C) as [k Hk]. destruct (lookup (T p v cs) k) as [y|] eqn:E; [|congruence].
      destruct (H k y E) as [Hl _]. rewrite lookup_raw in E. unfold rawlook in E.
      destruct (strip p k) as [r|] eqn:Es; [|discriminate]. apply strip_spec in Es. subst.
      rewrite app_length in Hl. unfold bytes in *. lia.
    - destruct v as [x|]; [|exact Logic.I]. exact (proj2 (H p x (lookup_here _ _ _))).
    - now apply kids_256.
    - rewrite Forall_forall in *. intros c Hc. apply IH; auto. intros k x Hk.
      destruct (H (p ++ k) x) as [H1 H2]. { eapply lookup_child; eauto. now apply Forall_forall. }
      rewrite app_length in H1. unfold bytes in *. split; [lia|exact H2]. }
  intros [->|(Lv & So & Fc)] H.
  - apply tfits_kids. cbn. split; [lia|]. split; [exact Logic.I|]. split; [lia|constructor].
  - destruct g as [p v cs]. cbn [tp tv tc] in *. apply tfits_kids.
    assert (croot (T p v cs)) as C by (right; auto). split; [|split; [|split]].
    + assert (T p v cs <> tempty) as Ne.
      { intros E. injection E as -> -> ->. destruct Lv as [Lv|Lv]; [congruence|cbn in Lv; lia]. }
      destruct (croot_has_key _ C Ne) as [k Hk]. destruct (lookup (T p v cs) k) as [y|] eqn:E; [|congruence].
      destruct (H k y E) as [Hl _]. rewrite lookup_raw in E. unfold rawlook in E.
      destruct (strip p k) as [r|] eqn:Es; [|discriminate]. apply strip_spec in Es. subst.
      rewrite app_length in Hl. unfold bytes in *. lia.
    + destruct v as [x|]; [|exact Logic.I]. exact (proj2 (H p x (lookup_here _ _ _))).
    + now apply kids_256.
    + rewrite Forall_forall in *. intros c Hc. apply A; auto. intros k x Hk.
      destruct (H (p ++ k) x) as [H1 H2]. { eapply lookup_child; eauto. now apply Forall_forall. }
      rewrite app_length in H1. unfold bytes in *. split; [lia|exact H2].
Qed.
