(** Proofs about blobs. *)
From Verif Require Import Base BaseLemmas Blob BlobSpec.
Local Open Scope N_scope.

(** ** Lists *)
Lemma set_nth_length {A} (x : A) : forall n l, length (set_nth n x l) = length l.
Proof. induction n as [|n IH]; intros [|y l]; cbn; auto. Qed.
Lemma set_nth_get {A} (x : A) : forall n l m,
  nth_error (set_nth n x l) m = if (n =? m)%nat then (if (n <? length l)%nat then Some x else None) else nth_error l m.
Proof.
  induction n as [|n IH]; intros [|y l] [|m]; cbn [set_nth nth_error length Nat.eqb]; try reflexivity.
  - destruct (n =? m)%nat; reflexivity.
  - rewrite IH. reflexivity.
Qed.
Lemma Forall2_set {A B} (R : A -> B -> Prop) : forall n x y l k, Forall2 R l k -> R x y -> Forall2 R (set_nth n x l) (set_nth n y k).
Proof. induction n as [|n IH]; intros x y l k H Hxy; destruct H; cbn; constructor; auto. Qed.
Lemma Forall2_get {A B} (R : A -> B -> Prop) l k : Forall2 R l k -> forall n x, nth_error l n = Some x ->
  exists y, nth_error k n = Some y /\ R x y.
Proof.
  induction 1 as [|a b l k Hab H IH]; intros [|n] x E; cbn in E; try discriminate.
  - injection E as <-. exists b. auto.
  - exact (IH n x E).
Qed.
Lemma Forall2_none {A B} (R : A -> B -> Prop) l k : Forall2 R l k -> forall n, nth_error l n = None -> nth_error k n = None.
Proof. induction 1 as [|a b l k Hab H IH]; intros [|n] E; cbn in *; try discriminate; auto. Qed.

Definition counts (r : nat) (v : option view) : bool :=
  match v with Some v => v_owned v && (v_src v =? r)%nat | None => false end.
Definition b2n (b : bool) : nat := if b then 1%nat else 0%nat.
Lemma owners_cons r v l : owners r (v :: l) = (b2n (counts r v) + owners r l)%nat.
Proof. unfold owners, counts. cbn [filter]. destruct v as [v|]; [|reflexivity]. now destruct (v_owned v && (v_src v =? r)%nat). Qed.
Lemma owners_app r l k : owners r (l ++ k) = (owners r l + owners r k)%nat.
Proof. unfold owners. rewrite filter_app, app_length. reflexivity. Qed.
Lemma owners_one r v : owners r [v] = b2n (counts r v).
Proof. rewrite owners_cons. unfold owners. cbn. lia. Qed.
Lemma owners_set r : forall i v x l, nth_error l i = Some v ->
  (owners r (set_nth i x l) + b2n (counts r v) = owners r l + b2n (counts r x))%nat.
Proof.
  induction i as [|i IH]; intros v x [|y l] E; cbn in E; try discriminate.
  - injection E as ->. cbn [set_nth]. rewrite !owners_cons. lia.
  - cbn [set_nth]. rewrite !owners_cons. specialize (IH v x l E). lia.
Qed.
Lemma owners_in r l i v : nth_error l i = Some (Some v) -> v_owned v = true -> v_src v = r -> (0 < owners r l)%nat.
Proof.
  intros E Ho <-. pose proof (owners_set (v_src v) i (Some v) None l E) as H.
  cbn [counts] in H. rewrite Ho, Nat.eqb_refl in H. cbn [andb b2n] in H. lia.
Qed.

(** ** The invariant *)
Definition owned_region (g : region) : bool := match r_refs g with Some _ => true | None => false end.
(** What does not change while blobs are cloned and dropped. *)
Definition shape (g : region) : N * bytes * bool := (r_base g, r_data g, owned_region g).
Definition shows (m : mem) (b : blob) (v : view) : Prop :=
  match b_at b with
  | None => v = nothing /\ b_owner b = None
  | Some (r, o, n) =>
      exists base d, option_map shape (nth_error m r) = Some (base, d, v_owned v) /\
      (o + n <= length d)%nat /\ v_src v = r /\ v_off v = o /\ v_bytes v = part o n d /\
      b_owner b = (if v_owned v then Some r else None)
  end.
Definition shown (m : mem) (b : option blob) (v : option view) : Prop :=
  match b, v with
  | Some b, Some v => shows m b v
  | None, None => True
  | _, _ => False
  end.
Definition counted (m : mem) (l : list (option view)) : Prop :=
  forall r g k, nth_error m r = Some g -> r_refs g = Some k -> k = owners r l.
Definition disjoint (m : mem) : Prop :=
  (forall r g, nth_error m r = Some g -> r_base g + N.of_nat (length (r_data g)) <= usize_max) /\
  forall r r' g g', nth_error m r = Some g -> nth_error m r' = Some g' -> live g -> live g' -> r <> r' ->
    apart (r_base g) (r_data g) g'.
Record sim (s : bstate) (v : vstate) : Prop := {
  sim_srcs : vs_srcs v = length (bs_mem s);
  sim_blobs : Forall2 (shown (bs_mem s)) (bs_blobs s) (vs_blobs v);
  sim_refs : counted (bs_mem s) (vs_blobs v);
  sim_apart : disjoint (bs_mem s);
  sim_range : forall r, (length (bs_mem s) <= r)%nat -> owners r (vs_blobs v) = 0%nat
}.

Lemma shows_shape m m' b v : (forall r x, option_map shape (nth_error m r) = Some x -> option_map shape (nth_error m' r) = Some x) ->
  shows m b v -> shows m' b v.
Proof.
  intros H. unfold shows. destruct (b_at b) as [[[r o] n]|]; [|auto].
  intros (base & d & E & H2). exists base, d. split; [exact (H _ _ E)|exact H2].
Qed.
Lemma shown_shape m m' l k : (forall r x, option_map shape (nth_error m r) = Some x -> option_map shape (nth_error m' r) = Some x) ->
  Forall2 (shown m) l k -> Forall2 (shown m') l k.
Proof.
  intros H F. induction F as [|b v l k Hb F IH]; constructor; [|exact IH].
  destruct b as [b|], v as [v|]; cbn in *; auto. exact (shows_shape _ _ _ _ H Hb).
Qed.
Lemma set_refs_shape m r g k : nth_error m r = Some g -> owned_region g = true ->
  forall r' x, option_map shape (nth_error m r') = Some x -> option_map shape (nth_error (set_nth r (set_refs g k) m) r') = Some x.
Proof.
  intros E Ho r' x Ex. rewrite set_nth_get. destruct (Nat.eqb_spec r r') as [<-|]; [|exact Ex].
  assert (r < length m)%nat as Hr by (apply nth_error_Some; congruence).
  apply Nat.ltb_lt in Hr. rewrite Hr. rewrite E in Ex. cbn in *. unfold shape, set_refs, owned_region in *. cbn. now rewrite Ho in Ex.
Qed.
Lemma disjoint_refs m r g k : disjoint m -> nth_error m r = Some g -> live g -> disjoint (set_nth r (set_refs g k) m).
Proof.
  intros [H1 H2] E Hl.
  assert (forall q h, nth_error (set_nth r (set_refs g k) m) q = Some h -> live h ->
    exists h', nth_error m q = Some h' /\ r_base h' = r_base h /\ r_data h' = r_data h /\ live h') as K.
  { intros q h Eq Lq. rewrite set_nth_get in Eq. destruct (Nat.eqb_spec r q) as [<-|]; [|exists h; auto].
    destruct (r <? length m)%nat; [|discriminate]. injection Eq as <-. exists g. auto. }
  split.
  - intros q h Eq. rewrite set_nth_get in Eq. destruct (Nat.eqb_spec r q) as [<-|]; [|exact (H1 _ _ Eq)].
    destruct (r <? length m)%nat; [|discriminate]. injection Eq as <-. cbn. exact (H1 _ _ E).
  - intros a b ga gb Ea Eb La Lb Hab.
    destruct (K a ga Ea La) as (ha & Ea' & B1 & D1 & L1). destruct (K b gb Eb Lb) as (hb & Eb' & B2 & D2 & L2).
    pose proof (H2 a b ha hb Ea' Eb' L1 L2 Hab) as H. unfold apart in *. rewrite <- B1, <- D1, <- B2, <- D2. exact H.
Qed.

Section Sim.
Context (s : bstate) (v : vstate) (HS : sim s v).
Lemma sim_get i b : blob_no s i = Some b -> exists w, view_no v i = Some w /\ shows (bs_mem s) b w.
Proof.
  unfold blob_no, view_no. destruct (nth_error (bs_blobs s) i) as [[b'|]|] eqn:E; try discriminate. intros H. injection H as ->.
  destruct (Forall2_get _ _ _ (sim_blobs _ _ HS) _ _ E) as (y & Ey & Hy). rewrite Ey. destruct y as [w|]; [|contradiction].
  exists w. auto.
Qed.
Lemma sim_no i : blob_no s i = None -> view_no v i = None.
Proof.
  unfold blob_no, view_no. destruct (nth_error (bs_blobs s) i) as [[b'|]|] eqn:E; try discriminate; intros _.
  - destruct (Forall2_get _ _ _ (sim_blobs _ _ HS) _ _ E) as (y & Ey & Hy). rewrite Ey. now destruct y.
  - now rewrite (Forall2_none _ _ _ (sim_blobs _ _ HS) _ E).
Qed.
Lemma view_at i w : view_no v i = Some w -> nth_error (vs_blobs v) i = Some (Some w).
Proof. unfold view_no. destruct (nth_error (vs_blobs v) i) as [[x|]|]; congruence. Qed.

(** The memory of a live blob is there. *)
Lemma sim_region i b w r o n : blob_no s i = Some b -> view_no v i = Some w -> shows (bs_mem s) b w -> b_at b = Some (r, o, n) ->
  exists g, nth_error (bs_mem s) r = Some g /\ region_of (bs_mem s) r = Good g /\ live g /\ (o + n <= length (r_data g))%nat /\
    v_src w = r /\ v_off w = o /\ v_bytes w = part o n (r_data g) /\ owned_region g = v_owned w /\
    b_owner b = (if v_owned w then Some r else None) /\
    (v_owned w = true -> exists k, r_refs g = Some (S k)).
Proof.
  intros Eb Ew Hs Ea. unfold shows in Hs. rewrite Ea in Hs. destruct Hs as (base & d & Eg & Hl & H1 & H2 & H3 & H4).
  destruct (nth_error (bs_mem s) r) as [g|] eqn:En; [|discriminate]. cbn [option_map] in Eg.
  assert (r_data g = d /\ owned_region g = v_owned w) as [<- Ho] by (unfold shape in Eg; split; congruence).
  assert (v_owned w = true -> exists k, r_refs g = Some (S k)) as Hk.
  { intros Hw. unfold owned_region in Ho. destruct (r_refs g) as [k|] eqn:Er; [|congruence].
    pose proof (sim_refs _ _ HS r g k En Er) as Ek.
    pose proof (owners_in r _ _ _ (view_at _ _ Ew) Hw H1). destruct k as [|k]; [lia|]. now exists k. }
  assert (live g) as Hlv.
  { unfold live. intros E0. unfold owned_region in Ho. rewrite E0 in Ho. destruct (Hk (eq_sym Ho)). congruence. }
  exists g. split; [reflexivity|]. split.
  - unfold region_of. rewrite En. unfold live in Hlv. destruct (r_refs g) as [[|k]|]; congruence.
  - auto 10.
Qed.
Lemma part_length o n (d : bytes) : (o + n <= length d)%nat -> length (part o n d) = n.
Proof. intros H. unfold part. rewrite firstn_length, skipn_length. lia. Qed.
Lemma sim_length i b w : blob_no s i = Some b -> view_no v i = Some w -> shows (bs_mem s) b w -> b_length b = length (v_bytes w).
Proof.
  intros Eb Ew Hs. unfold b_length. destruct (b_at b) as [[[r o] n]|] eqn:Ea.
  - destruct (sim_region _ _ _ _ _ _ Eb Ew Hs Ea) as (g & _ & _ & _ & Hl & _ & _ & -> & _). now rewrite part_length.
  - unfold shows in Hs. rewrite Ea in Hs. now destruct Hs as [-> _].
Qed.
Lemma sim_read i b w : blob_no s i = Some b -> view_no v i = Some w -> shows (bs_mem s) b w -> b_read (bs_mem s) b = Good (v_bytes w).
Proof.
  intros Eb Ew Hs. unfold b_read. destruct (b_at b) as [[[r o] n]|] eqn:Ea.
  - destruct (sim_region _ _ _ _ _ _ Eb Ew Hs Ea) as (g & _ & -> & _ & Hl & _ & _ & -> & _).
    apply Nat.leb_le in Hl. rewrite Hl. reflexivity.
  - unfold shows in Hs. rewrite Ea in Hs. now destruct Hs as [-> _].
Qed.
(** Taking one more reference for a new blob. *)
Lemma sim_own b w i : blob_no s i = Some b -> view_no v i = Some w -> shows (bs_mem s) b w -> forall b' w',
  b_owner b' = b_owner b -> v_owned w' = v_owned w -> (v_owned w = true -> v_src w' = v_src w) ->
  (forall m', (forall r x, option_map shape (nth_error (bs_mem s) r) = Some x -> option_map shape (nth_error m' r) = Some x) -> shows m' b' w') ->
  exists m', own (bs_mem s) (b_owner b) = Good m' /\ sim (BState m' (bs_blobs s ++ [Some b'])) (vpush w' v).
Proof.
  intros Eb Ew Hs b' w' Hb' Hw' Hsrc Hsh.
  assert (Forall2 (shown (bs_mem s)) (bs_blobs s) (vs_blobs v)) as F by apply (sim_blobs _ _ HS).
  destruct (v_owned w) eqn:Hw.
  - destruct (b_at b) as [[[r o] n]|] eqn:Ea.
    2: { unfold shows in Hs. rewrite Ea in Hs. destruct Hs as [-> _]. discriminate. }
    destruct (sim_region _ _ _ _ _ _ Eb Ew Hs Ea) as (g & En & _ & Hl & _ & Hr & _ & _ & Ho & Hob & Hk).
    rewrite Hw in *. destruct (Hk eq_refl) as (k & Ek). rewrite Hob. cbn [own]. rewrite En, Ek.
    pose proof (set_refs_shape _ _ _ (S (S k)) En Ho) as Sh.
    eexists. split; [reflexivity|]. constructor; cbn [bs_mem bs_blobs vpush vs_srcs vs_blobs].
    + rewrite set_nth_length. apply (sim_srcs _ _ HS).
    + apply Forall2_app; [exact (shown_shape _ _ _ _ Sh F)|]. constructor; [|constructor]. exact (Hsh _ Sh).
    + intros q h j Eq Ej. rewrite owners_app, owners_one. cbn [counts]. rewrite Hw', Hsrc by reflexivity. rewrite Hr. cbn [andb].
      rewrite set_nth_get in Eq. destruct (Nat.eqb_spec r q) as [<-|Hn].
      * destruct (r <? length (bs_mem s))%nat; [|discriminate]. injection Eq as <-. cbn in Ej. injection Ej as <-.
        rewrite <- (sim_refs _ _ HS r g (S k) En Ek). cbn. lia.
      * rewrite (sim_refs _ _ HS q h j Eq Ej). cbn. lia.
    + exact (disjoint_refs _ _ _ _ (sim_apart _ _ HS) En Hl).
    + intros q Hq. rewrite set_nth_length in Hq. rewrite owners_app, owners_one. cbn [counts]. rewrite Hw', Hsrc by reflexivity. rewrite Hr.
      assert (r < length (bs_mem s))%nat by (apply nth_error_Some; congruence).
      destruct (Nat.eqb_spec r q); [lia|]. cbn. rewrite (sim_range _ _ HS q Hq). reflexivity.
  - assert (b_owner b = None) as Hob.
    { unfold shows in Hs. destruct (b_at b) as [[[r o] n]|]; [destruct Hs as (? & ? & _ & _ & _ & _ & _ & H)|destruct Hs as [_ H]]; now rewrite ?Hw in H. }
    rewrite Hob. cbn [own]. eexists. split; [reflexivity|]. constructor; cbn [bs_mem bs_blobs vpush vs_srcs vs_blobs].
    + apply (sim_srcs _ _ HS).
    + apply Forall2_app; [exact F|]. constructor; [|constructor]. apply Hsh. auto.
    + intros q h j Eq Ej. rewrite owners_app, owners_one. cbn [counts]. rewrite Hw'. cbn. rewrite (sim_refs _ _ HS q h j Eq Ej). lia.
    + apply (sim_apart _ _ HS).
    + intros q Hq. rewrite owners_app, owners_one. cbn [counts]. rewrite Hw'. cbn. rewrite (sim_range _ _ HS q Hq). reflexivity.
Qed.
Lemma sim_nothing : sim (BState (bs_mem s) (bs_blobs s ++ [Some (Blob None None)])) (vpush nothing v).
Proof.
  constructor; cbn [bs_mem bs_blobs vpush vs_srcs vs_blobs].
  - apply (sim_srcs _ _ HS).
  - apply Forall2_app; [apply (sim_blobs _ _ HS)|]. constructor; [|constructor]. now split.
  - intros q h j Eq Ej. rewrite owners_app, owners_one. cbn. rewrite (sim_refs _ _ HS q h j Eq Ej). lia.
  - apply (sim_apart _ _ HS).
  - intros q Hq. rewrite owners_app, owners_one. cbn. rewrite (sim_range _ _ HS q Hq). reflexivity.
Qed.
(** New memory. *)
Lemma sim_alloc base d (o : bool) : base + N.of_nat (length d) <= usize_max -> Forall (fun g => live g -> apart base d g) (bs_mem s) ->
  sim (alloc base d (if o then Some 1%nat else None) s) (vnew d o v).
Proof.
  intros Hb Hf. unfold alloc, vnew.
  assert (forall r x, option_map shape (nth_error (bs_mem s) r) = Some x ->
    option_map shape (nth_error (bs_mem s ++ [Region base d (if o then Some 1%nat else None)]) r) = Some x) as Sh.
  { intros r x E. destruct (nth_error (bs_mem s) r) eqn:En; [|discriminate].
    rewrite nth_error_app1; [now rewrite En|]. apply nth_error_Some. congruence. }
  assert (forall r g, nth_error (bs_mem s ++ [Region base d (if o then Some 1%nat else None)]) r = Some g ->
    nth_error (bs_mem s) r = Some g \/ r = length (bs_mem s) /\ g = Region base d (if o then Some 1%nat else None)) as K.
  { intros r g E. destruct (Nat.lt_ge_cases r (length (bs_mem s))) as [H|H].
    - left. now rewrite nth_error_app1 in E.
    - right. rewrite nth_error_app2 in E by exact H. destruct (r - length (bs_mem s))%nat as [|j] eqn:Ej; cbn in E.
      + split; [lia|congruence].
      + now destruct j. }
  pose proof (sim_srcs _ _ HS) as Hn.
  constructor; cbn [bs_mem bs_blobs vs_srcs vs_blobs].
  - rewrite app_length. cbn. lia.
  - apply Forall2_app; [exact (shown_shape _ _ _ _ Sh (sim_blobs _ _ HS))|]. constructor; [|constructor]. cbn [shown shows b_at b_owner].
    exists base, d. rewrite nth_error_app2, Nat.sub_diag by lia. cbn [nth_error option_map v_src v_off v_bytes v_owned].
    split; [unfold shape, owned_region; cbn; now destruct o|]. split; [lia|]. split; [exact Hn|]. split; [reflexivity|].
    split; [unfold part; cbn [skipn]; now rewrite firstn_all|]. now destruct o.
  - intros q h j Eq Ej. rewrite owners_app, owners_one. cbn [counts v_owned v_src]. rewrite Hn.
    destruct (K q h Eq) as [E|[-> ->]].
    + assert (q < length (bs_mem s))%nat by (apply nth_error_Some; congruence).
      rewrite (sim_refs _ _ HS q h j E Ej). destruct (Nat.eqb_spec (length (bs_mem s)) q); [lia|]. rewrite andb_false_r. cbn. lia.
    + cbn in Ej. destruct o; [|discriminate]. injection Ej as <-. rewrite Nat.eqb_refl. cbn.
      rewrite (sim_range _ _ HS) by lia. reflexivity.
  - destruct (sim_apart _ _ HS) as [H1 H2]. split.
    + intros q h Eq. destruct (K q h Eq) as [E|[-> ->]]; [exact (H1 _ _ E)|exact Hb].
    + intros a b ga gb Ea Eb La Lb Hab. rewrite Forall_forall in Hf.
      destruct (K a ga Ea) as [E1|[-> ->]]; destruct (K b gb Eb) as [E2|[-> ->]].
      * exact (H2 a b ga gb E1 E2 La Lb Hab).
      * pose proof (Hf ga (nth_error_In _ _ E1) La) as H. unfold apart in *. cbn. lia.
      * exact (Hf gb (nth_error_In _ _ E2) Lb).
      * lia.
  - intros q Hq. rewrite app_length in Hq. cbn in Hq. rewrite owners_app, owners_one. cbn [counts v_owned v_src]. rewrite Hn.
    destruct (Nat.eqb_spec (length (bs_mem s)) q); [lia|]. rewrite andb_false_r. cbn. rewrite (sim_range _ _ HS) by lia. reflexivity.
Qed.
(** Dropping a blob. *)
Lemma sim_drop i b w : blob_no s i = Some b -> view_no v i = Some w -> shows (bs_mem s) b w ->
  exists m', disown (bs_mem s) (b_owner b) = Good m' /\ sim (BState m' (set_nth i None (bs_blobs s))) (vdrop i v).
Proof.
  intros Eb Ew Hs.
  assert (forall m', (forall r x, option_map shape (nth_error (bs_mem s) r) = Some x -> option_map shape (nth_error m' r) = Some x) ->
    Forall2 (shown m') (set_nth i None (bs_blobs s)) (set_nth i None (vs_blobs v))) as F.
  { intros m' Sh. apply Forall2_set; [exact (shown_shape _ _ _ _ Sh (sim_blobs _ _ HS))|exact Logic.I]. }
  pose proof (fun r => owners_set r i (Some w) None (vs_blobs v) (view_at _ _ Ew)) as Hown. cbn [counts b2n] in Hown.
  destruct (v_owned w) eqn:Hw.
  - destruct (b_at b) as [[[r o] n]|] eqn:Ea.
    2: { unfold shows in Hs. rewrite Ea in Hs. destruct Hs as [-> _]. discriminate. }
    destruct (sim_region _ _ _ _ _ _ Eb Ew Hs Ea) as (g & En & _ & Hl & _ & Hr & _ & _ & Ho & Hob & Hk).
    rewrite Hw in *. destruct (Hk eq_refl) as (k & Ek). rewrite Hob. cbn [disown]. rewrite En, Ek.
    pose proof (set_refs_shape _ _ _ k En Ho) as Sh. cbn [andb] in Hown. rewrite Hr in Hown.
    eexists. split; [reflexivity|]. constructor; cbn [bs_mem bs_blobs vdrop vs_srcs vs_blobs].
    + rewrite set_nth_length. apply (sim_srcs _ _ HS).
    + exact (F _ Sh).
    + intros q h j Eq Ej. specialize (Hown q). rewrite set_nth_get in Eq. destruct (Nat.eqb_spec r q) as [Hn|Hn].
      * subst q. destruct (r <? length (bs_mem s))%nat; [|discriminate]. injection Eq as <-. cbn in Ej. injection Ej as <-.
        pose proof (sim_refs _ _ HS r g (S k) En Ek). cbn [b2n] in Hown. lia.
      * pose proof (sim_refs _ _ HS q h j Eq Ej). cbn [b2n] in Hown. lia.
    + exact (disjoint_refs _ _ _ _ (sim_apart _ _ HS) En Hl).
    + intros q Hq. rewrite set_nth_length in Hq. specialize (Hown q). pose proof (sim_range _ _ HS q Hq). lia.
  - assert (b_owner b = None) as Hob.
    { unfold shows in Hs. destruct (b_at b) as [[[r o] n]|]; [destruct Hs as (? & ? & _ & _ & _ & _ & _ & H)|destruct Hs as [_ H]]; now rewrite ?Hw in H. }
    rewrite Hob. cbn [disown]. eexists. split; [reflexivity|]. cbn [andb b2n] in Hown.
    constructor; cbn [bs_mem bs_blobs vdrop vs_srcs vs_blobs].
    + apply (sim_srcs _ _ HS).
    + apply F. auto.
    + intros q h j Eq Ej. specialize (Hown q). pose proof (sim_refs _ _ HS q h j Eq Ej). lia.
    + apply (sim_apart _ _ HS).
    + intros q Hq. specialize (Hown q). pose proof (sim_range _ _ HS q Hq). lia.
Qed.
End Sim.

(** ** Slices *)
Lemma part_part s n s' n' (d : bytes) : (s' + n' <= n)%nat -> part s' n' (part s n d) = part (s + s') n' d.
Proof.
  intros H. unfold part. rewrite skipn_firstn_comm, firstn_firstn.
  replace (Nat.min n' (n - s')) with n' by lia. f_equal.
  clear. revert d. induction s as [|s IH]; intros d; [reflexivity|]. destruct d; [cbn; now rewrite skipn_nil|]. cbn. apply IH.
Qed.
Lemma b_slice_ok dbg s v i b w lo hi : sim s v -> blob_no s i = Some b -> view_no v i = Some w -> shows (bs_mem s) b w ->
  bound_ok lo -> bound_ok hi -> dbg = true \/ lo <> Excluded usize_max -> N.of_nat (length (v_bytes w)) <= usize_max ->
  match v_slice w lo hi with
  | Some w' => exists b' m', b_slice dbg (bs_mem s) b lo hi = Good (b', m') /\ sim (BState m' (bs_blobs s ++ [Some b'])) (vpush w' v)
  | None => b_slice dbg (bs_mem s) b lo hi = Panics
  end.
Proof.
  intros HS Eb Ew Hs Bl Bh Hd Hmax. unfold v_slice, b_slice. rewrite (sim_length _ _ HS _ _ _ Eb Ew Hs).
  set (len := N.of_nat (length (v_bytes w))) in *. unfold inside.
  assert (slice_begin dbg lo = Good (first_pos lo) \/ slice_begin dbg lo = Panics /\ len < first_pos lo) as [->|[-> Hlo]].
  { destruct lo as [n|n|]; cbn in *; [now left| |now left].
    destruct (N.ltb_spec n usize_max); [now left|]. destruct Hd as [->|Hd]; [right; split; [reflexivity|lia]|].
    destruct Hd. f_equal. lia. }
  2: { destruct (N.leb_spec (first_pos lo) (end_pos len hi)); [|reflexivity]. cbn [andb].
       destruct (N.leb_spec (end_pos len hi) len); [lia|reflexivity]. }
  assert (slice_end len hi = Good (end_pos len hi) \/ slice_end len hi = Panics /\ len < end_pos len hi) as [->|[-> Hhi]].
  { destruct hi as [n|n|]; cbn in *; [|now left|now left].
    destruct (N.ltb_spec n usize_max); [now left|]. right. split; [reflexivity|lia]. }
  2: { destruct (N.leb_spec (end_pos len hi) len); [lia|]. now rewrite andb_false_r. }
  set (a := first_pos lo). set (e := end_pos len hi).
  destruct (N.leb_spec a e) as [H1|H1]; cbn [negb andb]; [|reflexivity].
  destruct (N.leb_spec e len) as [H2|H2]; cbn [negb andb]; [|reflexivity].
  unfold v_part. destruct (N.eqb_spec e a) as [He|He].
  - replace (N.to_nat (e - a)) with 0%nat by lia. cbn [Nat.eqb]. eexists _, _. split; [reflexivity|]. exact (sim_nothing s v HS).
  - destruct (Nat.eqb_spec (N.to_nat (e - a)) 0) as [H0|H0]; [lia|].
    destruct (b_at b) as [[[r o] n]|] eqn:Ea.
    2: { unfold shows in Hs. rewrite Ea in Hs. destruct Hs as [-> _]. cbn in len. lia. }
    assert (length (v_bytes w) = n /\ v_src w = r /\ v_off w = o) as (Hn & Hr & Ho).
    { destruct (sim_region s v HS _ _ _ _ _ _ Eb Ew Hs Ea) as (g & _ & _ & _ & Hl & R & O & -> & _). now rewrite part_length. }
    destruct (sim_own s v HS _ _ _ Eb Ew Hs (Blob (Some (r, (o + N.to_nat a)%nat, N.to_nat (e - a))) (b_owner b))
      (View (v_src w) (v_off w + N.to_nat a) (part (N.to_nat a) (N.to_nat (e - a)) (v_bytes w)) (v_owned w))) as (m' & -> & S'); try reflexivity.
    { intros m' Sh. unfold shows in Hs |- *. cbn [b_at b_owner v_src v_off v_bytes v_owned]. rewrite Ea in Hs.
      destruct Hs as (base & d & Eg & Hl & _ & _ & Hb & Hob). exists base, d. split; [exact (Sh _ _ Eg)|].
      split; [lia|]. split; [exact Hr|]. split; [now rewrite Ho|]. split; [|exact Hob].
      rewrite Hb. apply part_part. lia. }
    eexists _, _. split; [reflexivity|exact S'].
Qed.

Lemma sim_ptr s v i b w : sim s v -> blob_no s i = Some b -> view_no v i = Some w -> shows (bs_mem s) b w ->
  exists p, b_ptr (bs_mem s) b = Good p /\
  forall r o n, b_at b = Some (r, o, n) -> exists g, nth_error (bs_mem s) r = Some g /\ live g /\ p = r_base g + N.of_nat o /\
    (o + n <= length (r_data g))%nat /\ p + N.of_nat n <= usize_max.
Proof.
  intros HS Eb Ew Hs. unfold b_ptr. destruct (b_at b) as [[[r o] n]|] eqn:Ea.
  - destruct (sim_region s v HS _ _ _ _ _ _ Eb Ew Hs Ea) as (g & En & -> & Hl & Hb & _).
    eexists. split; [reflexivity|]. intros r' o' n' E. injection E as <- <- <-. exists g.
    pose proof (proj1 (sim_apart _ _ HS) r g En). split; [exact En|]. split; [exact Hl|]. split; [reflexivity|]. split; [exact Hb|]. lia.
  - eexists. split; [reflexivity|]. discriminate.
Qed.
Lemma b_length_max s v i b w : sim s v -> blob_no s i = Some b -> view_no v i = Some w -> shows (bs_mem s) b w ->
  N.of_nat (length (v_bytes w)) <= usize_max.
Proof.
  intros HS Eb Ew Hs. rewrite <- (sim_length _ _ HS _ _ _ Eb Ew Hs). unfold b_length.
  destruct (sim_ptr _ _ _ _ _ HS Eb Ew Hs) as (p & _ & H). destruct (b_at b) as [[[r o] n]|] eqn:Ea; [|unfold usize_max; lia].
  destruct (H _ _ _ eq_refl) as (g & _ & _ & _ & _ & H1). lia.
Qed.

Lemma step_sim dbg c s v : sim s v -> call_ok dbg c -> fresh_memory c s ->
  match vstep c v with
  | Some (r, v') => fst (bstep dbg c s) = r /\ sim (snd (bstep dbg c s)) v'
  | None => True
  end.
Proof.
  intros HS Hc Hf. destruct c as [base d|base d|i|i lo hi|i j a n|i base|i]; cbn [bstep vstep].
  - cbn [fresh_memory taken] in Hf. unfold fresh_memory in Hf. cbn [taken] in Hf. destruct Hf as [H1 H2]. split; [reflexivity|].
    exact (sim_alloc s v HS base d true H1 H2).
  - unfold fresh_memory in Hf. cbn [taken] in Hf. destruct Hf as [H1 H2]. split; [reflexivity|].
    exact (sim_alloc s v HS base d false H1 H2).
  - destruct (blob_no s i) as [b|] eqn:Eb; [|now rewrite (sim_no s v HS i Eb)].
    destruct (sim_get s v HS i b Eb) as (w & Ew & Hs). rewrite Ew.
    destruct (sim_own s v HS _ _ _ Eb Ew Hs b w) as (m' & -> & S'); auto. { intros m' Sh. exact (shows_shape _ _ _ _ Sh Hs). }
  - destruct (blob_no s i) as [b|] eqn:Eb; [|now rewrite (sim_no s v HS i Eb)].
    destruct (sim_get s v HS i b Eb) as (w & Ew & Hs). rewrite Ew. destruct Hc as (B1 & B2 & B3).
    pose proof (b_slice_ok dbg s v i b w lo hi HS Eb Ew Hs B1 B2 B3 (b_length_max _ _ _ _ _ HS Eb Ew Hs)) as H.
    destruct (v_slice w lo hi) as [w'|]; [destruct H as (b' & m' & -> & S')|rewrite H]; cbn; auto.
  - destruct (blob_no s i) as [b|] eqn:Eb; [|now rewrite (sim_no s v HS i Eb)].
    destruct (sim_get s v HS i b Eb) as (w & Ew & Hs). rewrite Ew.
    destruct (blob_no s j) as [c|] eqn:Ec; [|now rewrite (sim_no s v HS j Ec)].
    destruct (sim_get s v HS j c Ec) as (x & Ex & Hx). rewrite Ex.
    rewrite (sim_length _ _ HS _ _ _ Ec Ex Hx).
    destruct (Nat.leb_spec (a + n) (length (v_bytes x))) as [Han|Han]; [|cbn; auto]. cbn [andb].
    destruct (sim_ptr _ _ _ _ _ HS Ec Ex Hx) as (p & -> & Hp). unfold b_slice_ref.
    destruct (Nat.eqb_spec n 0) as [->|Hn]; cbn [orb].
    { cbn [push fst snd]. split; [reflexivity|]. exact (sim_nothing s v HS). }
    destruct (sim_ptr _ _ _ _ _ HS Eb Ew Hs) as (q & Eq & Hq). rewrite Eq.
    rewrite (sim_length _ _ HS _ _ _ Eb Ew Hs).
    destruct (b_at c) as [[[r o] k]|] eqn:Ea.
    2: { unfold shows in Hx. rewrite Ea in Hx. destruct Hx as [-> _]. cbn in Han. lia. }
    destruct (Hp _ _ _ eq_refl) as (g & En & Hg & Hpo & Hok & Hpm).
    assert (length (v_bytes x) = k /\ v_src x = r /\ v_off x = o /\ v_bytes x = part o k (r_data g)) as (Hk & Hr & Ho & Hxb).
    { destruct (sim_region s v HS _ _ _ _ _ _ Ec Ex Hx Ea) as (g' & En' & _ & _ & Hl & R & O & Hb & _).
      assert (g' = g) as -> by congruence. rewrite Hb at 1. now rewrite part_length. }
    destruct (b_at b) as [[[r' o'] k']|] eqn:Ea'.
    2: { unfold shows in Hs. rewrite Ea' in Hs. destruct Hs as [-> _]. cbn [v_bytes nothing length v_off].
         replace (v_off x + a + n <=? 0 + 0)%nat with false by (symmetry; apply Nat.leb_gt; lia). rewrite andb_false_r.
         destruct (N.leb_spec q (p + N.of_nat a)) as [H|H]; cbn [negb]; [|cbn; auto].
         destruct (N.leb_spec (p + N.of_nat a + N.of_nat n) (q + N.of_nat 0)) as [H'|H']; cbn [negb]; [lia|cbn; auto]. }
    destruct (Hq _ _ _ eq_refl) as (g' & En' & Hg' & Hqo & Hok' & Hqm).
    assert (length (v_bytes w) = k' /\ v_src w = r' /\ v_off w = o' /\ v_bytes w = part o' k' (r_data g')) as (Hk' & Hr' & Ho' & Hwb).
    { destruct (sim_region s v HS _ _ _ _ _ _ Eb Ew Hs Ea') as (g2 & En2 & _ & _ & Hl & R & O & Hb & _).
      assert (g2 = g') as -> by congruence. rewrite Hb at 1. now rewrite part_length. }
    rewrite Hk', Hr', Hr, Ho', Ho.
    destruct (Nat.eqb_spec r' r) as [->|Hne]; cbn [andb].
    + assert (g' = g) as -> by congruence.
      assert ((q <=? p + N.of_nat a) = (o' <=? o + a)%nat) as ->.
      { destruct (N.leb_spec q (p + N.of_nat a)), (Nat.leb_spec o' (o + a)); auto; lia. }
      assert ((p + N.of_nat a + N.of_nat n <=? q + N.of_nat k') = (o + a + n <=? o' + k')%nat) as Hcmp.
      { destruct (N.leb_spec (p + N.of_nat a + N.of_nat n) (q + N.of_nat k')), (Nat.leb_spec (o + a + n) (o' + k')); auto; lia. }
      destruct (Nat.leb_spec o' (o + a)) as [H1|H1]; cbn [negb andb]; [|cbn; auto]. rewrite Hcmp.
      destruct (Nat.leb_spec (o + a + n) (o' + k')) as [H2|H2]; cbn [negb andb]; [|cbn; auto].
      pose proof (b_slice_ok dbg s v i b w (Included (p + N.of_nat a - q)) (Excluded (p + N.of_nat a - q + N.of_nat n)) HS Eb Ew Hs
        ltac:(cbn; lia) ltac:(cbn; lia) ltac:(right; discriminate) ltac:(lia)) as H.
      unfold v_slice in H. rewrite Hk' in H. unfold inside in H. cbn [first_pos end_pos] in H.
      replace (p + N.of_nat a - q <=? p + N.of_nat a - q + N.of_nat n) with true in H by (symmetry; apply N.leb_le; lia).
      replace (p + N.of_nat a - q + N.of_nat n <=? N.of_nat k') with true in H by (symmetry; apply N.leb_le; lia).
      cbn [andb] in H. replace (N.to_nat (p + N.of_nat a - q)) with (o + a - o')%nat in H by lia.
      replace (N.to_nat (p + N.of_nat a - q + N.of_nat n - (p + N.of_nat a - q))) with n in H by lia.
      destruct H as (b' & m' & -> & S'). cbn [push fst snd]. split; [reflexivity|].
      unfold v_part in S'. destruct (Nat.eqb_spec n 0); [lia|].
      rewrite Hr', Ho' in S'. replace (o' + (o + a - o'))%nat with (o + a)%nat in S' by lia.
      replace (part a n (v_bytes x)) with (part (o + a - o') n (v_bytes w)); [exact S'|].
      rewrite Hwb, Hxb, !part_part by lia. f_equal. lia.
    + pose proof (proj2 (sim_apart _ _ HS) r' r g' g En' En Hg' Hg Hne) as Hap. unfold apart in Hap.
      destruct (N.leb_spec q (p + N.of_nat a)) as [H1|H1]; cbn [negb]; [|cbn; auto].
      destruct (N.leb_spec (p + N.of_nat a + N.of_nat n) (q + N.of_nat k')) as [H2|H2]; cbn [negb]; [|cbn; auto]. lia.
  - destruct (blob_no s i) as [b|] eqn:Eb; [|now rewrite (sim_no s v HS i Eb)].
    destruct (sim_get s v HS i b Eb) as (w & Ew & Hs). rewrite Ew.
    pose proof (sim_read _ _ HS _ _ _ Eb Ew Hs) as Er.
    assert (b_owner b = if v_owned w then Some (v_src w) else None) as Hob.
    { unfold shows in Hs. destruct (b_at b) as [[[r o] n]|].
      - destruct Hs as (? & ? & _ & _ & <- & _ & _ & H). exact H.
      - now destruct Hs as [-> H]. }
    unfold fresh_memory in Hf. cbn [taken] in Hf. rewrite Eb, Er in Hf. rewrite Hob in *.
    destruct (v_owned w) eqn:Hw; cbn [fst snd].
    + split; [reflexivity|]. pose proof (fun r => owners_set r i (Some w) None (vs_blobs v) (view_at _ _ _ Ew)) as Hown.
      constructor; cbn [bs_mem bs_blobs vpush vdrop vs_srcs vs_blobs].
      * apply (sim_srcs _ _ HS).
      * apply Forall2_app; [|constructor; [exact Hs|constructor]]. apply Forall2_set; [apply (sim_blobs _ _ HS)|exact Logic.I].
      * intros q h k Eq Ek. rewrite owners_app, owners_one. specialize (Hown q). cbn [counts b2n] in *.
        rewrite (sim_refs _ _ HS q h k Eq Ek). lia.
      * apply (sim_apart _ _ HS).
      * intros q Hq. rewrite owners_app, owners_one. specialize (Hown q). cbn [counts b2n] in *. pose proof (sim_range _ _ HS q Hq). lia.
    + rewrite Er. cbn [fst snd]. split; [reflexivity|]. destruct Hf as [H1 H2].
      destruct (sim_drop s v HS i b w Eb Ew Hs) as (m' & Em & S'). rewrite Hob in Em. cbn in Em. injection Em as <-.
      exact (sim_alloc _ _ S' base (v_bytes w) true H1 H2).
  - destruct (blob_no s i) as [b|] eqn:Eb; [|now rewrite (sim_no s v HS i Eb)].
    destruct (sim_get s v HS i b Eb) as (w & Ew & Hs). rewrite Ew. unfold b_drop.
    destruct (sim_drop s v HS i b w Eb Ew Hs) as (m' & -> & S'). cbn. auto.
Qed.
Lemma run_sim dbg : forall cs s v rs v', sim s v -> Forall (call_ok dbg) cs -> allocates dbg cs s -> vrun cs v = Some (rs, v') ->
  exists s', brun dbg cs s = (rs, s') /\ sim s' v'.
Proof.
  induction cs as [|c cs IH]; intros s v rs v' HS Hc Ha E; cbn [vrun brun] in *.
  - injection E as <- <-. eauto.
  - inversion Hc as [|? ? H1 H2]; subst. destruct Ha as [Hf Ha]. pose proof (step_sim dbg c s v HS H1 Hf) as H.
    destruct (vstep c v) as [[r v1]|]; [|discriminate]. destruct (bstep dbg c s) as [r' s1]. cbn [fst snd] in *. destruct H as [-> S1].
    destruct (vrun cs v1) as [[rs2 v2]|] eqn:E2; [|discriminate]. injection E as <- <-.
    destruct (IH _ _ _ _ S1 H2 Ha E2) as (s' & -> & S'). eauto.
Qed.

Definition no_blobs : bstate := BState [] [].
Definition no_views : vstate := VState 0 [].
Lemma sim_start : sim no_blobs no_views.
Proof.
  constructor; cbn; auto.
  - intros r g k E. now destruct r.
  - split; intros r; [intros g E; now destruct r|intros r' g g' E; now destruct r].
Qed.
Lemma blob_runs dbg cs rs v : Forall (call_ok dbg) cs -> allocates dbg cs (BState [] []) -> vrun cs (VState 0 []) = Some (rs, v) ->
  exists s, brun dbg cs (BState [] []) = (rs, s) /\ sim s v.
Proof. intros Hc Ha E. exact (run_sim dbg cs _ _ _ _ sim_start Hc Ha E). Qed.
Lemma vrun_sees : forall cs rs v, vrun cs (VState 0 []) = Some (rs, v) -> ~ In Undefined rs.
Proof.
  assert (forall c v r v', vstep c v = Some (r, v') -> r <> Undefined) as K.
  { intros c v r v' E. destruct c; cbn in E;
      repeat match type of E with
      | context [match ?x with _ => _ end] => destruct x; try discriminate
      end; injection E as <- _; discriminate. }
  assert (forall cs v0 rs v, vrun cs v0 = Some (rs, v) -> ~ In Undefined rs) as G.
  { induction cs as [|c cs IH]; intros v0 rs v E; cbn in E; [injection E as <- <-; auto|].
    destruct (vstep c v0) as [[r v1]|] eqn:Es; [|discriminate]. destruct (vrun cs v1) as [[rs2 v2]|] eqn:E2; [|discriminate].
    injection E as <- <-. intros [H|H]; [exact (K _ _ _ _ Es H)|exact (IH _ _ _ E2 H)]. }
  intros cs rs v. apply G.
Qed.
Theorem blob_programs dbg cs rs v : Forall (call_ok dbg) cs -> allocates dbg cs (BState [] []) -> vrun cs (VState 0 []) = Some (rs, v) ->
  exists s, brun dbg cs (BState [] []) = (rs, s) /\
  forall i w, view_no v i = Some w -> exists b, blob_no s i = Some b /\ b_read (bs_mem s) b = Good (v_bytes w).
Proof.
  intros Hc Ha E. destruct (blob_runs dbg cs rs v Hc Ha E) as (s & Es & HS). exists s. split; [exact Es|].
  intros i w Ew. destruct (blob_no s i) as [b|] eqn:Eb; [|rewrite (sim_no s v HS i Eb) in Ew; discriminate].
  destruct (sim_get s v HS i b Eb) as (w' & Ew' & Hs). assert (w' = w) as -> by congruence.
  exists b. split; [reflexivity|]. exact (sim_read s v HS i b w Eb Ew Hs).
Qed.
Theorem blob_memory dbg cs rs v : Forall (call_ok dbg) cs -> allocates dbg cs (BState [] []) -> vrun cs (VState 0 []) = Some (rs, v) ->
  exists s, brun dbg cs (BState [] []) = (rs, s) /\ ~ In Undefined rs /\ length (bs_mem s) = vs_srcs v /\
  forall r g k, nth_error (bs_mem s) r = Some g -> r_refs g = Some k -> k = owners r (vs_blobs v).
Proof.
  intros Hc Ha E. destruct (blob_runs dbg cs rs v Hc Ha E) as (s & Es & HS). exists s. split; [exact Es|].
  split; [exact (vrun_sees _ _ _ E)|]. split; [symmetry; apply (sim_srcs _ _ HS)|]. apply (sim_refs _ _ HS).
Qed.
(** One slice, in plain words. *)
Theorem slice_of_slice v lo hi w lo' hi' x : v_slice v lo hi = Some w -> v_slice w lo' hi' = Some x ->
  v_bytes x = part (N.to_nat (first_pos lo) + N.to_nat (first_pos lo'))
    (N.to_nat (end_pos (N.of_nat (length (v_bytes w))) hi' - first_pos lo')) (v_bytes v).
Proof.
  unfold v_slice. intros E1 E2. destruct (inside _ lo hi) eqn:I1; [|discriminate]. destruct (inside _ lo' hi') eqn:I2; [|discriminate].
  unfold inside in I1, I2. apply andb_prop in I1 as [A1 A2], I2 as [A3 A4]. apply N.leb_le in A1, A2, A3, A4.
  set (s1 := first_pos lo) in *. set (e1 := end_pos (N.of_nat (length (v_bytes v))) hi) in *.
  assert (length (v_bytes w) = N.to_nat (e1 - s1) /\ v_bytes w = part (N.to_nat s1) (N.to_nat (e1 - s1)) (v_bytes v)) as [Hl Hw].
  { injection E1 as <-. unfold v_part. destruct (Nat.eqb_spec (N.to_nat (e1 - s1)) 0) as [->|H].
    - split; reflexivity.
    - cbn [v_bytes]. split; [|reflexivity]. apply part_length. lia. }
  injection E2 as <-. unfold v_part. set (n2 := N.to_nat (end_pos (N.of_nat (length (v_bytes w))) hi' - first_pos lo')) in *.
  destruct (Nat.eqb_spec n2 0) as [->|H].
  - reflexivity.
  - cbn [v_bytes]. rewrite Hw. apply part_part. subst n2. lia.
Qed.
