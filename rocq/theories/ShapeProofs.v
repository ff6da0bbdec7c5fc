(** How many nodes a tree has, and that what is saved is a function of the contents. *)
From Verif Require Import Base BaseLemmas Header Node Combine Iter Api Spec Client Tree Rep Canon Entries PrefixProofs Top TopOps MemLemmas Store StoreProofs CostSpec ShapeSpec.

Lemma entriesl_cons path c cs : entriesl path (c :: cs) = entries path c ++ entriesl path cs.
Proof. reflexivity. Qed.
Lemma key_bytes_app l l' : key_bytes (l ++ l') = key_bytes l + key_bytes l'.
Proof. unfold key_bytes. now rewrite map_app, list_sum_app. Qed.

Definition fine (path : bytes) (g : tree) : Prop :=
  nodes (tshape g) + 1 <= 2 * length (entries path g) /\
  edge_bytes (tshape g) + length path * length (entries path g) <= key_bytes (entries path g) /\
  exists e, In e (entries path g) /\ length path + length (tp g) + depth (tshape g) <= length (fst e) + 1.

Lemma fine_live p v cs : live v cs -> (forall path c, In c cs -> fine path c) -> (forall c, In c cs -> tp c <> []) -> forall path, fine path (T p v cs).
Proof.
  intros Lv IH Np path.
  assert (list_sum (map nodes (map tshape cs)) + length cs <= 2 * length (entriesl (path ++ p) cs) /\
    list_sum (map edge_bytes (map tshape cs)) + (length path + length p) * length (entriesl (path ++ p) cs) <= key_bytes (entriesl (path ++ p) cs) /\
    (cs <> [] -> length (entriesl (path ++ p) cs) >= 1 /\
      exists e, In e (entriesl (path ++ p) cs) /\ length path + length p + list_max (map depth (map tshape cs)) <= length (fst e))) as (A & B & D).
  { clear Lv v. induction cs as [|c cs IHc]; [cbn; split; [lia|]; split; [lia|congruence]|].
    destruct IHc as (A & B & D); [intros; apply IH; now right|intros; apply Np; now right|].
    destruct (IH (path ++ p) c (or_introl eq_refl)) as (A1 & B1 & e & He & D1). rewrite app_length in B1, D1.
    specialize (Np c (or_introl eq_refl)). assert (1 <= length (tp c)) by (destruct (tp c); [congruence|cbn; lia]).
    rewrite entriesl_cons, app_length, key_bytes_app. cbn [map list_sum list_max fold_right length]. fold (list_sum (map nodes (map tshape cs))).
    fold (list_sum (map edge_bytes (map tshape cs))). fold (list_max (map depth (map tshape cs))).
    split; [lia|]. split; [lia|]. intros _. split; [lia|].
    destruct (Nat.le_gt_cases (list_max (map depth (map tshape cs))) (depth (tshape c))) as [L|L].
    - exists e. split; [apply in_or_app; now left|]. lia.
    - destruct cs as [|c2 cs]; [cbn in L; lia|]. destruct D as (_ & e' & He' & D'); [discriminate|]. exists e'. split; [apply in_or_app; now right|]. lia. }
  unfold fine. rewrite entries_T, app_length, key_bytes_app. cbn [tshape nodes edge_bytes depth tp].
  destruct v as [x|].
  - change (length [(path ++ p, x)]) with 1.
    replace (key_bytes [(path ++ p, x)]) with (length path + length p) by (unfold key_bytes; cbn; rewrite app_length; lia).
    split; [unfold bytes in *; lia|]. split; [unfold bytes in *; nia|].
    destruct cs as [|c cs].
    + exists (path ++ p, x). split; [now left|]. cbn. rewrite app_length. lia.
    + destruct D as (_ & e & He & D); [discriminate|]. exists e. split; [right; exact He|]. lia.
  - destruct Lv as [Lv|Lv]; [congruence|]. destruct D as (D0 & e & He & D); [intros ->; cbn in Lv; lia|].
    cbn [length app]. change (key_bytes []) with 0.
    split; [unfold bytes in *; lia|]. split; [pose proof (Nat.mul_le_mono_l 1 _ (length p) D0); unfold bytes in *; lia|]. exists e. split; [exact He|]. lia.
Qed.

Lemma fine_cc g : cc g -> forall path, fine path g.
Proof.
  induction g as [p v cs IH] using tree_ind'. intros C. inversion C as [? ? ? Np Lv So Cs]; subst.
  rewrite Forall_forall in *. apply fine_live; [exact Lv| |].
  - intros path c Hc. apply IH; auto.
  - intros c Hc. specialize (Cs c Hc). inversion Cs; subst. assumption.
Qed.

Lemma fine_croot g : croot g -> g <> tempty -> forall path, fine path g.
Proof.
  intros [->|(Lv & So & Cs)] N; [congruence|]. destruct g as [p v cs]. cbn in *. rewrite Forall_forall in Cs.
  apply fine_live; [exact Lv| |].
  - intros path c Hc. apply fine_cc; auto.
  - intros c Hc. specialize (Cs c Hc). inversion Cs; subst. assumption.
Qed.

Lemma list_max_in n ls : In n ls -> n <= list_max ls.
Proof.
  induction ls as [|a ls IH]; [intros []|]. change (list_max (a :: ls)) with (Nat.max a (list_max ls)).
  intros [->|Hn]; [|specialize (IH Hn)]; lia.
Qed.

Lemma mem_space dbg t m l : reachable dbg t -> holds detached_read t m -> lists l m ->
  nodes (shape_of t) <= Nat.max 1 (2 * length l - 1) /\ edge_bytes (shape_of t) <= key_bytes l /\
  depth (shape_of t) <= S (longest_key l - length (edge (shape_of t))).
Proof.
  intros R H L. destruct (reachable_good dbg t R) as (g & Rg & C & _).
  pose proof (holds_lookup _ _ _ _ _ Rg C H) as Em. rewrite (DRep_shape _ _ Rg).
  assert (l = entries [] g) as ->. { eapply lists_where_unique; [exact L|]. now apply lists_entries. }
  destruct C as [->|C].
  { change (nodes (tshape tempty)) with 1. change (edge_bytes (tshape tempty)) with 0. change (depth (tshape tempty)) with 1. lia. }
  destruct (fine_croot g (or_intror C) ltac:(intros ->; destruct C as [[C|C] _]; cbn in C; [congruence|lia]) []) as (A & B & e & He & D).
  cbn in B, D. split; [lia|]. split; [lia|].
  assert (length (fst e) <= longest_key (entries [] g)) as Le.
  { apply list_max_in, (in_map (fun e => length (fst e))). exact He. }
  destruct g as [p v cs]. cbn [tp edge tshape] in *. lia.
Qed.

(** Saving. *)
Section Save.
Context (S : store).

Lemma save_blob n b b' : b = b' -> ser_blob S n b = ser_blob S n b'.
Proof. now intros ->. Qed.

Lemma repv_same b b' o : RepV detached_read b o -> RepV detached_read b' o -> b = b'.
Proof.
  destruct o as [x|]; cbn; [|congruence]. intros [->|(? & ? & _ & E)]; [|discriminate]. intros [->|(? & ? & _ & E)]; [|discriminate]. reflexivity.
Qed.

Lemma save_same g : forall t u, DRep t g -> DRep u g -> forall s, serialize S t s = serialize S u s.
Proof.
  induction g as [p v cs IH] using tree_ind'. intros [pt vt kt] [pu vu ku] Rt Ru s.
  destruct (Rep_inv _ _ _ _ _ _ Rt) as (RP & RV & ns & RK & RF). destruct (Rep_inv _ _ _ _ _ _ Ru) as (RP' & RV' & ns' & RK' & RF').
  cbn [n_prefix n_value n_kids] in *. destruct RP as [->|[? _]]; [|discriminate]. destruct RP' as [->|[? _]]; [|discriminate].
  rewrite (repv_same _ _ _ RV' RV), !serialize_eq.
  assert (forall rs s, sers S rs ns s = sers S rs ns' s) as L.
  { clear - IH RF RF'. revert ns' RF'. induction RF as [|x c ns cs Rx F IHF]; intros ns' RF'; inversion RF' as [|x' ? ns0 ? Rx' F']; subst; intros rs s; [reflexivity|].
    inversion IH as [|? ? Hc Hcs]; subst. cbn [sers]. unfold wbind. rewrite (Hc x x' Rx Rx' s).
    destruct (serialize S x' s) as [[b| | |] s1]; try reflexivity. rewrite (IHF Hcs ns0 F'). reflexivity. }
  assert (forall s, ser_kids S kt s = ser_kids S ku s) as K.
  { intros s0. destruct RK as [->|[[-> ->]|(? & ? & ? & _ & E & _)]]; [| |discriminate]; (destruct RK' as [->|[[-> ->]|(? & ? & ? & _ & E & _)]]; [| |discriminate]).
    - inversion RF; subst; inversion RF'; subst; [reflexivity|]. unfold ser_kids, wbind. now rewrite L.
    - inversion RF'; subst. inversion RF; subst. reflexivity.
    - inversion RF; subst. inversion RF'; subst. reflexivity.
    - reflexivity. }
  unfold wbind. destruct (ser_blob S 1 (Data p) s) as [[pb| | |] s1]; try reflexivity.
  destruct (ser_blob S 0 vt s1) as [[vb| | |] s2]; try reflexivity. now rewrite K.
Qed.

Lemma save_contents dbg dbg' t u m : reachable dbg t -> reachable dbg' u -> holds detached_read t m -> holds detached_read u m ->
  forall s, t_attached S t s = t_attached S u s /\ t_reattach S t s = t_reattach S u s.
Proof.
  intros R R' H H' s. destruct (reachable_good dbg t R) as (g & Rg & C & _). destruct (reachable_good dbg' u R') as (gu & Ru & Cu & _).
  pose proof (holds_lookup _ _ _ _ _ Rg C H) as Em. pose proof (holds_lookup _ _ _ _ _ Ru Cu H') as Em'.
  assert (g = gu) as ->. { apply canon_unique; auto. intros k. now rewrite <- Em, <- Em'. }
  unfold t_attached, t_reattach, wbind. now rewrite (save_same gu t u Rg Ru s).
Qed.
End Save.
