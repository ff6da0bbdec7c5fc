(** Plain radix trees: the mathematical object a node stands for.  This file
    contains no code model; it is the ghost state of the proofs. *)
From Verif Require Import Base BaseLemmas.
From Coq Require Import Sorting.Sorted.

Inductive tree : Type := T (p : bytes) (v : option bytes) (cs : list tree).

Definition tp (t : tree) : bytes := let (p, _, _) := t in p.
Definition tv (t : tree) : option bytes := let (_, v, _) := t in v.
Definition tc (t : tree) : list tree := let (_, _, c) := t in c.

Section TreeInd.
Context (P : tree -> Prop) (H : forall p v cs, Forall P cs -> P (T p v cs)).
Fixpoint tree_ind' (t : tree) : P t :=
  match t with
  | T p v cs =>
      H p v cs ((fix go (l : list tree) : Forall P l :=
                   match l with
                   | [] => Forall_nil P
                   | x :: l' => Forall_cons x (tree_ind' x) (go l')
                   end) cs)
  end.
End TreeInd.

Fixpoint size (t : tree) : nat :=
  match t with T _ _ cs => S (list_sum (map size cs)) end.
Definition sizes (cs : list tree) : nat := list_sum (map size cs).

Lemma sizes_cons t cs : sizes (t :: cs) = size t + sizes cs.
Proof. reflexivity. Qed.
Lemma size_pos t : 1 <= size t.
Proof. destruct t; cbn; lia. Qed.
Lemma size_T p v cs : size (T p v cs) = S (sizes cs).
Proof. reflexivity. Qed.
Lemma sizes_length cs : length cs <= sizes cs.
Proof. induction cs as [|t cs IH]; [cbn; lia|]. rewrite sizes_cons. pose proof (size_pos t). cbn; lia. Qed.

(** Remove a prefix from a key. *)
Fixpoint strip (p k : bytes) : option bytes :=
  match p, k with
  | [], _ => Some k
  | x :: p', y :: k' => if Byte.eqb x y then strip p' k' else None
  | _ :: _, [] => None
  end.

Lemma strip_spec p : forall k r, strip p k = Some r <-> k = p ++ r.
Proof.
  induction p as [|x p IH]; intros k r; cbn.
  - split; congruence.
  - destruct k as [|y k]; [split; [discriminate | cbn; discriminate]|].
    destruct (byte_eqb_spec x y) as [->|N]; rewrite ?IH; split; try congruence.
Qed.

Lemma strip_app p r : strip p (p ++ r) = Some r.
Proof. now apply strip_spec. Qed.

Lemma strip_app_l p q k : strip (p ++ q) k = match strip p k with Some r => strip q r | None => None end.
Proof.
  revert k. induction p as [|x p IH]; intros k; cbn; [reflexivity|].
  destruct k as [|y k]; [reflexivity|]. destruct (Byte.eqb x y); auto.
Qed.

(** Key [k] goes into child [t]: same first byte. *)
Definition starts (t : tree) (k : bytes) : bool :=
  match tp t, k with x :: _, y :: _ => Byte.eqb x y | _, _ => false end.

(** Lookup of a key. *)
Fixpoint lookup (t : tree) (k : bytes) {struct t} : option bytes :=
  match t with
  | T p v cs =>
      match strip p k with
      | None => None
      | Some [] => v
      | Some r =>
          (fix lkids (cs : list tree) : option bytes :=
             match cs with
             | [] => None
             | c :: cs' => if starts c r then lookup c r else lkids cs'
             end) cs
      end
  end.

Fixpoint lkids (cs : list tree) (r : bytes) : option bytes :=
  match cs with
  | [] => None
  | c :: cs' => if starts c r then lookup c r else lkids cs' r
  end.

(** Lookup in "prefix, value, children" that need not be canonical. *)
Definition rawlook (p : bytes) (v : option bytes) (cs : list tree) (k : bytes) : option bytes :=
  match strip p k with
  | None => None
  | Some [] => v
  | Some r => lkids cs r
  end.

Lemma lookup_raw p v cs k : lookup (T p v cs) k = rawlook p v cs k.
Proof.
  unfold rawlook. cbn. destruct (strip p k) as [[|c r]|]; try reflexivity.
  induction cs as [|t cs IH]; [reflexivity|]. cbn. destruct (starts t (c :: r)); auto.
Qed.

Global Arguments lookup : simpl never.

(** Children are ordered by their first byte. *)
Definition klt (a b : tree) : Prop :=
  match tp a, tp b with x :: _, y :: _ => (bnum x < bnum y)%N | _, _ => False end.
Definition ksorted (cs : list tree) : Prop := StronglySorted klt cs.

(** All first bytes in [l] are above [c]. *)
Definition above (c : byte) (l : list tree) : Prop :=
  Forall (fun t => match tp t with x :: _ => (bnum c < bnum x)%N | [] => False end) l.

(** A node carries a value or branches. *)
Definition live (v : option bytes) (cs : list tree) : Prop := v <> None \/ 2 <= length cs.

(** Canonical subtree. *)
Inductive cc : tree -> Prop :=
| cc_intro p v cs : p <> [] -> live v cs -> ksorted cs -> Forall cc cs -> cc (T p v cs).

Definition tempty : tree := T [] None [].

(** Canonical tree: empty, or live with canonical ordered children. *)
Definition croot (t : tree) : Prop :=
  t = tempty \/ (live (tv t) (tc t) /\ ksorted (tc t) /\ Forall cc (tc t)).

Lemma cc_croot t : cc t -> croot t.
Proof. intros H; inversion H; subst. right. cbn. auto. Qed.

Lemma croot_cc t : croot t -> tp t <> [] -> cc t.
Proof.
  intros [->|(H1 & H2 & H3)] Hp; [now destruct Hp|].
  destruct t; cbn in *. constructor; auto.
Qed.

Lemma croot_kids t : croot t -> ksorted (tc t) /\ Forall cc (tc t).
Proof. intros [->|(_ & H)]; [split; constructor | exact H]. Qed.

Lemma cc_nonempty_prefix t : cc t -> exists x q, tp t = x :: q.
Proof. intros H; inversion H; subst. cbn. destruct p; [congruence|eauto]. Qed.

Lemma above_cons c t l :
  above c (t :: l) <-> match tp t with x :: _ => (bnum c < bnum x)%N | [] => False end /\ above c l.
Proof.
  unfold above. split; [intros H; inversion H; auto | intros [H1 H2]; constructor; auto].
Qed.

Lemma above_weaken c c' l : (bnum c' <= bnum c)%N -> above c l -> above c' l.
Proof.
  intros H. apply Forall_impl. intros t. destruct (tp t); [tauto|]. lia.
Qed.

Lemma ksorted_cons a l x q : tp a = x :: q -> (ksorted (a :: l) <-> above x l /\ ksorted l).
Proof.
  intros E. unfold ksorted. split.
  - intros H. apply StronglySorted_inv in H as [H1 H2]. split; [|exact H1].
    unfold above. eapply Forall_impl; [|exact H2]. intros t. unfold klt. rewrite E.
    destruct (tp t); tauto.
  - intros [H1 H2]. constructor; [exact H2|]. eapply Forall_impl; [|exact H1].
    intros t. unfold klt. rewrite E. destruct (tp t); tauto.
Qed.

Lemma starts_self t x q r : tp t = x :: q -> starts t (x :: r) = true.
Proof. intros E. unfold starts. rewrite E. apply byte_eqb_refl. Qed.

Lemma starts_other t x q y r : tp t = x :: q -> x <> y -> starts t (y :: r) = false.
Proof. intros E N. unfold starts. rewrite E. destruct (byte_eqb_spec x y); congruence. Qed.

Lemma starts_nil t : starts t [] = false.
Proof. unfold starts. now destruct (tp t). Qed.

Lemma lookup_not_starts t x q k : tp t = x :: q -> starts t k = false -> lookup t k = None.
Proof.
  destruct t as [p v cs]. cbn [tp]. intros -> H. rewrite lookup_raw. unfold rawlook. cbn.
  unfold starts in H. cbn in H. destruct k as [|y k]; [reflexivity|]. now rewrite H.
Qed.

Lemma lkids_nil_key cs : lkids cs [] = None.
Proof. induction cs; cbn; [reflexivity|]. now rewrite starts_nil. Qed.

Lemma above_not_starts c l r : above c l -> Forall (fun t => starts t (c :: r) = false) l.
Proof.
  apply Forall_impl. intros t. unfold starts. destruct (tp t) as [|x q]; [tauto|].
  intros H. apply byte_eqb_neq. lia.
Qed.

Lemma lkids_above c l r : above c l -> lkids l (c :: r) = None.
Proof.
  intros H. apply (above_not_starts _ _ r) in H. induction H; cbn; [reflexivity|]. now rewrite H.
Qed.

(* ------------------------------------------------------------------ *)
(** Keys of canonical trees. *)

(** A live canonical tree holds a key. *)
Lemma cc_has_key t : cc t -> exists k, lookup t k <> None.
Proof.
  induction t as [p v cs IH] using tree_ind'. intros H. inversion H as [? ? ? Hp Hl Hs Hc]; subst.
  destruct v as [x|].
  - exists p. rewrite lookup_raw. unfold rawlook.
    rewrite <- (app_nil_r p) at 2. now rewrite strip_app.
  - destruct Hl as [|Hl]; [congruence|]. destruct cs as [|c cs]; [cbn in Hl; lia|].
    inversion IH; inversion Hc; subst. destruct (H2 H6) as [k Hk].
    destruct (cc_nonempty_prefix _ H6) as (x & q & E).
    exists (p ++ k). rewrite lookup_raw. unfold rawlook. rewrite strip_app.
    destruct (starts c k) eqn:S.
    + destruct k; [now rewrite starts_nil in S|]. cbn. now rewrite S.
    + now rewrite (lookup_not_starts _ _ _ _ E S) in Hk.
Qed.

Lemma lkids_has_key l c : ksorted l -> Forall cc l -> In c l ->
  exists k, lkids l k <> None /\ starts c k = true.
Proof.
  induction l as [|a l IH]; [intros _ _ []|].
  intros Hs Hc Hin. inversion Hc as [|? ? Ha Hl]; subst.
  destruct (cc_nonempty_prefix _ Ha) as (x & q & E).
  apply (ksorted_cons _ _ _ _ E) in Hs as [Hab Hs].
  destruct Hin as [->|Hin].
  - destruct (cc_has_key _ Ha) as [k Hk]. exists k. cbn.
    destruct (starts c k) eqn:S; [auto|]. now rewrite (lookup_not_starts _ _ _ _ E S) in Hk.
  - destruct (IH Hs Hl Hin) as (k & Hk & S). exists k. split; [|exact S]. cbn.
    destruct (starts a k) eqn:Sa; [|exact Hk].
    exfalso. destruct k as [|y k]; [now rewrite starts_nil in S|].
    unfold starts in Sa. rewrite E in Sa. destruct (byte_eqb_spec x y); [subst|congruence].
    rewrite (lkids_above _ _ _ Hab) in Hk. congruence.
Qed.

Lemma croot_has_key t : croot t -> t <> tempty -> exists k, lookup t k <> None.
Proof.
  intros [->|(Hl & Hs & Hc)] N; [congruence|]. destruct t as [p v cs]; cbn in *.
  destruct v as [x|].
  - exists p. rewrite lookup_raw. unfold rawlook.
    rewrite <- (app_nil_r p) at 2. now rewrite strip_app.
  - destruct Hl as [|Hl]; [congruence|]. destruct cs as [|c cs]; [cbn in Hl; lia|].
    destruct (lkids_has_key (c :: cs) c Hs Hc (or_introl eq_refl)) as (k & Hk & _).
    exists (p ++ k). rewrite lookup_raw. unfold rawlook. rewrite strip_app.
    destruct k; [now rewrite lkids_nil_key in Hk|exact Hk].
Qed.

Lemma tempty_lookup k : lookup tempty k = None.
Proof. unfold tempty. rewrite lookup_raw. unfold rawlook. cbn. destruct k; reflexivity. Qed.

(** If all keys start with [c], so does the edge. *)
Lemma croot_first t c : croot t -> t <> tempty ->
  (forall k, lookup t k <> None -> exists r, k = c :: r) ->
  cc t /\ exists q, tp t = c :: q.
Proof.
  intros Hr N Hk. assert (exists q, tp t = c :: q) as [q E].
  { destruct Hr as [->|(Hl & Hs & Hc)]; [congruence|]. destruct t as [p v cs]; cbn in *.
    destruct p as [|x p].
    - exfalso. destruct v as [y|].
      + destruct (Hk []) as [r Er]; [|discriminate]. rewrite lookup_raw. cbn. discriminate.
      + destruct Hl as [|Hl]; [congruence|]. destruct cs as [|c1 [|c2 cs]]; cbn in Hl; try lia.
        destruct (lkids_has_key _ c1 Hs Hc) as (k1 & H1 & S1); [cbn; auto|].
        destruct (lkids_has_key _ c2 Hs Hc) as (k2 & H2 & S2); [cbn; auto|].
        assert (forall k, lkids (c1 :: c2 :: cs) k <> None -> exists r, k = c :: r) as Hk'.
        { intros k Hkk. apply Hk. rewrite lookup_raw. unfold rawlook. cbn [strip].
          destruct k; [now rewrite lkids_nil_key in Hkk|exact Hkk]. }
        destruct (Hk' _ H1) as [r1 ->]. destruct (Hk' _ H2) as [r2 ->].
        inversion Hc as [|? ? Hc1 Hc']; subst. inversion Hc' as [|? ? Hc2 _]; subst.
        destruct (cc_nonempty_prefix _ Hc1) as (x1 & q1 & E1).
        destruct (cc_nonempty_prefix _ Hc2) as (x2 & q2 & E2).
        apply (ksorted_cons _ _ _ _ E1) in Hs as [Hab _]. inversion Hab; subst.
        rewrite E2 in H3.
        unfold starts in S1, S2. rewrite E1 in S1. rewrite E2 in S2.
        destruct (byte_eqb_spec x1 c), (byte_eqb_spec x2 c); try congruence. subst. lia.
    - assert (croot (T (x :: p) v cs)) as Hcr by (right; auto).
      destruct (croot_has_key _ Hcr N) as [k Hkk]. destruct (Hk _ Hkk) as [r ->].
      rewrite lookup_raw in Hkk. unfold rawlook in Hkk. cbn in Hkk.
      destruct (byte_eqb_spec x c); [subst; eauto|congruence]. }
  split; [|eauto]. apply croot_cc; [exact Hr|]. rewrite E. discriminate.
Qed.

(* ------------------------------------------------------------------ *)
(** Making a node canonical. *)
Definition mk (p : bytes) (v : option bytes) (cs : list tree) : tree :=
  match v, cs with
  | None, [] => tempty
  | None, [T q w ds] =>
      match w, ds with None, [] => tempty | _, _ => T (p ++ q) w ds end
  | _, _ => T p v cs
  end.

Lemma lkids_singleton t k : tp t <> [] -> lkids [t] k = lookup t k.
Proof.
  intros H. cbn. destruct (starts t k) eqn:S; [reflexivity|].
  destruct t as [[|x p] v cs]; [cbn in H; congruence|].
  symmetry. now apply (lookup_not_starts _ x p).
Qed.

Lemma mk_spec p v cs : ksorted cs -> Forall cc cs ->
  croot (mk p v cs) /\ forall k, lookup (mk p v cs) k = rawlook p v cs k.
Proof.
  intros Hs Hc. destruct v as [x|].
  - cbn. split; [right; cbn; split; [left; congruence|auto]|]. intros. apply lookup_raw.
  - destruct cs as [|c [|c2 cs]].
    + cbn. split; [left; reflexivity|]. intros k. rewrite tempty_lookup. unfold rawlook.
      destruct (strip p k) as [[|]|]; reflexivity.
    + inversion Hc as [|? ? H _]; subst. destruct c as [q w ds].
      inversion H as [? ? ? Hq Hl Hs' Hc']; subst.
      assert (mk p None [T q w ds] = T (p ++ q) w ds) as ->.
      { cbn. destruct w, ds; try reflexivity. destruct Hl as [|Hl]; [congruence|cbn in Hl; lia]. }
      split.
      * right. cbn. auto.
      * intros k. rewrite lookup_raw. unfold rawlook. rewrite strip_app_l.
        destruct (strip p k) as [r|]; [|reflexivity].
        destruct r as [|y r].
        -- destruct q; [congruence|reflexivity].
        -- rewrite lkids_singleton by (cbn; exact Hq). symmetry. apply lookup_raw.
    + change (mk p None (c :: c2 :: cs)) with (match c with T _ _ _ => T p None (c :: c2 :: cs) end). destruct c as [q w ds].
      split; [right; cbn; split; [right; cbn; lia|auto]|]. intros. apply lookup_raw.
Qed.

(** Edge shortening: keep the first [n] bytes outside. *)
Definition shorten (n : nat) (t : tree) : tree := T (skipn n (tp t)) (tv t) (tc t).

Lemma size_shorten n t : size (shorten n t) = size t.
Proof. destruct t. reflexivity. Qed.

Lemma shorten_cc n t : croot t -> n < length (tp t) -> cc (shorten n t).
Proof.
  intros [E|(Hl & Hs & Hc)] Hn; [rewrite E in Hn; cbn in Hn; lia|]. constructor; auto.
  destruct (skipn_cons_nth n (tp t) Hn) as (x & _ & ->). discriminate.
Qed.

Lemma rawlook_full p v cs k n : n = length p ->
  lookup (T p v cs) k = rawlook (firstn n p) v cs k.
Proof. intros ->. rewrite firstn_all. apply lookup_raw. Qed.

Lemma rawlook_shorten t k n : n < length (tp t) ->
  lookup t k = rawlook (firstn n (tp t)) None [shorten n t] k.
Proof.
  intros Hn. destruct t as [p v cs]. cbn [tp] in *. rewrite lookup_raw. unfold rawlook.
  rewrite <- (firstn_skipn n p) at 1. rewrite strip_app_l.
  destruct (strip (firstn n p) k) as [[|y r]|]; [ | | reflexivity].
  - destruct (skipn_cons_nth n p Hn) as (x & _ & ->). reflexivity.
  - rewrite lkids_singleton.
    + unfold shorten. rewrite lookup_raw. reflexivity.
    + cbn. destruct (skipn_cons_nth n p Hn) as (x & _ & ->). discriminate.
Qed.

(* ------------------------------------------------------------------ *)
(** Joining children lists.  [ob] observes a tree of the right operand at a key
    ([lookup], or whether the key is covered by a selected prefix), [d] is the
    observation of nothing, [g] the pointwise result. *)
Section Join.
Context {B : Type} (d : B) (ob : tree -> bytes -> B) (g : option bytes -> B -> option bytes).

Fixpoint okids (cs : list tree) (r : bytes) : B :=
  match cs with
  | [] => d
  | c :: cs' => if starts c r then ob c r else okids cs' r
  end.

Definition nondel : Prop := forall x y, g (Some x) y <> None.

Record KJ (xs ys rs : list tree) : Prop := {
  KJ_sorted : ksorted rs;
  KJ_cc : Forall cc rs;
  KJ_above : forall c, above c xs -> above c ys -> above c rs;
  KJ_look : forall k, k <> [] -> lkids rs k = g (lkids xs k) (okids ys k);
  KJ_len : nondel -> length xs <= length rs }.

Context (Hg0 : g None d = None).

Lemma okids_above c l r : above c l -> okids l (c :: r) = d.
Proof.
  intros H. apply (above_not_starts _ _ r) in H. induction H; cbn; [reflexivity|]. now rewrite H.
Qed.

Lemma KJ_nil : KJ [] [] [].
Proof. split; try constructor; cbn; auto. Qed.

Lemma KJ_nil_l ys : (forall y, g None y = None) -> KJ [] ys [].
Proof. intros H. split; try constructor; cbn; auto. Qed.

Lemma KJ_nil_r_keep xs : (forall x, g x d = x) -> ksorted xs -> Forall cc xs -> KJ xs [] xs.
Proof. intros H Hs Hc. split; auto. Qed.

Lemma KJ_nil_r_drop xs : (forall x, g x d = None) -> KJ xs [] [].
Proof.
  intros H. split; try constructor; cbn; auto.
  intros N. destruct xs; [cbn; lia|]. destruct (N [] d). apply H.
Qed.

Lemma KJ_a a x q xs ys rs : (forall o, g o d = o) ->
  cc a -> tp a = x :: q -> above x xs -> above x ys ->
  KJ xs ys rs -> KJ (a :: xs) ys (a :: rs).
Proof.
  intros Hg Ha E Hx Hy [K1 K2 K3 K4 K5]. split.
  - apply (ksorted_cons _ _ _ _ E). auto.
  - constructor; auto.
  - intros c Hc Hc'. apply above_cons in Hc as [Hc1 Hc]. apply above_cons. auto.
  - intros [|y k] Hk; [congruence|]. cbn [lkids].
    destruct (starts a (y :: k)) eqn:S; [|apply K4; congruence].
    unfold starts in S. rewrite E in S. destruct (byte_eqb_spec x y); [subst|congruence].
    rewrite okids_above by assumption. now rewrite Hg.
  - intros N. specialize (K5 N). cbn. lia.
Qed.

Lemma KJ_a_drop a x q xs ys rs : (forall o, g o d = None) ->
  tp a = x :: q -> above x xs -> above x ys ->
  KJ xs ys rs -> KJ (a :: xs) ys rs.
Proof.
  intros Hg E Hx Hy [K1 K2 K3 K4 K5]. split; auto.
  - intros c Hc Hc'. apply above_cons in Hc as [Hc1 Hc]. auto.
  - intros [|y k] Hk; [congruence|]. cbn [lkids].
    destruct (starts a (y :: k)) eqn:S; [|apply K4; congruence].
    unfold starts in S. rewrite E in S. destruct (byte_eqb_spec x y); [subst|congruence].
    rewrite okids_above by assumption. rewrite Hg.
    assert (above y rs) as Hr by auto. now rewrite (lkids_above _ _ _ Hr).
  - intros N. destruct (N [] d). apply Hg.
Qed.

Lemma KJ_b b x q xs ys rs : (forall k, lookup b k = g None (ob b k)) ->
  cc b -> tp b = x :: q -> above x xs -> above x ys ->
  KJ xs ys rs -> KJ xs (b :: ys) (b :: rs).
Proof.
  intros Hg Hb E Hx Hy [K1 K2 K3 K4 K5]. split.
  - apply (ksorted_cons _ _ _ _ E). auto.
  - constructor; auto.
  - intros c Hc Hc'. apply above_cons in Hc' as [Hc1 Hc']. apply above_cons. auto.
  - intros [|y k] Hk; [congruence|]. cbn [lkids okids].
    destruct (starts b (y :: k)) eqn:S; [|apply K4; congruence].
    unfold starts in S. rewrite E in S. destruct (byte_eqb_spec x y); [subst|congruence].
    rewrite lkids_above by assumption. apply Hg.
  - intros N. specialize (K5 N). cbn. lia.
Qed.

Lemma KJ_b_drop b x q xs ys rs : (forall y, g None y = None) ->
  tp b = x :: q -> above x xs -> above x ys ->
  KJ xs ys rs -> KJ xs (b :: ys) rs.
Proof.
  intros Hg E Hx Hy [K1 K2 K3 K4 K5]. split; auto.
  - intros c Hc Hc'. apply above_cons in Hc' as [Hc1 Hc']. auto.
  - intros [|y k] Hk; [congruence|]. cbn [okids].
    destruct (starts b (y :: k)) eqn:S; [|apply K4; congruence].
    unfold starts in S. rewrite E in S. destruct (byte_eqb_spec x y); [subst|congruence].
    rewrite (lkids_above _ xs) by assumption. rewrite Hg.
    assert (above y rs) as Hr by auto. now rewrite (lkids_above _ _ _ Hr).
Qed.

Definition tnil (t : tree) : bool :=
  match tv t, tc t with None, [] => true | _, _ => false end.

Lemma croot_tnil t : croot t -> tnil t = true <-> t = tempty.
Proof.
  intros Hr. split; [|intros ->; reflexivity]. intros H.
  destruct Hr as [->|(Hl & _)]; [reflexivity|]. destruct t as [p [v|] [|c cs]]; cbn in *; try discriminate.
  destruct Hl as [|Hl]; [congruence|cbn in Hl; lia].
Qed.

Lemma KJ_both a b r x q q' xs ys rs :
  (forall k, starts b k = false -> ob b k = d) ->
  croot r -> (forall k, lookup r k = g (lookup a k) (ob b k)) ->
  cc a -> tp a = x :: q -> tp b = x :: q' ->
  above x xs -> above x ys ->
  KJ xs ys rs -> KJ (a :: xs) (b :: ys) (if tnil r then rs else r :: rs).
Proof.
  intros Hob Hr Hl Ha Ea Eb Hx Hy [K1 K2 K3 K4 K5].
  assert (forall k, lookup r k <> None -> exists k', k = x :: k') as Hk.
  { intros k Hk. rewrite Hl in Hk. destruct (starts b k) eqn:S.
    - destruct k as [|y k]; [now rewrite starts_nil in S|].
      unfold starts in S. rewrite Eb in S. destruct (byte_eqb_spec x y); [subst; eauto|congruence].
    - assert (starts a k = false) as S'.
      { revert S. unfold starts. now rewrite Ea, Eb. }
      rewrite (lookup_not_starts _ _ _ _ Ea S'), (Hob _ S), Hg0 in Hk. congruence. }
  destruct (tnil r) eqn:En.
  - apply (croot_tnil _ Hr) in En. subst r. split; auto.
    + intros c Hc Hc'. apply above_cons in Hc as [_ Hc], Hc' as [_ Hc']. auto.
    + intros [|y k] Hky; [congruence|]. cbn [lkids okids].
      unfold starts. rewrite Ea, Eb. destruct (byte_eqb_spec x y) as [->|Ny].
      * rewrite <- Hl, tempty_lookup. apply lkids_above. auto.
      * apply K4. congruence.
    + intros N. exfalso. destruct (cc_has_key _ Ha) as [k Hka].
      specialize (Hl k). rewrite tempty_lookup in Hl.
      destruct (lookup a k) as [v|]; [|congruence]. now destruct (N v (ob b k)).
  - assert (r <> tempty) as Nr by (intros ->; discriminate).
    destruct (croot_first _ _ Hr Nr Hk) as [Hcr [qr Er]]. split.
    + apply (ksorted_cons _ _ _ _ Er). auto.
    + constructor; auto.
    + intros c Hc Hc'. apply above_cons in Hc as [Hc1 Hc], Hc' as [_ Hc']. apply above_cons.
      split; [|auto]. rewrite Er. now rewrite Ea in Hc1.
    + intros [|y k] Hky; [congruence|]. cbn [lkids okids].
      unfold starts. rewrite Er, Ea, Eb. destruct (byte_eqb_spec x y) as [->|Ny].
      * apply Hl.
      * apply K4. congruence.
    + intros N. specialize (K5 N). cbn. lia.
Qed.
End Join.

(** Pointwise result for two operands viewed below a common prefix. *)
Lemma raw_pointwise (g : option bytes -> option bytes -> option bytes) p va vb v xs ys rs k :
  g None None = None -> v = g va vb ->
  (forall k, k <> [] -> lkids rs k = g (lkids xs k) (lkids ys k)) ->
  rawlook p v rs k = g (rawlook p va xs k) (rawlook p vb ys k).
Proof.
  intros H0 -> H. unfold rawlook. destruct (strip p k) as [[|y r]|]; auto.
  apply H. congruence.
Qed.

Lemma okids_lookup cs k : okids None lookup cs k = lkids cs k.
Proof. induction cs as [|c cs IH]; cbn; [reflexivity|]. destruct (starts c k); auto. Qed.
