(** Lemmas about Base.v. *)
From Verif Require Import Base.
From Coq Require Import Sorting.Sorted.

Lemma byte_eqb_spec (x y : byte) : reflect (x = y) (Byte.eqb x y).
Proof.
  destruct (Byte.eqb x y) eqn:E; constructor.
  - now apply byte_dec_bl.
  - intros ->. now rewrite (byte_dec_lb (eq_refl y)) in E.
Qed.

Lemma byte_eqb_refl (x : byte) : Byte.eqb x x = true.
Proof. now apply byte_dec_lb. Qed.

Lemma bnum_inj (x y : byte) : bnum x = bnum y -> x = y.
Proof.
  intros H. unfold bnum in H.
  pose proof (Byte.of_to_N x) as Hx. pose proof (Byte.of_to_N y) as Hy.
  rewrite H in Hx. congruence.
Qed.

Lemma bnum_lt (x : byte) : (bnum x < 256)%N.
Proof. unfold bnum. pose proof (Byte.to_N_bounded x). lia. Qed.

Lemma byte_eqb_neq (x y : byte) : bnum x <> bnum y -> Byte.eqb x y = false.
Proof. intros H. destruct (byte_eqb_spec x y); congruence. Qed.

Lemma bind_ok {A B} (x : res A) (k : A -> res B) (b : B) :
  bind x k = Ok b -> exists a, x = Ok a /\ k a = Ok b.
Proof. destruct x; cbn; intros; try discriminate. eauto. Qed.

Lemma common_prefix_le_l a : forall b, common_prefix a b <= length a.
Proof.
  induction a as [|x a IH]; intros [|y b]; cbn; try lia.
  destruct (Byte.eqb x y); [specialize (IH b)|]; lia.
Qed.

Lemma common_prefix_le_r a : forall b, common_prefix a b <= length b.
Proof.
  induction a as [|x a IH]; intros [|y b]; cbn; try lia.
  destruct (Byte.eqb x y); [specialize (IH b)|]; lia.
Qed.

Lemma common_prefix_firstn a : forall b,
  firstn (common_prefix a b) a = firstn (common_prefix a b) b.
Proof.
  induction a as [|x a IH]; intros [|y b]; cbn; try reflexivity.
  destruct (byte_eqb_spec x y); cbn; [subst; f_equal; apply IH | reflexivity].
Qed.

(** The first bytes after the common prefix differ. *)
Lemma common_prefix_diff a : forall b x y,
  nth_error a (common_prefix a b) = Some x ->
  nth_error b (common_prefix a b) = Some y -> x <> y.
Proof.
  induction a as [|u a IH]; intros [|w b] x y; cbn; try discriminate.
  destruct (byte_eqb_spec u w); cbn; [apply IH | congruence].
Qed.

Lemma common_prefix_refl a : common_prefix a a = length a.
Proof. induction a; cbn; [reflexivity|]. rewrite byte_eqb_refl. now f_equal. Qed.

Lemma common_prefix_app a r : common_prefix a (a ++ r) = length a.
Proof. induction a; cbn; [reflexivity|]. rewrite byte_eqb_refl. now f_equal. Qed.

Lemma common_prefix_comm a : forall b, common_prefix a b = common_prefix b a.
Proof.
  induction a as [|x a IH]; intros [|y b]; cbn; try reflexivity.
  destruct (byte_eqb_spec x y) as [->|N].
  - rewrite byte_eqb_refl. now rewrite IH.
  - destruct (byte_eqb_spec y x); congruence.
Qed.

Lemma slice_from_ok {A} n (l : list A) : n <= length l -> slice_from n l = Ok (skipn n l).
Proof. unfold slice_from. intros. destruct (Nat.leb_spec n (length l)); [reflexivity|lia]. Qed.

Lemma slice_to_ok {A} n (l : list A) : n <= length l -> slice_to n l = Ok (firstn n l).
Proof. unfold slice_to. intros. destruct (Nat.leb_spec n (length l)); [reflexivity|lia]. Qed.

Lemma skipn_nth_error {A} n (l : list A) x :
  nth_error l n = Some x -> skipn n l = x :: skipn (S n) l.
Proof.
  revert l. induction n as [|n IH]; intros [|y l]; cbn; try discriminate.
  - congruence.
  - intros H. now rewrite IH.
Qed.

Lemma skipn_cons_nth {A} n (l : list A) : n < length l ->
  exists x, nth_error l n = Some x /\ skipn n l = x :: skipn (S n) l.
Proof.
  intros H. destruct (nth_error l n) as [x|] eqn:E.
  - exists x. split; [reflexivity|]. now apply skipn_nth_error.
  - apply nth_error_None in E. lia.
Qed.

(** Outcome of a computation that is [Ok] with a postcondition, or a panic that
    is excused by [allow]. *)
Definition okp {A} (allow : Prop) (r : res A) (P : A -> Prop) : Prop :=
  (exists x, r = Ok x /\ P x) \/ (r = Panic /\ allow).

Lemma okp_ok {A} allow (x : A) (P : A -> Prop) : P x -> okp allow (Ok x) P.
Proof. left. eauto. Qed.

Lemma okp_bind {A B} allow (x : res A) (k : A -> res B) P Q :
  okp allow x P -> (forall a, P a -> okp allow (k a) Q) -> okp allow (bind x k) Q.
Proof.
  intros [[a [-> Ha]]|[-> Ha]] H; cbn; [auto|]. right. auto.
Qed.

Lemma okp_weaken {A} (allow allow' : Prop) (r : res A) (P Q : A -> Prop) :
  okp allow r P -> (allow -> allow') -> (forall a, P a -> Q a) -> okp allow' r Q.
Proof. intros [[a [-> Ha]]|[-> Ha]] H1 H2; [left; eauto | right; auto]. Qed.

Lemma okp_False {A} (r : res A) (P : A -> Prop) : okp False r P -> exists x, r = Ok x /\ P x.
Proof. intros [H|[_ []]]. exact H. Qed.

Lemma converges_det {A} (f : nat -> res A) r r' : f ⇓ r -> f ⇓ r' -> r = r'.
Proof.
  intros [_ [n Hn]] [_ [m Hm]].
  rewrite <- (Hn (n + m)) by lia. apply Hm. lia.
Qed.

Lemma Forall2_len {A B} (R : A -> B -> Prop) l l' : Forall2 R l l' -> length l = length l'.
Proof. induction 1; cbn; congruence. Qed.
