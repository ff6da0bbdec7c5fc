(** Unsigned integers as bytes (Rust standard library). *)
From Verif Require Import Base BaseLemmas.

(** [u64::to_be_bytes] / [u32::to_be_bytes] with [n] bytes: the [n] low bytes of
    [x], most significant first. *)
Fixpoint to_be (n : nat) (x : N) : bytes :=
  match n with
  | 0 => []
  | S n => to_be n (x / 256) ++ [byte_of x]
  end.

(** [from_be_bytes]: most significant byte first. *)
Definition of_be (b : bytes) : N := fold_left (fun acc c => (acc * 256 + bnum c)%N) b 0%N.

Definition u64_max : N := 18446744073709551616. (* 2^64 *)

Lemma bnum_byte_of' n : bnum (byte_of n) = (n mod 256)%N.
Proof.
  unfold byte_of, bnum. assert (n mod 256 < 256)%N as H by (apply N.mod_lt; discriminate).
  destruct (Byte.of_N (n mod 256)) as [b|] eqn:E.
  - now apply Byte.to_of_N.
  - apply Byte.of_N_None_iff in E. lia.
Qed.

Lemma to_be_length n : forall x, length (to_be n x) = n.
Proof. induction n as [|n IH]; intros x; cbn; [reflexivity|]. rewrite app_length, IH. cbn. lia. Qed.

Lemma of_be_app a b : of_be (a ++ [b]) = (of_be a * 256 + bnum b)%N.
Proof. unfold of_be. now rewrite fold_left_app. Qed.

Lemma of_to_be n : forall x, (x < 256 ^ N.of_nat n)%N -> of_be (to_be n x) = x.
Proof.
  induction n as [|n IH]; intros x H.
  - cbn in *. lia.
  - cbn [to_be]. rewrite of_be_app, IH, bnum_byte_of'.
    + pose proof (N.div_mod x 256). lia.
    + rewrite Nat2N.inj_succ, N.pow_succ_r' in H. apply N.div_lt_upper_bound; lia.
Qed.

Lemma of_be_bound b : (of_be b < 256 ^ N.of_nat (length b))%N.
Proof.
  induction b as [|c b IH] using rev_ind; [cbn; lia|].
  rewrite of_be_app, app_length, Nat.add_1_r, Nat2N.inj_succ, N.pow_succ_r'.
  pose proof (bnum_lt c). nia.
Qed.

Lemma to_of_be b : to_be (length b) (of_be b) = b.
Proof.
  induction b as [|c b IH] using rev_ind; [reflexivity|].
  rewrite app_length, Nat.add_1_r. cbn [to_be]. rewrite of_be_app. f_equal.
  - rewrite N.add_comm, N.div_add by lia. rewrite N.div_small by apply bnum_lt. exact IH.
  - f_equal. apply bnum_inj. rewrite bnum_byte_of', N.add_comm, N.mod_add by lia.
    apply N.mod_small, bnum_lt.
Qed.

Lemma u64_pow : (256 ^ N.of_nat 8 = u64_max)%N.
Proof. reflexivity. Qed.
Lemma to_be8_inj x y : (x < u64_max)%N -> (y < u64_max)%N -> to_be 8 x = to_be 8 y -> x = y.
Proof.
  intros Hx Hy E. rewrite <- (of_to_be 8 x), <- (of_to_be 8 y), E by (rewrite u64_pow; assumption). reflexivity.
Qed.
