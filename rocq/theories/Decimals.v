(** Decimal numbers are different and short: proofs. *)
From Coq Require Import Decimal DecimalFacts DecimalN DecimalString String.
From Verif Require Import Base BaseLemmas BrowserMain.
From Coq Require Import List Lia FinFun.
Import ListNotations.

Lemma to_uint_nonnil n : N.to_uint n <> Nil.
Proof.
  intros E. pose proof (DecimalN.Unsigned.of_to n) as H. rewrite E in H. cbn in H. subst n. discriminate E.
Qed.
Lemma decimal_inj i j : decimal i = decimal j -> i = j.
Proof.
  unfold decimal. intros E. apply (f_equal string_of_list_byte) in E. rewrite !string_of_list_byte_of_string in E.
  apply (f_equal NilZero.uint_of_string) in E. rewrite !NilZero.usu in E by apply to_uint_nonnil.
  injection E as E. apply DecimalN.Unsigned.to_uint_inj in E. lia.
Qed.
Lemma double_digits d : (nb_digits (Little.double d) <= S (nb_digits d))%nat /\ (nb_digits (Little.succ_double d) <= S (nb_digits d))%nat.
Proof. induction d; cbn [Little.double Little.succ_double nb_digits]; lia. Qed.
Lemma little_digits p : (nb_digits (Pos.to_little_uint p) <= Pos.size_nat p)%nat.
Proof.
  induction p as [p IH|p IH|]; cbn [Pos.to_little_uint Pos.size_nat].
  - pose proof (proj2 (double_digits (Pos.to_little_uint p))). lia.
  - pose proof (proj1 (double_digits (Pos.to_little_uint p))). lia.
  - cbn. lia.
Qed.
Lemma string_digits d : String.length (NilEmpty.string_of_uint d) = nb_digits d.
Proof. induction d; cbn; congruence. Qed.
Lemma bytes_length s : List.length (list_byte_of_string s) = String.length s.
Proof. unfold list_byte_of_string. rewrite map_length. induction s; cbn; congruence. Qed.
Lemma decimal_length i : (List.length (decimal i) <= S (N.size_nat (N.of_nat i)))%nat.
Proof.
  unfold decimal. rewrite bytes_length. unfold NilZero.string_of_uint.
  destruct (N.of_nat i) as [|p] eqn:E; [cbn; lia|]. cbn [N.to_uint N.size_nat]. unfold Pos.to_uint.
  assert (nb_digits (Decimal.rev (Pos.to_little_uint p)) <= Pos.size_nat p)%nat as H.
  { rewrite nb_digits_rev. apply little_digits. }
  destruct (Decimal.rev (Pos.to_little_uint p)) eqn:R; [cbn; lia|..]; rewrite string_digits; lia.
Qed.
Lemma different_numbers n : different (numbers n) = n.
Proof.
  unfold different, numbers. rewrite map_map. cbn [fst]. rewrite nodup_fixed_point; [now rewrite map_length, seq_length|].
  apply FinFun.Injective_map_NoDup; [exact decimal_inj|apply seq_NoDup].
Qed.
