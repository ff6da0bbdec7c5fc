From Verif Require Import MemExamples Base BaseLemmas Header Node Combine Iter Api Spec Client Store MergeSpec.

(** The greater of two byte strings. *)
Fixpoint greater (a b : bytes) : bytes :=
  match a, b with
  | [], _ => b
  | _, [] => a
  | x :: a', y :: b' =>
      match Byte.to_N x ?= Byte.to_N y with
      | Lt => b
      | Gt => a
      | Eq => x :: greater a' b'
      end
  end%N.
Lemma to_N_eq x y : Byte.to_N x = Byte.to_N y -> x = y.
Proof.
  intros E. pose proof (Byte.of_to_N x) as A. pose proof (Byte.of_to_N y) as C. rewrite E in A. congruence.
Qed.
Lemma greater_idem a : greater a a = a.
Proof. induction a as [|x a IH]; cbn; [reflexivity|]. rewrite N.compare_refl. now rewrite IH. Qed.
Lemma greater_commutes : commutes greater.
Proof.
  split.
  - induction x as [|x a IH]; intros [|y b]; cbn; try reflexivity.
    rewrite (N.compare_antisym (Byte.to_N x) (Byte.to_N y)).
    destruct (N.compare_spec (Byte.to_N x) (Byte.to_N y)) as [E|E|E]; cbn; try reflexivity.
    apply to_N_eq in E as ->. now rewrite IH.
  - induction x as [|x a IH]; intros [|y b] [|z c]; try reflexivity.
    + cbn. destruct (Byte.to_N x ?= Byte.to_N y)%N; reflexivity.
    + cbn.
      destruct (N.compare_spec (Byte.to_N y) (Byte.to_N z)) as [E|E|E];
      destruct (N.compare_spec (Byte.to_N x) (Byte.to_N y)) as [F|F|F];
      try apply to_N_eq in E; try apply to_N_eq in F; subst; cbn; rewrite ?N.compare_refl; rewrite ?IH; try reflexivity;
      repeat match goal with
      | |- context [(Byte.to_N ?a ?= Byte.to_N ?b)%N] =>
          let G := fresh in destruct (N.compare_spec (Byte.to_N a) (Byte.to_N b)) as [G|G|G]; try (apply to_N_eq in G; subst)
      end; try reflexivity; try lia.
Qed.

Definition mg_ts : list node := [ex_t; ex_u; n_single (B"a") (B"1")].
Definition mg_ms : list kmap := [ex_m; ex_mu; m_insert m_empty (B"a") (B"1")].
Lemma mg_ok : Forall2 (fun t m => reachable true t /\ holds detached_read t m) mg_ts mg_ms.
Proof.
  apply Forall2_cons; [split; [exact ex_reachable|exact ex_holds]|].
  apply Forall2_cons; [split; [exact ex_reachable_u|exact ex_holds_u]|].
  apply Forall2_cons; [split; [apply reach_single|apply holds_single]|]. apply Forall2_nil.
Qed.
Definition mg_p : plan := Merge true (Merge false (Take 0) (Take 1)) (Take 2).
Definition mg_q : plan := Merge true (Take 2) (Merge true (Take 1) (Take 0)).
Definition mg_r : plan := Merge false mg_q mg_p.
Definition mg_run w p := (t <- execute true w greater mg_ts p 60 ;; iter_bytes detached_read t 60).
