(** Moving the part of a tree below a prefix to another prefix and back (C97). *)
From Verif Require Import Base BaseLemmas Header Node Combine Iter Api Tree Rep Spec Client Store StoreSpec World MergeSpec
  MemLemmas Top TopOps StoreLemmas StoreTop Bulk BulkProofs.


Lemma move_twice m p s q : same (m_filter_prefix (m_filter_prefix m p s) s q) (m_filter_prefix m p q).
Proof.
  intros x. unfold m_filter_prefix. destruct (strip_prefix q x) as [r|]; [|reflexivity].
  now rewrite strip_prefix_strip, strip_app.
Qed.
Lemma move_some (m : kmap) p s : (exists k, m k <> None /\ starts_with p k = true) -> exists x, m_filter_prefix m p s x <> None.
Proof.
  intros (k & Hk & Hp). apply starts_with_spec in Hp as [z ->]. exists (s ++ z). unfold m_filter_prefix.
  now rewrite strip_prefix_strip, strip_app.
Qed.

Lemma move_back dbg t m p s q : reachable dbg t -> holds mem t m -> (exists k, m k <> None /\ starts_with p k = true) ->
  exists a b c, t_filter_prefix mem t p s ⇓ Ok a /\ t_filter_prefix mem a s q ⇓ Ok b /\ t_filter_prefix mem t p q ⇓ Ok c /\ alike b c.
Proof.
  intros R H Hk. assert (exists x, m x <> None) as Hm by (destruct Hk as (k & X & _); eauto).
  destruct (mem_filter_prefix dbg t m R H p s) as (a & Ca & Ra & Ha); [auto|].
  destruct (mem_filter_prefix dbg a _ Ra Ha s q) as (b & Cb & Rb & Hb); [right; right; now apply move_some|].
  destruct (mem_filter_prefix dbg t m R H p q) as (c & Cc & Rc & Hc); [auto|].
  exists a, b, c. split; [exact Ca|]. split; [exact Cb|]. split; [exact Cc|].
  eapply same_alike; [exact Rb|exact Rc|exact Hb|exact Hc|]. apply move_twice.
Qed.

Lemma move_back_stored dbg S inv st t m p s q : lawful S inv -> attached dbg S inv st t m ->
  (exists k, m k <> None /\ starts_with p k = true) ->
  exists a b c, t_filter_prefix (st_read S st) t p s ⇓ Ok a /\ t_filter_prefix (st_read S st) a s q ⇓ Ok b /\
    t_filter_prefix (st_read S st) t p q ⇓ Ok c /\
    forall k, exists v, get_bytes (st_read S st) b k ⇓ Ok v /\ get_bytes (st_read S st) c k ⇓ Ok v.
Proof.
  intros L A Hk. assert (exists x, m x <> None) as Hm by (destruct Hk as (k & X & _); eauto).
  destruct (at_good dbg S inv L st t m A) as (ids & g & (R & C & E) & H).
  destruct (g_filter_prefix ids _ t g m R C H p s (or_intror (or_intror Hm)) E) as (a & ga & Ca & (Ra & Cga & Ea) & Ha).
  destruct (g_filter_prefix ids _ a ga _ Ra Cga Ha s q (or_intror (or_intror (move_some m p s Hk))) Ea) as (b & gb & Cb & _ & Hb).
  destruct (g_filter_prefix ids _ t g m R C H p q (or_intror (or_intror Hm)) E) as (c & gc & Cc & _ & Hc).
  exists a, b, c. split; [exact Ca|]. split; [exact Cb|]. split; [exact Cc|]. intros k. eexists. split; [apply Hb|].
  rewrite move_twice. apply Hc.
Qed.
