(** A program that uses the whole in-memory API, for the theorems about it. *)
From Verif Require Export HeapTreeExamples HeapGroupExamples.
From Coq Require Import String.
From Verif Require Import RetainSpec ScanSpec GroupSpec InPlaceSpec ScanExact MemLemmas Base BaseLemmas Header Node Combine Iter Api Tree Rep FindProofs Entries IterProofs Spec Client Top TopOps Store Heap HeapSpec
  HeapIter HeapIterSpec HeapIterTop HeapTree HeapTreeSpec HeapGroup HeapWhole HeapWholeSpec HeapWholePure HeapWholeGood HeapWholeTop.

(** ** Showing the lists of concrete trees *)
Fixpoint node_tree (n : node) : tree :=
  match n with
  | Node p v k => T (blob_slice p) (option_map blob_slice (blob_opt v)) (match k with KArc l => map node_tree l | KId _ => [] end)
  end.
Lemma rep_tree n : forall g, Rep false mem n g -> g = node_tree n.
Proof.
  induction n as [p v l IH|p v id] using node_ind'; intros [p' v' cs] R; apply Rep_inv in R; cbn [n_prefix n_value n_kids] in R;
    destruct R as (Rp & Rv & ns & Rk & F); cbn [node_tree];
    (assert (p = Data p') as -> by (destruct Rp as [E|[X _]]; [exact E|discriminate X]));
    (assert (v' = option_map blob_slice (blob_opt v)) as ->
       by (destruct v' as [x|]; cbn [RepV] in Rv; [destruct Rv as [->|(c & i & _ & X)]; [reflexivity|discriminate X]|now subst v])).
  - destruct Rk as [E|[[E ->]|(r & i & data & E & _)]]; try discriminate E. injection E as <-. cbn [blob_slice]. f_equal.
    clear -IH F. induction F as [|a b ns cs H1 H2 IH2]; [reflexivity|]. cbn [map]. inversion IH; subst. f_equal; auto.
  - destruct Rk as [E|[[E ->]|(r & i & data & _ & X & _)]]; [discriminate E| |discriminate X]. inversion F; subst. reflexivity.
Qed.
Definition mmap : kmap := m_insert (m_insert (m_insert (m_insert m_empty (B"ab") (B"1")) (B"abc") big) (B"abd") (B"3")) (B"b") [].
Definition mprog : prog := PInsert (PInsert (PInsert (PInsert PEmpty (B"ab") (B"1")) (B"abc") big) (B"abd") (B"3")) (B"b") [].
Definition mnode : node := Eval vm_compute in match run false mprog 20 with Ok n => n | _ => n_empty end.
Lemma mnode_good : reachable false mnode /\ holds mem mnode mmap.
Proof.
  assert (run false mprog ⇓ Ok mnode) as C by (apply (conv_mono _ 20); [apply run_mono|vm_compute; reflexivity]).
  split; [exists mprog; split; [exact I|exact C]|]. destruct (yields_holds _ _ _ _ (TopOps.run_ok false mprog I)) as (t & Ct & H).
  destruct C as (_ & a & Ca), Ct as (_ & b & Cb). specialize (Ca (a + b) (Nat.le_add_r _ _)). specialize (Cb (a + b) ltac:(rewrite Nat.add_comm; apply Nat.le_add_r)).
  rewrite Ca in Cb. injection Cb as <-. exact H.
Qed.
Lemma mmap_lists : lists [(B"ab", B"1"); (B"abc", big); (B"abd", B"3"); (B"b", [])] mmap.
Proof.
  destruct mnode_good as [R H]. destruct (listing_map false mnode mmap R H) as (l & Hl & E).
  replace [(B"ab", B"1"); (B"abc", big); (B"abd", B"3"); (B"b", [])] with l; [exact Hl|].
  cbn in E. injection E as E. destruct l as [|[? ?] [|[? ?] [|[? ?] [|[? ?] [|? ?]]]]]; cbn in E; try discriminate E. now injection E as <- <- <- <- <- <- <- <-.
Qed.
(** C08: the scan gives other keys. *)
Lemma mmap_scans : scans mmap (B"ab") [(B"abab", B"1"); (B"ababc", big); (B"ababd", B"3")].
Proof.
  destruct mnode_good as [R H]. destruct (any_scan_exact false mem mnode mmap (B"ab") (in_memory false mnode mmap R H)) as (l0 & l' & e & (_ & N & C) & Hl & Hf & He).
  assert (l' = [(B"abab", B"1"); (B"ababc", big); (B"ababd", B"3")]) as ->.
  { assert (scan_bytes mem mnode (B"ab") ⇓ Ok [(B"abab", B"1"); (B"ababc", big); (B"ababd", B"3")]) as (_ & N' & C').
    { apply (conv_mono _ 20); [unfold scan_bytes; apply mono_bind; [apply mono_scan|intros; apply mono_const]|vm_compute; reflexivity]. }
    specialize (C (N + N') (Nat.le_add_r _ _)). specialize (C' (N + N') ltac:(rewrite Nat.add_comm; apply Nat.le_add_r)). congruence. }
  exists l0, e. split; [exact Hl|]. split; [|exact He]. clear -Hf.
  remember [(B"abab", B"1"); (B"ababc", big); (B"ababd", B"3")] as l'. clear Heql'.
  induction Hf as [|[a x] [b y] l0 l' [E (z & Ea & Eb)] _ IH]; [reflexivity|]. cbn [map fst snd] in *. subst y a b l'. f_equal.
Qed.
Lemma mmap_cuts : cuts short mmap [Whole (B"ab"); Own (B"b") []].
Proof.
  destruct mnode_good as [R H]. destruct (reachable_good _ _ R) as (g & Rg & C & _).
  pose proof (gcuts_cuts short g mmap C (holds_lookup false mem mnode g mmap Rg C H)) as X. rewrite (rep_tree _ _ Rg) in X. exact X.
Qed.

(** ** The program *)
Definition w_build : list winstr :=
  map WTree [TEmpty; TInsert 0 (B"ab") (B"1"); TInsert 0 (B"abc") big; TInsert 0 (B"abd") (B"3"); TInsert 0 (B"b") []; TClone 0].
Definition w_use : list winstr :=
  [WScan 0 (B"ab"); WNext 0; WNext 0; WTree (TInsert 0 (B"x") (B"5")); WReadKey 1; WReadValue 3; WBlob 1; WDropKey 1; WDropIter 0; WReadBlob 0;
   WGroup 1 short; WNextGroup 0; WTree (TInsert 4 (B"q") (B"6")); WNextGroup 0; WNextGroup 0;
   WFirst 1; WLast 1; WLastEntry 1 (B"z"); WReadValue 7; WIf (QContains 4 (B"abc")) (WValues 1); WNextValue 0; WTree (TDrop 1);
   WIter 5; WNext 1; WNext 1; WReadKey 2; WFirstEntry 5 []].
Definition m_built : mst := MS [Some (MTree mmap); Some (MTree mmap)] [] [] [] [] [] [].
Lemma w_build_runs : w_runs w_grows w_build ms_start m_built.
Proof. unfold w_build, map. do 6 (eapply w_next; [exact I|apply do_tree; reflexivity|]). apply w_done. Qed.
Definition m_used : mst :=
  MS [Some (MTree (m_insert mmap (B"x") (B"5"))); None; Some (MValue (B"1")); Some (MValue big);
      Some (MTree (m_insert (m_filter_prefix mmap (B"ab") (B"ab")) (B"q") (B"6"))); Some (MTree (m_insert m_empty (B"b") [])); None;
      Some (MValue (B"1")); Some (MValue []); Some (MValue []); Some (MValue (B"1")); Some (MValue []); None; Some (MValue [])]
     [None; Some []] [Some [big; B"3"; []]] [Some (B"abab"); None; Some (B"b"); None] [Some []]
     [Some (B"ababc"); Some big; Some (B"ababc"); Some (B"zb"); Some (B"1"); Some (B"b"); Some (B"b")] [Some (B"ababc")].
Lemma b_lists : lists [(B"b", [])] (m_insert m_empty (B"b") []).
Proof.
  split; [repeat constructor|].
  - intros k v. unfold m_insert, m_empty, beq. cbn [In]. destruct (list_eq_dec Byte.byte_eq_dec k (B"b")) as [->|Hk].
    + split; [intros [E|[]]; injection E as <-; auto|intros [E _]; injection E as <-; auto].
    + split; [intros [E|[]]; injection E as <- _; congruence|intros [E _]; discriminate E].
Qed.
Ltac norm := cbn [m_iter m_read m_give ms_env ms_iters ms_vals ms_keys ms_groups ms_vecs ms_blobs app upd map fst snd option_map cut_map first_of last_of rev hd_error].
Tactic Notation "by_step" tactic3(t) := eapply w_next; [exact I|t|norm].
Ltac tree := by_step (apply do_tree; reflexivity).
Lemma w_use_runs : w_runs w_grows w_use m_built m_used.
Proof.
  unfold w_use, m_built.
  by_step (eapply do_scan; [reflexivity|apply mmap_scans]).
  do 2 (by_step (eapply do_next; reflexivity)). tree.
  by_step (eapply do_read_key; reflexivity).
  by_step (eapply do_read_value; reflexivity).
  by_step (eapply do_blob; reflexivity).
  by_step (apply do_drop_key). by_step (apply do_drop_iter).
  by_step (eapply do_read_blob; reflexivity).
  by_step (eapply do_group; [reflexivity|apply mmap_cuts]).
  by_step (eapply do_next_group; reflexivity). tree.
  by_step (eapply do_next_group; reflexivity).
  by_step (eapply do_end_group; reflexivity).
  by_step (eapply do_first; [reflexivity|apply mmap_lists]).
  by_step (eapply do_last; [reflexivity|apply mmap_lists]).
  by_step (eapply do_last_entry; [reflexivity|apply mmap_lists]).
  by_step (eapply do_read_value; reflexivity).
  eapply w_yes; [exact I|reflexivity|vm_compute; discriminate|].
  by_step (eapply do_values; [reflexivity|apply mmap_lists]).
  by_step (eapply do_next_value; reflexivity). tree.
  by_step (eapply do_iter; [reflexivity|apply b_lists]).
  by_step (eapply do_next; reflexivity).
  by_step (eapply do_end; reflexivity).
  by_step (eapply do_read_key; reflexivity).
  by_step (eapply do_first_entry; [reflexivity|apply b_lists]).
  apply w_done.
Qed.
Lemma grows_may p s s' : w_runs w_grows p s s' -> w_runs w_may p s s'.
Proof.
  assert (forall i s, w_grows i s -> w_may i s) as H.
  { intros i x Hi. destruct i as [i|q i| | | | | | | | | | | | | | | | | | | | ]; try exact I; [destruct i; cbn in *; tauto|exact Hi]. }
  induction 1; [apply w_done|eapply w_next; eauto|eapply w_yes; eauto|eapply w_no; eauto].
Qed.
