(** The grouping of Dirs.v. *)
From Coq Require Import Sorting.Sorted.
From Verif Require Import Base BaseLemmas Header Node Combine Iter Api Tree Canon Rep Entries IterProofs Sim Spec Client Top TopOps MemLemmas
  GroupSpec GroupProofs GroupTop WalkSpec Walk WalkProofs BulkProofs AlignProofs Dirs.

(** The closure is only called with paths that are at least as long as the first one. *)
Section Deep.
Context (rd : reader) (d1 d2 : bytes -> noderef -> res bool) (n : nat).
Context (Hd : forall p r b, n <= length p -> d1 p r = Ok b -> d2 p r = Ok b).

Definition calm (L : nat) (o : option iter) : Prop :=
  n <= L \/ o = None \/ o = Some (IOwned []) \/
  exists t p, o = Some (IOwned [t]) /\ load_prefix rd (n_prefix t) = Ok p /\ n <= L + length p.
Fixpoint deep (stack : list (nat * option iter)) (L : nat) : Prop :=
  match stack with
  | [] => True
  | (len, o) :: rest => calm L o /\ deep rest (L - len)
  end.

Lemma key_pop_length (p : bytes) k : length (key_pop p k) = length p - k.
Proof. unfold key_pop. rewrite firstn_length. unfold bytes in *. lia. Qed.

Lemma deep_next : forall fuel s x s', deep (kv_stack s) (length (kv_path s)) -> gb_next0 rd d1 fuel s = Ok (x, s') ->
  gb_next0 rd d2 fuel s = Ok (x, s') /\ deep (kv_stack s') (length (kv_path s')).
Proof.
  induction fuel as [|fuel IH]; intros s x s' D; cbn [gb_next0]; [discriminate|].
  destruct (kv_stack s) as [|[len [it|]] rest] eqn:Es.
  - intros [= <- <-]. split; [reflexivity|]. now rewrite Es.
  - destruct D as [Dc Dr]. destruct (it_next it) as [[t it']|] eqn:Ei.
    + destruct (load_prefix rd (r_prefix t)) as [p| | |] eqn:Ep; cbn [bind]; try discriminate.
      assert (n <= length (kv_path s ++ p) /\ calm (length (kv_path s)) (Some it')) as [Hn Hc].
      { rewrite app_length. destruct Dc as [Hn|[Hx|[Hx|(t0 & p0 & Hx & Hp & Hn)]]]; try discriminate.
        - split; [lia|now left].
        - injection Hx as ->. discriminate Ei.
        - injection Hx as ->. cbn in Ei. injection Ei as <- <-. cbn in Ep. rewrite Hp in Ep. injection Ep as ->.
          split; [exact Hn|]. right; right; left. reflexivity. }
      destruct (d1 (kv_path s ++ p) t) as [b| | |] eqn:E; cbn [bind]; try discriminate.
      rewrite (Hd _ _ _ Hn E). cbn [bind]. destruct b.
      * destruct (r_load_children_owned rd t) as [ch| | |]; cbn [bind]; try discriminate.
        assert (deep ((length p, ch) :: (len, Some it') :: rest) (length (kv_path s ++ p))) as D'.
        { cbn [deep]. split; [now left|]. rewrite app_length. replace (length (kv_path s) + length p - length p) with (length (kv_path s)) by lia.
          split; assumption. }
        destruct (r_value_opt t); [|now apply IH].
        destruct (r_to_owned t) as [o| | |]; cbn [bind]; try discriminate. intros [= <- <-]. split; [reflexivity|exact D'].
      * destruct (r_to_owned t) as [o| | |]; cbn [bind]; try discriminate. intros [= <- <-]. split; [reflexivity|].
        cbn [kv_stack kv_path deep]. rewrite key_pop_length, app_length.
        replace (length (kv_path s) + length p - length p) with (length (kv_path s)) by lia. split; assumption.
    + apply IH. cbn [kv_stack kv_path deep]. split; [right; now left|exact Dr].
  - destruct D as [_ Dr]. apply IH. cbn [kv_stack kv_path]. now rewrite key_pop_length.
Qed.

Lemma deep_collect : forall fuel s x, deep (kv_stack s) (length (kv_path s)) ->
  collect (gb_next rd d1) fuel s = Ok x -> collect (gb_next rd d2) fuel s = Ok x.
Proof.
  induction fuel as [|fuel IH]; intros s x D; [discriminate|]. cbn [collect]. unfold gb_next at 1 3.
  destruct (gb_next0 rd d1 fuel s) as [[[y|] s']| | |] eqn:E; cbn [bind]; try discriminate;
    destruct (deep_next _ _ _ _ D E) as [-> D']; cbn [bind]; auto.
  destruct (collect (gb_next rd d1) fuel s') as [l| | |] eqn:E'; cbn [bind]; try discriminate.
  now rewrite (IH _ _ D' E').
Qed.
End Deep.

Lemma forks_below (m : kmap) p q : (forall k, m k <> None -> starts_with p k = true) -> forks m q -> exists z, q = p ++ z.
Proof.
  intros A [Hq|(c1 & c2 & z1 & z2 & Nc & H1 & H2)].
  - apply starts_with_spec. now apply A.
  - apply A, starts_with_spec in H1 as [y1 E1]. apply A, starts_with_spec in H2 as [y2 E2].
    clear A. revert q E1 E2. induction p as [|b p IH]; intros q E1 E2; [now exists q|].
    destruct q as [|a q]; cbn in E1, E2; [congruence|].
    assert (a = b) as -> by congruence. destruct (IH q) as [z ->]; [congruence|congruence|]. now exists z.
Qed.

(** The edge of the root is the place where the keys first fork. *)
Lemma root_edge dbg t m p : reachable dbg t -> holds mem t m -> forks m p ->
  (forall k, m k <> None -> starts_with p k = true) -> n_prefix t = Data p.
Proof.
  intros R H Fp A. destruct (reachable_good dbg t R) as (g & Rg & C & _).
  pose proof (holds_lookup _ _ _ _ _ Rg C H) as Em.
  assert (forall q, forks m q <-> forks (lookup g) q) as Ff.
  { intros q. unfold forks. rewrite Em. split; (intros [X|(c1 & c2 & z1 & z2 & X & Y & Z)]; [now left|]);
      right; exists c1, c2, z1, z2; [rewrite <- !Em|rewrite !Em]; auto. }
  pose proof (proj1 (Ff p) Fp) as Hf. apply (forks_places g p C) in Hf. destruct (places_below g [] _ _ Hf) as [z Ez].
  assert (g <> tempty) as Ne.
  { intros ->. destruct Fp as [X|(c1 & _ & z1 & _ & _ & X & _)]; now rewrite Em, tempty_lookup in X. }
  destruct (forks_below m p (tp g) A) as [z' Ez']; [apply Ff; now apply tp_forks|].
  cbn [app] in Ez. assert (z' = []) as ->.
  { apply (f_equal (@length byte)) in Ez, Ez'. rewrite app_length in Ez, Ez'. apply length_zero_iff_nil. unfold bytes in *. lia. }
  rewrite app_nil_r in Ez'. destruct g as [p0 v cs]. cbn in Ez'. subst p0. exact (proj2 (mem_value t p v cs Rg)).
Qed.

Lemma dirs_groups dbg t m p depth : reachable dbg t -> holds mem t m -> forks m p ->
  (forall k, m k <> None -> starts_with p k = true) -> depth <= length p ->
  exists ts ls, print_dirs depth t ⇓ Ok ts /\
    Forall2 (fun u l => exists mu, holds mem u mu /\ lists l mu) ts ls /\ lists (concat ls) m /\
    Forall (group_of (fun q _ => has_slash (skipn depth q)) m) ls.
Proof.
  intros R H Fp A Hp. destruct (mem_groups dbg t m (fun q _ => has_slash (skipn depth q)) R H) as (ts & ls & (_ & N & Ct) & F & L & G).
  exists ts, ls. split; [|auto]. split; [discriminate|]. exists N. intros fuel Hf. specialize (Ct fuel Hf).
  unfold print_dirs, t_group_by in *. eapply (deep_collect _ _ _ (length p)); [| |exact Ct].
  - intros q r b Hq. unfold by_path, below_dir. destruct (load_opt mem (r_value_opt r)); cbn [bind]; try discriminate.
    destruct (Nat.ltb_spec (length q) depth); [unfold bytes in *; lia|]. auto.
  - cbn. split; [|exact I]. right; right; right. exists t, p. split; [reflexivity|]. split; [|lia].
    rewrite (root_edge dbg t m p R H Fp A). reflexivity.
Qed.

Lemma in_lists l m k v : lists l m -> (In (k, v) l <-> m k = Some v).
Proof. intros [_ L]. rewrite L. tauto. Qed.

Lemma dirs_one dbg t m p depth : reachable dbg t -> holds mem t m -> forks m p ->
  (forall k, m k <> None -> starts_with p k = true) -> depth <= length p -> has_slash (skipn depth p) = false ->
  exists u, print_dirs depth t ⇓ Ok [u] /\ holds mem u m.
Proof.
  intros R H Fp A Hd0 Hs. destruct (dirs_groups dbg t m p depth R H Fp A Hd0) as (ts & ls & Ct & F & L & G).
  assert (exists k, m k <> None) as [k0 Hk0].
  { destruct Fp as [X|(c1 & _ & z1 & _ & _ & X & _)]; eauto. }
  assert (forall l, In l ls -> lists l m) as All.
  { intros l Hl. rewrite Forall_forall in G. destruct (G l Hl) as (q & Hq & Hd & Hl').
    destruct Hq as [Hq|Hq]; [|now rewrite Hq in Hk0].
    destruct (forks_below m p q A Hq) as [[|b z] ->].
    - rewrite app_nil_r in Hl'. destruct Hl' as [[_ [S Hl']]|[Hx _]]; [|congruence].
      split; [exact S|]. intros k v. rewrite Hl'. split; [tauto|]. intros [E _]. split; [exact E|]. apply A. congruence.
    - assert (has_slash (skipn depth p) = true) by (apply (Hd p (b :: z)); [discriminate|reflexivity|exact Fp]). congruence. }
  destruct (m k0) as [v0|] eqn:E0; [|tauto].
  assert (forall l, In l ls -> In (k0, v0) l) as In0 by (intros l Hl; now apply (in_lists _ _ _ _ (All l Hl))).
  destruct ls as [|l [|l2 ls]].
  - exfalso. assert (In (k0, v0) (concat [])) as [] by now apply (in_lists _ _ _ _ L).
  - inversion F as [|u ? us ? (mu & Hu & Lu) F']; subst. inversion F'; subst. exists u. split; [exact Ct|].
    eapply holds_ext; [|exact Hu]. intros k. specialize (All l (or_introl eq_refl)).
    destruct (mu k) as [v|] eqn:E.
    + apply (in_lists _ _ _ _ Lu) in E. apply (in_lists _ _ _ _ All) in E. now rewrite E.
    + destruct (m k) as [v|] eqn:E'; [|reflexivity]. apply (in_lists _ _ _ _ All) in E'. apply (in_lists _ _ _ _ Lu) in E'. congruence.
  - exfalso. pose proof (lists_nodup _ _ L) as Nd. cbn [concat] in Nd. rewrite !map_app in Nd.
    assert (In k0 (map fst l)) as I1 by (apply (in_map fst _ (k0, v0)), In0; cbn; auto).
    assert (In k0 (map fst l2)) as I2 by (apply (in_map fst _ (k0, v0)), In0; cbn; auto).
    clear - Nd I1 I2. induction (map fst l) as [|a r IH]; [contradiction|]. cbn in Nd. inversion Nd as [|? ? Na Nd']; subst.
    destruct I1 as [->|I1]; [|auto]. apply Na. rewrite !in_app_iff. auto.
Qed.

Lemma dirs_deep dbg t m p depth : reachable dbg t -> holds mem t m ->
  (forks m p \/ (p = [] /\ forall k, m k = None)) -> length p < depth -> print_dirs depth t ⇓ Panic.
Proof.
  intros R H Hp Hd. destruct (reachable_good dbg t R) as (g & Rg & C & _).
  pose proof (holds_lookup _ _ _ _ _ Rg C H) as Em.
  assert (length (tp g) <= length p) as Hl.
  { destruct Hp as [Hp|[-> He]].
    - assert (forks (lookup g) p) as Hf.
      { destruct Hp as [X|(c1 & c2 & z1 & z2 & X & Y & Z)]; [left; now rewrite <- Em|].
        right. exists c1, c2, z1, z2. now rewrite <- !Em. }
      apply (forks_places g p C) in Hf. destruct (places_below g [] _ _ Hf) as [z ->]. cbn. rewrite app_length. lia.
    - destruct (croot_cases g C) as [->|[k Hk]]; [cbn; lia|]. now rewrite <- Em, He in Hk. }
  destruct g as [p0 v cs]. destruct (mem_value t p0 v cs Rg) as [_ Ep]. cbn [tp] in Hl.
  split; [discriminate|]. exists 2. intros [|[|fuel]] Hf; [lia|lia|].
  unfold print_dirs, t_group_by, kv_new. cbn [collect]. unfold gb_next at 1. cbn [gb_next0 kv_stack kv_path it_next r_prefix].
  assert (n_prefix t = Data p0) as -> by exact Ep. cbn [load_prefix bind app]. unfold below_dir at 1.
  destruct (Nat.ltb_spec (length p0) depth); [|unfold bytes in *; lia]. reflexivity.
Qed.

(** If the place where the keys first fork has a slash in it, every entry is a group of its own. *)
Lemma dirs_each dbg t m p depth : reachable dbg t -> holds mem t m -> forks m p ->
  (forall k, m k <> None -> starts_with p k = true) -> depth <= length p -> has_slash (skipn depth p) = true ->
  exists ts l, print_dirs depth t ⇓ Ok ts /\ lists l m /\ Forall2 (fun u e => holds mem u (m_insert m_empty (fst e) (snd e))) ts l.
Proof.
  intros R H Fp A Hd0 Hs. destruct (dirs_groups dbg t m p depth R H Fp A Hd0) as (ts & ls & Ct & F & L & G).
  assert (forall l, In l ls -> exists e, l = [e]) as One.
  { intros l Hl. rewrite Forall_forall in G. destruct (G l Hl) as (q & Hq & _ & Hl').
    destruct Hq as [Hq|Hq].
    - destruct (forks_below m p q A Hq) as [z ->].
      assert (has_slash (skipn depth (p ++ z)) = true) as Hz by (unfold has_slash in *; rewrite skipn_app, existsb_app, Hs; reflexivity).
      destruct Hl' as [[Hx _]|[_ (v & _ & ->)]]; [congruence|eauto].
    - exfalso. destruct Fp as [X|(c1 & _ & z1 & _ & _ & X & _)]; now rewrite Hq in X. }
  exists ts, (concat ls). split; [exact Ct|]. split; [exact L|].
  clear Ct L G. induction F as [|u l ts ls (mu & Hu & Lu) F IH]; [constructor|].
  destruct (One l (or_introl eq_refl)) as [[k v] ->]. cbn [concat app]. constructor; [|apply IH; intros; apply One; now right].
  eapply holds_ext; [|exact Hu]. intros x. unfold m_insert, m_empty. cbn [fst snd].
  destruct (beq_spec x k) as [->|Nx].
  - apply (in_lists _ _ _ _ Lu). now left.
  - destruct (mu x) as [y|] eqn:E; [|reflexivity]. apply (in_lists _ _ _ _ Lu) in E. destruct E as [[= -> ->]|[]]. tauto.
Qed.
