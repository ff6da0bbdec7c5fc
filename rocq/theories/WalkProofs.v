(** The walk of Walk.v ends and shows the places of WalkSpec.v. *)
From Coq Require Import Sorting.Sorted.
From Verif Require Import Base BaseLemmas Header Node Combine Iter Api Tree Canon Rep JoinBase PrefixProofs FindProofs Entries
  IterProofs Sim Spec Client Top TopOps MemLemmas GroupSpec GroupProofs WalkSpec Walk.

(* ------------------------------------------------------------------ *)
(** The groups that the walk asks for. *)

Lemma gb_next0_more rd (d1 d2 : bytes -> noderef -> res bool) :
  (forall p r b, d1 p r = Ok b -> d2 p r = Ok b) ->
  forall fuel s x, gb_next0 rd d1 fuel s = Ok x -> gb_next0 rd d2 fuel s = Ok x.
Proof.
  intros Hd. induction fuel as [|fuel IH]; intros s x; cbn [gb_next0]; [discriminate|].
  destruct (kv_stack s) as [|[len [it|]] rest]; auto.
  destruct (it_next it) as [[t it']|]; auto.
  destruct (load_prefix rd (r_prefix t)) as [p| | |]; cbn [bind]; try discriminate.
  destruct (d1 (kv_path s ++ p) t) as [b| | |] eqn:E; cbn [bind]; try discriminate.
  rewrite (Hd _ _ _ E). cbn [bind]. destruct b; auto.
  destruct (r_load_children_owned rd t); cbn [bind]; auto. destruct (r_value_opt t); auto.
Qed.

Lemma gb_collect_more rd (d1 d2 : bytes -> noderef -> res bool) :
  (forall p r b, d1 p r = Ok b -> d2 p r = Ok b) ->
  forall fuel s x, collect (gb_next rd d1) fuel s = Ok x -> collect (gb_next rd d2) fuel s = Ok x.
Proof.
  intros Hd. induction fuel as [|fuel IH]; intros s x; [discriminate|]. cbn [collect]. unfold gb_next at 1 3.
  destruct (gb_next0 rd d1 fuel s) as [[[n|] s']| | |] eqn:E; cbn [bind]; try discriminate.
  - rewrite (gb_next0_more _ _ _ Hd _ _ _ E). cbn [bind].
    destruct (collect (gb_next rd d1) fuel s') as [l| | |] eqn:E'; cbn [bind]; try discriminate.
    now rewrite (IH _ _ E').
  - rewrite (gb_next0_more _ _ _ Hd _ _ _ E). cbn [bind]. auto.
Qed.

(** A group is a leaf, or the predicate said to stop there. *)
Definition stops (d : bytes -> noderef -> res bool) (n : node) : Prop :=
  is_leaf n = true \/ exists path r, n_prefix n = Data path /\ d path r = Ok false.

Lemma gb_next0_stops rd d : forall fuel s n s', gb_next0 rd d fuel s = Ok (Some n, s') -> stops d n.
Proof.
  induction fuel as [|fuel IH]; intros s n s'; cbn [gb_next0]; [discriminate|].
  destruct (kv_stack s) as [|[len [it|]] rest]; [discriminate| |apply IH].
  destruct (it_next it) as [[t it']|]; [|apply IH].
  destruct (load_prefix rd (r_prefix t)) as [p| | |]; cbn [bind]; try discriminate.
  destruct (d (kv_path s ++ p) t) as [b| | |] eqn:E; cbn [bind]; try discriminate. destruct b.
  - destruct (r_load_children_owned rd t); cbn [bind]; try discriminate. destruct (r_value_opt t); [|apply IH].
    destruct (r_to_owned t) as [o| | |]; cbn [bind]; try discriminate. intros [= <- _]. left. reflexivity.
  - destruct (r_to_owned t) as [o| | |]; cbn [bind]; try discriminate. intros [= <- _]. right. eexists. eexists. split; [reflexivity|exact E].
Qed.

Lemma gb_collect_stops rd d : forall fuel s l, collect (gb_next rd d) fuel s = Ok l -> Forall (stops d) l.
Proof.
  induction fuel as [|fuel IH]; intros s l; [discriminate|]. cbn [collect]. unfold gb_next at 1.
  destruct (gb_next0 rd d fuel s) as [[[n|] s']| | |] eqn:E; cbn [bind]; try discriminate.
  - destruct (collect (gb_next rd d) fuel s') as [l'| | |] eqn:E'; cbn [bind]; try discriminate. intros [= <-].
    constructor; [|now apply (IH s')]. now apply gb_next0_stops in E.
  - intros [= <-]. constructor.
Qed.

(** A tree with its edge prolonged. *)
Definition up (p : bytes) (c : tree) : tree := T (p ++ tp c) (tv c) (tc c).
Lemma up_size p c : size (up p c) = size c.
Proof. now destruct c. Qed.
Lemma up_croot p c : cc c -> croot (up p c).
Proof. intros H. inversion H; subst. right. cbn. auto. Qed.
Lemma up_entries p c : entries [] (up p c) = entries p c.
Proof. destruct c. apply entries_setp. Qed.

Lemma entries_same g g' : croot g -> croot g' -> entries [] g = entries [] g' -> g = g'.
Proof.
  intros C C' E. apply canon_unique; auto. intros k.
  assert (forall x, lookup g k = Some x <-> lookup g' k = Some x) as A.
  { intros x. assert (forall g0, croot g0 -> (In (k, x) (entries [] g0) <-> lookup g0 k = Some x)) as B.
    { intros g0 C0. rewrite (entries_in g0 (croot_kids _ C0)). split; [intros (z & -> & H); exact H|intros H; exists k; auto]. }
    now rewrite <- !B, E by assumption. }
  destruct (lookup g k) as [x|]; [symmetry; now apply A|]. destruct (lookup g' k) as [y|]; [|reflexivity].
  discriminate (proj2 (A y) eq_refl).
Qed.

Lemma groups_below p v cs : Forall cc cs ->
  groups (fun path _ => length path <=? length p) [] (T p v cs) =
  match v with Some x => [[(p, x)]] | None => [] end ++ map (entries p) cs.
Proof.
  intros C. cbn [groups app]. rewrite Nat.leb_refl. f_equal.
  induction C as [|c cs Hc _ IH]; [reflexivity|]. cbn [flat_map map]. rewrite IH.
  destruct c as [q w ds]. cbn [groups]. inversion Hc; subst. destruct q as [|y q]; [congruence|].
  assert (length (p ++ y :: q) <=? length p = false) as ->.
  { apply Nat.leb_gt. rewrite app_length. cbn. lia. }
  reflexivity.
Qed.

Lemma walk_groups t p v cs : Rep false mem t (T p v cs) -> croot (T p v cs) ->
  exists ts N, (forall fuel, N <= fuel -> t_group_by mem t (fun path _ => Ok (length path <=? length p)) fuel = Ok ts) /\
    Forall2 (grel false mem) ts (match v with Some x => [[(p, x)]] | None => [] end ++ map (entries p) cs) /\
    Forall (stops (fun path _ => Ok (length path <=? length p))) ts.
Proof.
  intros R C. set (d := fun (path : bytes) (_ : option bytes) => length path <=? length p).
  destruct (conv_ok (t_group_by mem t (by_path mem d)) (4 * size (T p v cs) + 11)
    (fun l => Forall2 (grel false mem) l (groups d [] (T p v cs)))) as (ts & (_ & N & Ct) & F).
  - apply mono_collect. intros. apply gb_next_sim; [apply rsim_refl| |assumption]. intros. apply sim_refl.
  - apply gb_root; auto; lia.
  - unfold d in F. rewrite groups_below in F by exact (proj2 (croot_kids _ C)).
    exists ts, N.
    assert (forall fuel, N <= fuel -> t_group_by mem t (fun path _ => Ok (length path <=? length p)) fuel = Ok ts) as G.
    { intros fuel Hf. specialize (Ct fuel Hf). unfold t_group_by in *. eapply gb_collect_more; [|exact Ct].
      intros q r b. unfold by_path, d. destruct (load_opt mem (r_value_opt r)); cbn [bind]; congruence. }
    split; [exact G|]. split; [exact F|]. specialize (G N (le_n N)). unfold t_group_by in G. now apply gb_collect_stops in G.
Qed.

(* ------------------------------------------------------------------ *)
(** What is printed for a tree. *)

Definition show (i : nat) (p : bytes) (v : option bytes) : line := Line i (Data p) (option_map Data v).

(** The lines for a node that is marked as a leaf, and for one that is not. *)
Inductive Out : nat -> tree -> list line -> Prop :=
| Out_leaf i p v : Out i (T p v []) [show i p v]
| Out_node i p v cs lss : Forall2 (fun c l => Out (S i) (up p c) l) cs lss ->
    Out i (T p v cs) (show i p v :: match v with Some _ => [show (S i) p v] | None => [] end ++ concat lss).

Lemma mem_value t p v cs : Rep false mem t (T p v cs) -> t_value t = option_map Data v /\ t_prefix t = Data p.
Proof.
  intros R. apply Rep_inv in R as (RP & RV & _). unfold t_value, t_prefix. split.
  - destruct v as [x|]; cbn [RepV] in RV.
    + destruct RV as [->|(c & id & _ & X)]; [reflexivity|discriminate].
    + now rewrite RV.
  - destruct RP as [->|[X _]]; [reflexivity|discriminate].
Qed.

Lemma leaf_kids t p v cs : Rep false mem t (T p v cs) -> is_leaf t = true -> cs = [].
Proof.
  intros R L. apply Rep_inv in R as (_ & _ & ns & K & F). unfold is_leaf in L.
  destruct K as [K|[[K ->]|(r & id & data & K & E & _)]]; rewrite K in L; try discriminate. now inversion F.
Qed.

Lemma walk_leaf fuel i t p v cs : Rep false mem t (T p v cs) -> is_leaf t = true -> walk (S fuel) i t = Ok [show i p v].
Proof.
  intros R L. destruct (mem_value _ _ _ _ R) as [Ev Ep]. cbn [walk]. unfold prefix_len. rewrite Ep, L, Ev. reflexivity.
Qed.

Definition each (fuel i : nat) : list node -> res (list line) :=
  fix each ts := match ts with [] => Ok [] | u :: us => l <- walk fuel (S i) u ;; r <- each us ;; Ok (l ++ r) end.

Lemma each_ok i : forall ts lss, Forall2 (fun u l => exists N, forall fuel, N <= fuel -> walk fuel (S i) u = Ok l) ts lss ->
  exists N, forall fuel, N <= fuel -> each fuel i ts = Ok (concat lss).
Proof.
  intros ts lss F. induction F as [|u l ts lss (N1 & H1) _ (N2 & H2)]; [now exists 0|].
  exists (N1 + N2). intros fuel Hf. cbn [each]. rewrite H1 by lia. cbn [bind].
  change ((fix each ts := match ts with [] => Ok [] | u :: us => l <- walk fuel (S i) u ;; r <- each us ;; Ok (l ++ r) end) ts)
    with (each fuel i ts). rewrite H2 by lia. reflexivity.
Qed.

Lemma walk_out : forall n t g i, size g < n -> Rep false mem t g -> croot g ->
  exists ls N, (forall fuel, N <= fuel -> walk fuel i t = Ok ls) /\ Out i g ls.
Proof.
  induction n as [|n IH]; intros t [p v cs] i Hn R C; [lia|].
  destruct (is_leaf t) eqn:L.
  { rewrite (leaf_kids _ _ _ _ R L). exists [show i p v], 1. split; [|constructor].
    intros [|fuel] Hf; [lia|]. eapply walk_leaf; eauto. }
  destruct (mem_value _ _ _ _ R) as [Ev Ep].
  destruct (walk_groups t p v cs R C) as (ts & N & G & F & St).
  assert (exists lss, Forall2 (fun u l => exists N, forall fuel, N <= fuel -> walk fuel (S i) u = Ok l) ts
      (match v with Some _ => [[show (S i) p v]] | None => [] end ++ lss) /\
    Forall2 (fun c l => Out (S i) (up p c) l) cs lss) as (lss & Fw & Fo).
  { assert (forall ts, Forall2 (grel false mem) ts (map (entries p) cs) -> exists lss,
        Forall2 (fun u l => exists N, forall fuel, N <= fuel -> walk fuel (S i) u = Ok l) ts lss /\
        Forall2 (fun c l => Out (S i) (up p c) l) cs lss) as K.
    { assert (forall c, In c cs -> cc c /\ size c < n) as Hc.
      { intros c Hin. pose proof (size_in _ _ Hin). rewrite size_T in Hn. split; [|lia].
        pose proof (proj2 (croot_kids _ C)) as Fc. rewrite Forall_forall in Fc. auto. }
      clear - IH Hc. induction cs as [|c cs IHc]; intros ts F; inversion F as [|u ? ts' ? (gu & Ru & Cu & Eu) F']; subst.
      - exists []. auto.
      - destruct (IHc (fun c H => Hc c (or_intror H)) _ F') as (lss & F1 & F2).
        destruct (Hc c (or_introl eq_refl)) as [Cc Sc].
        assert (gu = up p c) as ->. { apply entries_same; auto; [now apply up_croot|]. now rewrite up_entries. }
        destruct (IH u (up p c) (S i) ltac:(now rewrite up_size) Ru Cu) as (l & M & Hw & Ho).
        exists (l :: lss). split; constructor; eauto. }
    destruct v as [x|]; cbn [app] in F |- *; [|destruct (K _ F) as (lss & A & B); eauto].
    inversion F as [|u ? ts' ? (gu & Ru & Cu & Eu) F']; subst.
    inversion St as [|? ? Su _]; subst. destruct (K _ F') as (lss & A & B). exists lss. split; [|exact B].
    constructor; [|exact A].
    assert (gu = T p (Some x) []) as ->.
    { apply entries_same; [exact Cu| |exact Eu]. right. cbn. split; [left; discriminate|]. split; constructor. }
    exists 1. intros [|fuel] Hf; [lia|]. eapply walk_leaf; [exact Ru|].
    destruct Su as [Su|(path & r & Ep' & Su)]; [exact Su|]. exfalso.
    destruct (mem_value _ _ _ _ Ru) as [_ Eq]. unfold t_prefix in Eq. rewrite Ep' in Eq. injection Eq as ->.
    now rewrite Nat.leb_refl in Su. }
  destruct (each_ok i _ _ Fw) as (M & HM).
  exists (show i p v :: match v with Some _ => [show (S i) p v] | None => [] end ++ concat lss), (S (N + M)).
  split; [|now constructor].
  intros [|fuel] Hf; [lia|]. cbn [walk]. unfold prefix_len. rewrite Ep, L, Ev. cbn [bind]. rewrite G by lia. cbn [bind].
  match goal with |- bind ?x _ = _ => change x with (each fuel i ts) end. rewrite HM by lia. cbn [bind].
  unfold show at 1. f_equal. f_equal. destruct v; reflexivity.
Qed.

(* ------------------------------------------------------------------ *)
(** The places of a tree. *)

Fixpoint places (path : bytes) (t : tree) : list (bytes * option bytes) :=
  match t with T p v cs => (path ++ p, v) :: flat_map (places (path ++ p)) cs end.

Lemma places_up p c : places [] (up p c) = places p c.
Proof. now destruct c. Qed.

Lemma places_below t : forall path x v, In (x, v) (places path t) -> exists z, x = path ++ tp t ++ z.
Proof.
  induction t as [p w cs IH] using tree_ind'. intros path x v. cbn [places tp].
  intros [[= <- <-]|H]; [exists []; now rewrite app_nil_r|].
  apply in_flat_map in H as (c & Hc & H). rewrite Forall_forall in IH. destruct (IH c Hc _ _ _ H) as (z & ->).
  exists (tp c ++ z). now rewrite <- !app_assoc.
Qed.

Lemma out_lines : forall n i g ls, size g < n -> Out i g ls ->
  (forall l, In l ls -> exists j x v, l = show j x v /\ In (x, v) (places [] g)) /\
  (forall x v, In (x, v) (places [] g) -> exists j, In (show j x v) ls).
Proof.
  induction n as [|n IH]; intros i g ls Hn O; [lia|].
  inversion O as [? p v|? p v cs lss F]; subst; clear O.
  - cbn [places flat_map app]. split.
    + intros l [<-|[]]. exists i, p, v. cbn. auto.
    + intros x w [[= <- <-]|[]]. exists i. now left.
  - assert (forall c l, In c cs -> Out (S i) (up p c) l ->
      (forall y, In y l -> exists j x v, y = show j x v /\ In (x, v) (places p c)) /\
      (forall x v, In (x, v) (places p c) -> exists j, In (show j x v) l)) as K.
    { intros c l Hc Ho. rewrite <- places_up. apply (IH (S i)); [|exact Ho]. rewrite up_size.
      pose proof (size_in _ _ Hc). rewrite size_T in Hn. lia. }
    clear IH Hn. cbn [places app]. split.
    + intros l [<-|H]; [exists i, p, v; cbn; auto|]. apply in_app_iff in H as [H|H].
      * destruct v as [y|]; [|destruct H]. destruct H as [<-|[]]. exists (S i), p, (Some y). cbn; auto.
      * assert (exists c, In c cs /\ exists j x v, l = show j x v /\ In (x, v) (places p c)) as (c & Hc & j & x & w & -> & Hx).
        { induction F as [|c l' cs lss Ho _ IHF]; [destruct H|]. cbn [concat] in H. apply in_app_iff in H as [H|H].
          - exists c. split; [now left|]. exact (proj1 (K c l' (or_introl eq_refl) Ho) _ H).
          - destruct IHF as (c' & Hc' & X); [intros; apply K; auto; now right|exact H|]. exists c'. split; [now right|exact X]. }
        exists j, x, w. split; [reflexivity|]. right. apply in_flat_map. eauto.
    + intros x w [[= <- <-]|H]; [exists i; now left|]. apply in_flat_map in H as (c & Hc & H).
      assert (exists j, In (show j x w) (concat lss)) as (j & Hj).
      { induction F as [|c' l' cs lss Ho _ IHF]; [destruct Hc|]. cbn [concat]. destruct Hc as [->|Hc].
        - destruct (proj2 (K c l' (or_introl eq_refl) Ho) _ _ H) as (j & Hj). exists j. apply in_or_app. now left.
        - destruct IHF as (j & Hj); [intros; apply K; auto; now right|exact Hc|]. exists j. apply in_or_app. now right. }
      exists j. right. apply in_or_app. now right.
Qed.

Notation le_line := (fun a b : line => ~ lex_lt (blob_slice (l_path b)) (blob_slice (l_path a))).

Lemma not_lt_prefix p z : ~ lex_lt (p ++ z) p.
Proof.
  induction p as [|y p IH]; cbn [app lex_lt]; [destruct z; auto|]. intros [H|[_ H]]; [lia|auto].
Qed.
Lemma not_lt_sides p x y a b : (bnum x < bnum y)%N -> ~ lex_lt (p ++ y :: b) (p ++ x :: a).
Proof.
  unfold bnum. intros H. induction p as [|c p IH]; cbn [app lex_lt].
  - intros [H'|[-> _]]; lia.
  - intros [H'|[_ H']]; [lia|auto].
Qed.

Lemma sorted_app {A} (R : A -> A -> Prop) l1 l2 : StronglySorted R l1 -> StronglySorted R l2 ->
  (forall a b, In a l1 -> In b l2 -> R a b) -> StronglySorted R (l1 ++ l2).
Proof.
  intros S1 S2 H. induction S1 as [|a l1 S1 IH F]; [exact S2|]. cbn. constructor.
  - apply IH. intros; apply H; auto. now right.
  - apply Forall_app. split; [exact F|]. apply Forall_forall. intros b Hb. apply H; auto. now left.
Qed.

Lemma out_sorted : forall n i g ls, size g < n -> croot g -> Out i g ls -> StronglySorted le_line ls.
Proof.
  induction n as [|n IH]; intros i g ls Hn C O; [lia|].
  inversion O as [? p v|? p v cs lss F]; subst; clear O; [constructor; constructor|].
  destruct (croot_kids _ C) as [So Fc]. cbn [tc] in So, Fc.
  assert (Forall2 (fun c l => StronglySorted le_line l /\ forall y, In y l -> exists z, blob_slice (l_path y) = p ++ tp c ++ z) cs lss) as K.
  { assert (forall c, In c cs -> size c < n) as Hc.
    { intros c Hin. pose proof (size_in _ _ Hin). rewrite size_T in Hn. lia. }
    clear - F IH Hc Fc. induction F as [|c l cs lss Ho _ IHF]; [constructor|]. inversion Fc as [|? ? Cc Fc']; subst.
    constructor; [|apply IHF; auto; intros; apply Hc; now right].
    specialize (Hc c (or_introl eq_refl)). rewrite <- (up_size p) in Hc. split.
    - eapply IH; [exact Hc|now apply up_croot|exact Ho].
    - intros y Hy. destruct (proj1 (out_lines n _ _ _ Hc Ho) y Hy) as (j & x & v & -> & Hx). rewrite places_up in Hx.
      apply places_below in Hx as (z & ->). exists z. reflexivity. }
  assert (StronglySorted le_line (concat lss) /\
    forall y, In y (concat lss) -> exists c z, In c cs /\ blob_slice (l_path y) = p ++ tp c ++ z) as [Sc Bc].
  { clear - K So Fc. induction K as [|c l cs lss [Sl Bl] _ IHK]; [split; [constructor|intros y []]|].
    inversion Fc as [|? ? Cc Fc']; subst. destruct (cc_nonempty_prefix _ Cc) as (y0 & r0 & Er).
    pose proof (proj1 (ksorted_cons _ _ _ _ Er) So) as [Ab So'].
    destruct (IHK So' Fc') as [Sc Bc]. cbn [concat]. split.
    - apply sorted_app; auto. intros a b Ha Hb. destruct (Bl a Ha) as (z & ->). rewrite Er. cbn [app].
      destruct (Bc b Hb) as (c' & z' & Hc' & ->). unfold Tree.above in Ab. rewrite Forall_forall in Ab. specialize (Ab c' Hc').
      destruct (tp c') as [|y1 r1]; [destruct Ab|]. cbn [app]. now apply not_lt_sides.
    - intros y Hy. apply in_app_iff in Hy as [Hy|Hy].
      + destruct (Bl y Hy) as (z & ->). exists c, z. split; [now left|reflexivity].
      + destruct (Bc y Hy) as (c' & z & Hc & E). exists c', z. split; [now right|exact E]. }
  assert (forall y, In y (match v with Some _ => [show (S i) p v] | None => [] end ++ concat lss) ->
    exists z, blob_slice (l_path y) = p ++ z) as B.
  { intros y Hy. apply in_app_iff in Hy as [Hy|Hy].
    - destruct v; [|destruct Hy]. destruct Hy as [<-|[]]. exists []. cbn. now rewrite app_nil_r.
    - destruct (Bc y Hy) as (c & z & _ & ->). eauto. }
  constructor.
  - destruct v as [x|]; cbn [app]; [|exact Sc]. constructor; [exact Sc|]. apply Forall_forall. intros y Hy.
    destruct (Bc y Hy) as (c & z & _ & ->). cbn [show l_path blob_slice]. apply not_lt_prefix.
  - apply Forall_forall. intros y Hy. destruct (B y Hy) as (z & ->). cbn [show l_path blob_slice]. apply not_lt_prefix.
Qed.

(* ------------------------------------------------------------------ *)
(** The places of a tree are the forks. *)

Lemma places_sub g t : forall q a x v, Sub g q a t -> In (x, v) (places q t) ->
  exists q' a' p cs, Sub g q' a' (T p v cs) /\ x = q' ++ p.
Proof.
  induction t as [p w cs IH] using tree_ind'. intros q a x v HS. cbn [places].
  intros [[= <- <-]|H]; [exists q, a, p, cs; auto|].
  apply in_flat_map in H as (c & Hc & H). rewrite Forall_forall in IH.
  eapply (IH c Hc); [|exact H]. econstructor; eauto.
Qed.

Lemma sub_places g q a t : Sub g q a t ->
  incl (places q t) (places [] g) /\ incl a (places [] g).
Proof.
  intros H. induction H as [|q a p v cs c H [I1 I2] Hin].
  - split; [apply incl_refl|intros x []].
  - split.
    + intros x Hx. apply I1. cbn [places]. right. apply in_flat_map. eauto.
    + intros x [<-|Hx]; [apply I1; now left|auto].
Qed.

Lemma entries_places t : forall path k x, In (k, x) (entries path t) -> In (k, Some x) (places path t).
Proof.
  induction t as [p v cs IH] using tree_ind'. intros path k x. rewrite entries_T. cbn [places].
  intros H. apply in_app_iff in H as [H|H].
  - destruct v; [|destruct H]. destruct H as [[= <- <-]|[]]. now left.
  - unfold entriesl in H. apply in_flat_map in H as (c & Hc & H). right. apply in_flat_map. exists c. split; [exact Hc|].
    rewrite Forall_forall in IH. now apply IH.
Qed.

Lemma places_lookup g x v : croot g -> In (x, v) (places [] g) -> lookup g x = v.
Proof.
  intros C H. destruct (places_sub g g [] [] x v (Sub_root g) H) as (q & a & p & cs & HS & ->).
  pose proof (Sub_here _ _ _ _ [] C HS) as X. cbn [tp] in X. rewrite !app_nil_r in X. rewrite X. apply lookup_here.
Qed.

Lemma forks_places g x : croot g -> forks (lookup g) x -> In (x, lookup g x) (places [] g).
Proof.
  intros C F.
  assert (exists z, lookup g (x ++ z) <> None) as [z Hz].
  { destruct F as [F|(c1 & _ & z1 & _ & _ & F & _)]; [exists []; now rewrite app_nil_r|eauto]. }
  destruct (lookup g (x ++ z)) as [y|] eqn:E; [|congruence].
  assert (In (x ++ z, Some y) (places [] g)) as Hp.
  { apply entries_places, (entries_in g (croot_kids _ C)). exists (x ++ z). auto. }
  destruct z as [|c z]; [rewrite app_nil_r in *; now rewrite E|].
  destruct (places_sub g g [] [] _ _ (Sub_root g) Hp) as (q & a & p & cs & HS & Eq).
  pose proof (forks_above g q a (T p (Some y) cs) C HS x (c :: z) ltac:(discriminate) (eq_sym Eq) F) as Ha.
  exact (proj2 (sub_places _ _ _ _ HS) _ Ha).
Qed.

(* ------------------------------------------------------------------ *)
(** How far the lines are indented. *)

Fixpoint levels (n : nat) (path : bytes) (t : tree) : list (nat * bytes * option bytes) :=
  match t with T p v cs => (n, path ++ p, v) :: flat_map (levels (S n) (path ++ p)) cs end.

Lemma levels_up n p c : levels n [] (up p c) = levels n p c.
Proof. now destruct c. Qed.

Lemma out_levels : forall n i g ls, size g < n -> Out i g ls ->
  forall l, In l ls -> exists j x v, In (j, x, v) (levels i [] g) /\ (l = show j x v \/ v <> None /\ l = show (S j) x v).
Proof.
  induction n as [|n IH]; intros i g ls Hn O l Hl; [lia|].
  inversion O as [? p v|? p v cs lss F]; subst; clear O.
  - destruct Hl as [<-|[]]. exists i, p, v. cbn. auto.
  - cbn [levels app]. destruct Hl as [<-|H]; [exists i, p, v; cbn; auto|]. apply in_app_iff in H as [H|H].
    + destruct v as [y|]; [|destruct H]. destruct H as [<-|[]]. exists i, p, (Some y).
      split; [now left|]. right. split; [discriminate|reflexivity].
    + assert (exists c, In c cs /\ exists j x v, In (j, x, v) (levels (S i) p c) /\ (l = show j x v \/ v <> None /\ l = show (S j) x v))
        as (c & Hc & j & x & w & Hx & E).
      { assert (forall c, In c cs -> size c < n) as Hs.
        { intros c Hin. pose proof (size_in _ _ Hin). rewrite size_T in Hn. lia. }
        clear Hn. induction F as [|c l' cs lss Ho _ IHF]; [destruct H|]. cbn [concat] in H. apply in_app_iff in H as [H|H].
        - exists c. split; [now left|]. rewrite <- levels_up. apply (IH (S i) _ l'); auto. rewrite up_size. apply Hs. now left.
        - destruct (IHF H (fun c Hc => Hs c (or_intror Hc))) as (c' & Hc' & X). exists c'. split; [now right|exact X]. }
      exists j, x, w. split; [|exact E]. right. apply in_flat_map. eauto.
Qed.

Lemma levels_sub g t : forall n q a j x v, Sub g q a t -> length a = n -> In (j, x, v) (levels n q t) ->
  exists q' a' p cs, Sub g q' a' (T p v cs) /\ x = q' ++ p /\ length a' = j.
Proof.
  induction t as [p w cs IH] using tree_ind'. intros n q a j x v HS Ha. cbn [levels].
  intros [[= <- <- <-]|H]; [exists q, a, p, cs; auto|].
  apply in_flat_map in H as (c & Hc & H). rewrite Forall_forall in IH.
  eapply (IH c Hc (S n) (q ++ p) ((q ++ p, w) :: a)); [econstructor; eauto|cbn; now rewrite Ha|exact H].
Qed.

Lemma sub_over g q a c : croot g -> g <> tempty -> Sub g q a c -> NoDup (map fst a) /\
  forall y, In y (map fst a) -> forks (lookup g) y /\ exists z, z <> [] /\ q ++ tp c = y ++ z.
Proof.
  intros C N H. induction H as [|q a p v cs c H [IH1 IH2] Hin]; [split; [constructor|intros y []]|].
  pose proof (Sub_cc _ _ _ _ _ C (Sub_kid _ _ _ _ _ _ _ H Hin)) as Cc.
  destruct (cc_nonempty_prefix _ Cc) as (y0 & r0 & Er). cbn [map fst tp] in *. split.
  - constructor; [|exact IH1]. intros X. destruct (IH2 _ X) as (_ & z & Nz & E).
    rewrite <- (app_nil_r (q ++ p)) in E at 1. apply app_inv_head in E. congruence.
  - intros y [<-|Hy].
    + split; [eapply Sub_forks; eauto|]. exists (tp c). split; [rewrite Er; discriminate|reflexivity].
    + destruct (IH2 y Hy) as (Fy & z & Nz & E). split; [exact Fy|]. exists (z ++ tp c).
      split; [destruct z; [congruence|discriminate]|]. now rewrite E, app_assoc.
Qed.

(* ------------------------------------------------------------------ *)
(** The theorems. *)

Lemma walk_shows dbg t m : reachable dbg t -> holds mem t m ->
  exists ls, (fun n => walk n 0 t) ⇓ Ok ls /\
    (forall l, In l ls -> exists q, place m q /\ tells m q l /\ indented m q l) /\
    (forall q, place m q -> exists l, In l ls /\ tells m q l) /\ in_order ls.
Proof.
  intros R H. destruct (reachable_good dbg t R) as (g & Rg & C & _).
  pose proof (holds_lookup _ _ _ _ _ Rg C H) as Em.
  destruct (walk_out (S (size g)) t g 0 ltac:(lia) Rg C) as (ls & N & W & O).
  destruct (out_lines (S (size g)) 0 g ls ltac:(lia) O) as [A B].
  assert (forall x, forks (lookup g) x <-> forks m x) as Ff.
  { intros x. unfold forks. split; (intros [X|(c1 & c2 & z1 & z2 & X)]; [left|right; exists c1, c2, z1, z2]);
      rewrite ?Em in *; auto. }
  exists ls. split; [|split; [|split]].
  - split; [discriminate|]. exists N. exact W.
  - intros l Hl. destruct (out_levels (S (size g)) 0 g ls ltac:(lia) O l Hl) as (j & x & v & Hx & El). exists x.
    destruct (levels_sub g g 0 [] [] j x v (Sub_root g) eq_refl Hx) as (q & a & p & cs & HS & -> & Ej).
    assert (lookup g (q ++ p) = v) as Ev.
    { pose proof (Sub_here _ _ _ _ [] C HS) as X. cbn [tp] in X. rewrite !app_nil_r in X. rewrite X. apply lookup_here. }
    assert (tells m (q ++ p) l) as Ht.
    { split; (destruct El as [->|[_ ->]]; [|]); cbn; now rewrite ?Em, ?Ev. }
    destruct (croot_cases g C) as [->|[k Hk]].
    + assert (forall k, m k = None) as Z by (intros k; now rewrite Em, tempty_lookup).
      cbn in Hx. destruct Hx as [Hx|[]]. injection Hx as <- Hx Hv. rewrite <- Hx in *. subst v.
      split; [right; auto|]. split; [exact Ht|]. exists []. split; [constructor|]. split.
      * intros y. split; [intros []|]. intros [[Fy|(c1 & c2 & z1 & z2 & _ & Fy & _)] _]; now rewrite Z in Fy.
      * left. destruct El as [->|[X _]]; [reflexivity|congruence].
    + assert (g <> tempty) as Ng by (intros ->; now rewrite tempty_lookup in Hk).
      split; [left; apply Ff; eapply Sub_forks; eauto|]. split; [exact Ht|].
      destruct (sub_over g q a _ C Ng HS) as [Nd Ov]. cbn [tp] in Ov.
      exists (map fst a). split; [exact Nd|]. split.
      * intros y. split; [intros Hy; destruct (Ov y Hy) as [Fy X]; split; [now apply Ff|exact X]|].
        intros [Fy (z & Nz & E)]. apply Ff in Fy.
        pose proof (forks_above g q a (T p v cs) C HS y z Nz E Fy) as X. now apply (in_map fst) in X.
      * rewrite map_length, Ej, Em, Ev. destruct El as [->|[X ->]]; cbn; auto.
  - intros q Hq. assert (In (q, lookup g q) (places [] g)) as Hp.
    { destruct Hq as [Hq|[Hq ->]]; [apply forks_places; [exact C|now apply Ff]|].
      destruct (croot_cases g C) as [->|[k Hk]]; [cbn; auto|]. now rewrite <- Em, Hq in Hk. }
    destruct (B _ _ Hp) as (j & Hj). exists (show j q (lookup g q)). split; [exact Hj|].
    split; [reflexivity|]. cbn. now rewrite Em.
  - eapply out_sorted; [|exact C|exact O]. apply Nat.lt_succ_diag_r.
Qed.

(** A tree with one entry is its own group. *)
Lemma own_group dbg t m k v : reachable dbg t -> holds mem t m -> same m (m_insert m_empty k v) ->
  exists u, t_group_by mem t (fun path _ => Ok (length path <=? length k)) ⇓ Ok [u] /\ holds mem u m /\
    t_prefix t = Data k /\ t_prefix u = Data k.
Proof.
  intros R H Es. destruct (reachable_good dbg t R) as (g & Rg & C & _).
  pose proof (holds_lookup _ _ _ _ _ Rg C H) as Em.
  assert (croot (T k (Some v) [])) as C1.
  { right. cbn. split; [left; discriminate|]. split; constructor. }
  assert (g = T k (Some v) []) as ->.
  { apply canon_unique; auto. intros x. rewrite <- Em, Es. rewrite lookup_raw. unfold rawlook, m_insert, m_empty.
    destruct (beq_spec x k) as [->|Nx].
    - assert (strip k k = Some []) as ->; [|reflexivity]. rewrite <- (app_nil_r k) at 2. apply strip_app.
    - destruct (strip k x) as [[|]|] eqn:E; try reflexivity. apply strip_spec in E. rewrite app_nil_r in E. congruence. }
  destruct (walk_groups t k (Some v) [] Rg C1) as (ts & N & G & F & _). cbn in F.
  inversion F as [|u ? ? ? (gu & Ru & Cu & Eu) F']; subst. inversion F'; subst.
  assert (gu = T k (Some v) []) as -> by (apply entries_same; auto).
  exists u. split; [split; [discriminate|exists N; exact G]|]. split; [|split; eapply mem_value; eauto].
  pose proof (Top.good_holds false mem u _ Ru Cu) as Hu. eapply holds_ext; [|exact Hu]. intros x. now rewrite Em.
Qed.

(** The macro with keys only. *)
Lemma macro_set_ok dbg l : exists t, macro_set dbg l ⇓ Ok t /\ reachable dbg t /\
  exists m, holds mem t m /\ forall k, (In k l -> m k = Some []) /\ (~ In k l -> m k = None).
Proof.
  destruct (mem_collect dbg (map (fun k => (k, [])) l)) as (t & Ct & R & H).
  exists t. split; [exact Ct|]. split; [exact R|]. eexists. split; [exact H|]. intros k.
  remember (filter (fun e : bytes * bytes => beq (fst e) k) (map (fun k => (k, [])) l)) as f eqn:Ef.
  assert (forall e, In e f <-> In k l /\ e = (k, @nil byte)) as I.
  { intros e. rewrite Ef, filter_In, in_map_iff. split.
    - intros ((x & <- & Hx) & E). cbn in E. destruct (beq_spec x k) as [->|Nk]; [now split|discriminate].
    - intros [Hk ->]. split; [eauto|]. cbn. now destruct (beq_spec k k). }
  unfold last_of. rewrite <- Ef. split; intros Hk.
  - destruct (List.rev f) as [|e r] eqn:Er.
    + exfalso. assert (In (k, @nil byte) (List.rev f)) as X by (apply -> in_rev; now apply I). now rewrite Er in X.
    + assert (In e f) as X by (apply in_rev; rewrite Er; now left). apply I in X as [_ ->]. reflexivity.
  - destruct (List.rev f) as [|e r] eqn:Er; [reflexivity|].
    assert (In e f) as X by (apply in_rev; rewrite Er; now left). apply I in X as [X _]. congruence.
Qed.

(** The macro with keys and values. *)
Lemma macro_map_ok dbg l : exists t, macro_map dbg l ⇓ Ok t /\ reachable dbg t /\
  holds mem t (fun k => option_map snd (last_of (filter (fun e => beq (fst e) k) l))).
Proof. exact (mem_collect dbg l). Qed.
