(** Trees whose nodes line up are combined without a panic. *)
From Verif Require Import Base BaseLemmas Header Node Combine Iter Api Tree Rep JoinBase JoinProofs PrefixProofs FindProofs Entries Canon
  Sim Spec Client GroupSpec GroupProofs PanicSpec PanicProofs.
From Coq Require Import Sorting.Sorted.

Inductive Al (L O : bool) : tree -> tree -> Prop :=
| Al_eq p v xs w ys :
    (L = true -> (v <> None -> w <> None) /\ (xs <> [] -> ys <> [])) ->
    (O = true -> (w <> None -> v <> None) /\ (ys <> [] -> xs <> [])) ->
    (forall x y c, In x xs -> In y ys -> hd_error (tp x) = Some c -> hd_error (tp y) = Some c -> Al L O x y) ->
    Al L O (T p v xs) (T p w ys)
| Al_div r x z v xs c u w ys : O = false -> x <> c -> Al L O (T (r ++ x :: z) v xs) (T (r ++ c :: u) w ys).

Definition fits (L O : bool) (m mu : kmap) : Prop :=
  lined_up m mu /\ (L = true -> covered m mu) /\ (O = true -> covered mu m /\ no_split m mu).

Lemma below_tp t : croot t -> t <> tempty -> forall r z, tp t = r ++ z -> below (lookup t) r.
Proof.
  intros C N r z E. destruct (croot_has_key t C N) as (k & Hk). destruct (lookup_prefix _ _ Hk) as (u & ->).
  exists (z ++ u). now rewrite app_assoc, <- E.
Qed.

Lemma live_of t : croot t -> t <> tempty -> live (tv t) (tc t).
Proof. intros [->|(L & _)]; [congruence|auto]. Qed.

Lemma tp_forks t : croot t -> t <> tempty -> forks (lookup t) (tp t).
Proof. intros C N. pose proof (croot_kids _ C) as [So Fc]. pose proof (live_of t C N). destruct t. now apply live_forks. Qed.

Lemma in_edge t r z : croot t -> tp t = r ++ z -> z <> [] -> ~ forks (lookup t) r.
Proof. intros C E N. apply (edge_no_fork t [] [] t r z C (Sub_root t) E N). now left. Qed.

Lemma longer_kids p v cs : ksorted cs -> Forall cc cs -> (longer (lookup (T p v cs)) p <-> cs <> []).
Proof.
  intros So Fc. split.
  - intros (c & z & H) ->. rewrite lookup_kid in H by discriminate. now destruct H.
  - intros N. destruct cs as [|a cs]; [congruence|]. inversion Fc as [|? ? Ca _]; subst.
    destruct (cc_nonempty_prefix _ Ca) as (x & q & E). destruct (cc_key_first _ _ _ Ca E) as (r & Hr).
    exists x, r. erewrite lookup_kid_in; [exact Hr|auto|auto|now left|now rewrite E].
Qed.

Lemma below_sub p v cs c x q : ksorted cs -> Forall cc cs -> In c cs -> hd_error (tp c) = Some x ->
  below (lookup (T p v cs)) (p ++ x :: q) <-> below (lookup c) (x :: q).
Proof.
  intros So Fc Hin Hx. unfold below. split; intros (z & H); exists z.
  - rewrite <- app_assoc in H. cbn [app] in H. now rewrite (lookup_kid_in p v cs c x) in H by auto.
  - rewrite <- app_assoc. cbn [app]. now rewrite (lookup_kid_in p v cs c x) by auto.
Qed.

Lemma longer_sub p v cs c x q : ksorted cs -> Forall cc cs -> In c cs -> hd_error (tp c) = Some x ->
  longer (lookup (T p v cs)) (p ++ x :: q) <-> longer (lookup c) (x :: q).
Proof.
  intros So Fc Hin Hx. unfold longer. split; intros (d & z & H); exists d, z.
  - rewrite <- app_assoc in H. cbn [app] in H. now rewrite (lookup_kid_in p v cs c x) in H by auto.
  - rewrite <- app_assoc. cbn [app]. now rewrite (lookup_kid_in p v cs c x) by auto.
Qed.

Lemma cc_start c x k : cc c -> hd_error (tp c) = Some x -> lookup c k <> None -> exists w, k = x :: w.
Proof.
  intros C H Hk. destruct (lookup_prefix _ _ Hk) as (z & ->). destruct (tp c); [discriminate|].
  injection H as ->. cbn. eauto.
Qed.

Lemma fits_kids L O p v xs w ys x y c : ksorted xs -> Forall cc xs -> ksorted ys -> Forall cc ys -> In x xs -> In y ys ->
  hd_error (tp x) = Some c -> hd_error (tp y) = Some c ->
  fits L O (lookup (T p v xs)) (lookup (T p w ys)) -> fits L O (lookup x) (lookup y).
Proof.
  intros Sx Fx Sy Fy Ix Iy Hx Hy (H1 & H2 & H3).
  assert (cc x) as Cx by (rewrite Forall_forall in Fx; auto). assert (cc y) as Cy by (rewrite Forall_forall in Fy; auto).
  assert (forall t, cc t -> hd_error (tp t) = Some c -> ~ forks (lookup t) []) as N0.
  { intros t Ct Ht. destruct (tp t) as [|b q] eqn:E; [discriminate|]. apply (in_edge t [] (b :: q)); [now apply cc_croot|exact E|discriminate]. }
  assert (forall t q, cc t -> hd_error (tp t) = Some c -> below (lookup t) q -> q = [] \/ exists u, q = c :: u) as B0.
  { intros t [|b q] Ct Ht (z & Hz); [now left|]. destruct (cc_start _ _ _ Ct Ht Hz) as (u & E). injection E as -> _. eauto. }
  assert (forall t q, cc t -> hd_error (tp t) = Some c -> forks (lookup t) q -> exists u, q = c :: u) as F0.
  { intros t q Ct Ht Hf. destruct (B0 t q Ct Ht) as [->|]; auto; [|now destruct (N0 t Ct Ht)].
    destruct Hf as [Hf|(c1 & c2 & z1 & z2 & _ & Hf & _)]; [exists []; now rewrite app_nil_r|eexists; exact Hf]. }
  split; [|split].
  - intros q Bx By. destruct (B0 x q Cx Hx Bx) as [->|(u & ->)].
    + split; intros F; [now destruct (N0 x Cx Hx)|now destruct (N0 y Cy Hy)].
    + rewrite <- (forks_sub p v xs x c u), <- (forks_sub p w ys y c u) by auto.
      apply H1; [now apply (below_sub p v xs x c u)|now apply (below_sub p w ys y c u)].
  - intros HL q Fxq Fyq. destruct (F0 x q Cx Hx Fxq) as (u & ->).
    destruct (H2 HL (p ++ c :: u)) as [A B]; [now apply (forks_sub p v xs x c u)|now apply (forks_sub p w ys y c u)|].
    rewrite (lookup_kid_in p v xs x c), (lookup_kid_in p w ys y c) in A by auto.
    rewrite (longer_sub p v xs x c), (longer_sub p w ys y c) in B by auto. auto.
  - intros HO. destruct (H3 HO) as [H4 H5]. split.
    + intros q Fyq Fxq. destruct (F0 x q Cx Hx Fxq) as (u & ->).
      destruct (H4 (p ++ c :: u)) as [A B]; [now apply (forks_sub p w ys y c u)|now apply (forks_sub p v xs x c u)|].
      rewrite (lookup_kid_in p v xs x c), (lookup_kid_in p w ys y c) in A by auto.
      rewrite (longer_sub p v xs x c), (longer_sub p w ys y c) in B by auto. auto.
    + intros q c1 c2 z1 z2 Ne A B. destruct q as [|b q].
      * exfalso. cbn in A, B. destruct (cc_start _ _ _ Cx Hx A) as (u & E1). destruct (cc_start _ _ _ Cy Hy B) as (u' & E2).
        congruence.
      * destruct (cc_start _ _ _ Cx Hx A) as (u & E). injection E as -> _.
        apply (forks_sub p v xs x c q); auto. apply (H5 (p ++ c :: q) c1 c2 z1 z2 Ne);
          rewrite <- app_assoc; cbn [app] in *; [now rewrite (lookup_kid_in p v xs x c)|now rewrite (lookup_kid_in p w ys y c)].
Qed.

Lemma fits_Al L O g : forall g', croot g -> croot g' -> g <> tempty -> g' <> tempty ->
  fits L O (lookup g) (lookup g') -> Al L O g g'.
Proof.
  induction g as [p v xs IH] using tree_ind'. intros [q w ys] C C' N N' H.
  destruct (croot_kids _ C) as [Sx Fx]. destruct (croot_kids _ C') as [Sy Fy]. cbn [tc] in *.
  pose proof H as (H1 & H2 & H3).
  pose proof (tp_forks _ C N) as F1. pose proof (tp_forks _ C' N') as F2. cbn [tp] in *.
  assert (forall r z, p = r ++ z -> below (lookup (T p v xs)) r) as B1 by (intros r z E; eapply below_tp; eauto).
  assert (forall r z, q = r ++ z -> below (lookup (T q w ys)) r) as B2 by (intros r z E; eapply below_tp; eauto).
  destruct (Nat.eq_dec (common_prefix p q) (length p)) as [E1|E1], (Nat.eq_dec (common_prefix p q) (length q)) as [E2|E2].
  - assert (p = q) as <-.
    { pose proof (common_prefix_firstn p q) as E. rewrite E1 in E at 1. rewrite E2 in E. now rewrite !firstn_all in E. }
    apply Al_eq.
    + intros HL. destruct (H2 HL p F1 F2) as [A B]. rewrite !lookup_here in A. rewrite !longer_kids in B by auto. auto.
    + intros HO. destruct (H3 HO) as [H4 _]. destruct (H4 p F2 F1) as [A B]. rewrite !lookup_here in A. rewrite !longer_kids in B by auto. auto.
    + intros x y c Ix Iy Hx Hy. rewrite Forall_forall in IH.
      assert (cc x) as Cx by (rewrite Forall_forall in Fx; auto). assert (cc y) as Cy by (rewrite Forall_forall in Fy; auto).
      apply IH; auto using cc_croot.
      * intros ->. discriminate.
      * intros ->. discriminate.
      * exact (fits_kids L O p v xs w ys x y c Sx Fx Sy Fy Ix Iy Hx Hy H).
  - exfalso. destruct (skip_common p q E1 E2) as (x & u & Eq & _).
    apply (in_edge (T q w ys) p (x :: u) C' Eq); [discriminate|]. apply H1; [apply (B1 p []); now rewrite app_nil_r|eauto|exact F1].
  - exfalso. rewrite common_prefix_comm in E1, E2. destruct (skip_common q p E2 E1) as (x & u & Eq & _).
    apply (in_edge (T p v xs) q (x :: u) C Eq); [discriminate|]. apply H1; [eauto|apply (B2 q []); now rewrite app_nil_r|exact F2].
  - destruct (diverge p q E1 E2) as (r & x & z & c & u & -> & -> & Ne).
    destruct O; [|now apply Al_div]. exfalso.
    apply (in_edge (T (r ++ x :: z) v xs) r (x :: z) C eq_refl); [discriminate|].
    destruct (H3 eq_refl) as [_ H5].
    destruct (B1 (r ++ x :: z) []) as (k1 & K1); [now rewrite app_nil_r|].
    destruct (B2 (r ++ c :: u) []) as (k2 & K2); [now rewrite app_nil_r|].
    rewrite <- app_assoc in K1, K2. eapply H5; eauto.
Qed.

(* ------------------------------------------------------------------ *)
(** No panic, whatever the step bound. *)
Definition okw {A} (P : A -> Prop) (r : res A) : Prop :=
  match r with Ok x => P x | Panic => False | _ => True end.

Lemma okw_bind {A B} (P : A -> Prop) (Q : B -> Prop) x k :
  okw P x -> (forall a, P a -> okw Q (k a)) -> okw Q (bind x k).
Proof. destruct x; cbn; auto. Qed.

Definition any {A} (_ : A) : Prop := True.

Section NoPanic.
Context (dbg idsA idsB : bool) (rdA rdB : reader).
Notation NA := (NRep idsA rdA True).
Notation NB := (NRep idsB rdB True).
Notation IA := (IRepT idsA rdA True).
Notation IB := (IRepT idsB rdB True).
Notation OA := (ORep idsA rdA True).
Notation OB := (ORep idsB rdB True).

Lemma r_detached_okw ids rd fuel r t : NRep ids rd True r t -> okw dp (r_detached rd fuel r).
Proof.
  intros H. destruct (r_detached_True ids rd (fuel + Datatypes.S (size t)) r t H) as (n & E & _ & D); [lia|].
  destruct (r_detached_sim false rd rd (fun id => sim_refl false (rd id)) fuel (fuel + Datatypes.S (size t)) r) as [X|[[X _]|X]];
    [lia|now rewrite X|discriminate|]. rewrite X, E. exact D.
Qed.

Lemma canon_release n : canonicalize false n <> Panic.
Proof.
  unfold canonicalize. cbn [andb].
  destruct (blob_opt (n_value n)), (n_kids n) as [[|? [|? ?]]|?]; cbn [bind];
    match goal with |- context [if ?b then _ else _] => destruct b end; discriminate.
Qed.

Lemma finish_okw p value o : Forall dp (match o with Some l => l | None => [] end) -> okw dp (finish dbg p value o).
Proof.
  intros F. unfold finish. destruct (canonicalize dbg (Node (Data p) (opt_value value) (kids_opt o))) as [r| | |] eqn:E; cbn; auto.
  - eapply canon_dp; [exact E|reflexivity].
  - destruct dbg; [|now apply canon_release in E]. destruct o as [ns|].
    + rewrite (canon_builds _ ns) in E by (auto; reflexivity). now apply canon_release in E.
    + revert E. unfold canonicalize. cbn. destruct (blob_opt _); cbn [bind];
        match goal with |- context [if ?b then _ else _] => destruct b end; discriminate.
Qed.

(** What is known about the recursive calls. *)
Definition recw {X} (P : X -> Prop) (rec : noderef -> noderef -> res X) (xs ys : list tree) : Prop :=
  forall x y c ra rb, In x xs -> In y ys -> hd_error (tp x) = Some c -> hd_error (tp y) = Some c ->
    NA ra x -> NB rb y -> okw P (rec ra rb).

Lemma recw_tl {X} (P : X -> Prop) rec a b xs ys : recw P rec (a :: xs) (b :: ys) -> recw P rec xs ys.
Proof. intros H x y c ra rb. intros. apply (H x y c); cbn; auto. Qed.
Lemma recw_a {X} (P : X -> Prop) rec a xs ys : recw P rec (a :: xs) ys -> recw P rec xs ys.
Proof. intros H x y c ra rb. intros. apply (H x y c); cbn; auto. Qed.
Lemma recw_b {X} (P : X -> Prop) rec b xs ys : recw P rec xs (b :: ys) -> recw P rec xs ys.
Proof. intros H x y c ra rb. intros. apply (H x y c); cbn; auto. Qed.


Lemma outer_loop_okw rec : forall fuel ita itb xs ys, IA ita xs -> IB itb ys -> ksorted xs -> ksorted ys -> Forall cc xs -> Forall cc ys ->
  recw dp rec xs ys -> okw (Forall dp) (outer_loop rdA rdB rec fuel ita itb).
Proof.
  induction fuel as [|fuel IH]; intros ita itb xs ys Ia Ib Sa Sb Ca Cb Hr; [exact Logic.I|]. cbn [outer_loop].
  destruct (oj_next_cases idsA idsB rdA rdB True _ _ _ _ Ia Ib Sa Sb Ca Cb)
    as [-> -> -> | a xs' x q ra ita' -> E Aa Ab R I' -> | b ys' y q rb itb' -> E Aa Ab R I' ->
       | a b xs' ys' x q q' ra rb ita' itb' -> -> Ea Eb Aa Ab Ra Ia' Rb Ib' ->]; cbn [bind].
  - constructor.
  - inversion Ca; subst. eapply okw_bind; [exact (r_detached_okw _ _ _ _ _ R)|]. intros r D.
    eapply okw_bind; [apply (IH ita' itb xs' ys); eauto using ksorted_tail, recw_a|]. intros l F. cbn. destruct (is_empty r); auto.
  - inversion Cb; subst. eapply okw_bind; [exact (r_detached_okw _ _ _ _ _ R)|]. intros r D.
    eapply okw_bind; [apply (IH ita itb' xs ys'); eauto using ksorted_tail, recw_b|]. intros l F. cbn. destruct (is_empty r); auto.
  - inversion Ca; inversion Cb; subst.
    eapply okw_bind; [apply (Hr a b x); cbn; auto; [now rewrite Ea|now rewrite Eb]|]. intros r D.
    eapply okw_bind; [apply (IH ita' itb' xs' ys'); eauto using ksorted_tail, recw_tl|]. intros l F. cbn. destruct (is_empty r); auto.
Qed.

Lemma inner_loop_okw rec : forall fuel ita itb xs ys, IA ita xs -> IB itb ys -> ksorted xs -> ksorted ys -> Forall cc xs -> Forall cc ys ->
  recw dp rec xs ys -> okw (Forall dp) (inner_loop rec fuel ita itb).
Proof.
  induction fuel as [|fuel IH]; intros ita itb xs ys Ia Ib Sa Sb Ca Cb Hr; [exact Logic.I|]. cbn [inner_loop].
  destruct (oj_next_cases idsA idsB rdA rdB True _ _ _ _ Ia Ib Sa Sb Ca Cb)
    as [-> -> -> | a xs' x q ra ita' -> E Aa Ab R I' -> | b ys' y q rb itb' -> E Aa Ab R I' ->
       | a b xs' ys' x q q' ra rb ita' itb' -> -> Ea Eb Aa Ab Ra Ia' Rb Ib' ->]; cbn [bind].
  - constructor.
  - inversion Ca; subst. apply (IH ita' itb xs' ys); eauto using ksorted_tail, recw_a.
  - inversion Cb; subst. apply (IH ita itb' xs ys'); eauto using ksorted_tail, recw_b.
  - inversion Ca; inversion Cb; subst.
    eapply okw_bind; [apply (Hr a b x); cbn; auto; [now rewrite Ea|now rewrite Eb]|]. intros r D.
    eapply okw_bind; [apply (IH ita' itb' xs' ys'); eauto using ksorted_tail, recw_tl|]. intros l F. cbn. destruct (is_empty r); auto.
Qed.

Lemma left_loop_okw rec : forall fuel ita itb xs ys, IA ita xs -> IB itb ys -> ksorted xs -> ksorted ys -> Forall cc xs -> Forall cc ys ->
  recw dp rec xs ys -> okw (Forall dp) (left_loop rdA rec fuel ita itb).
Proof.
  induction fuel as [|fuel IH]; intros ita itb xs ys Ia Ib Sa Sb Ca Cb Hr; [exact Logic.I|]. cbn [left_loop].
  destruct (oj_next_cases idsA idsB rdA rdB True _ _ _ _ Ia Ib Sa Sb Ca Cb)
    as [-> -> -> | a xs' x q ra ita' -> E Aa Ab R I' -> | b ys' y q rb itb' -> E Aa Ab R I' ->
       | a b xs' ys' x q q' ra rb ita' itb' -> -> Ea Eb Aa Ab Ra Ia' Rb Ib' ->]; cbn [bind].
  - constructor.
  - inversion Ca; subst. eapply okw_bind; [exact (r_detached_okw _ _ _ _ _ R)|]. intros r D.
    eapply okw_bind; [apply (IH ita' itb xs' ys); eauto using ksorted_tail, recw_a|]. intros l F. cbn. auto.
  - inversion Cb; subst. apply (IH ita itb' xs ys'); eauto using ksorted_tail, recw_b.
  - inversion Ca; inversion Cb; subst.
    eapply okw_bind; [apply (Hr a b x); cbn; auto; [now rewrite Ea|now rewrite Eb]|]. intros r D.
    eapply okw_bind; [apply (IH ita' itb' xs' ys'); eauto using ksorted_tail, recw_tl|]. intros l F. cbn. destruct (is_empty r); auto.
Qed.

Lemma inner_pred_loop_okw rec : forall fuel ita itb xs ys, IA ita xs -> IB itb ys -> ksorted xs -> ksorted ys -> Forall cc xs -> Forall cc ys ->
  recw any rec xs ys -> okw any (inner_pred_loop rec fuel ita itb).
Proof.
  induction fuel as [|fuel IH]; intros ita itb xs ys Ia Ib Sa Sb Ca Cb Hr; [exact Logic.I|]. cbn [inner_pred_loop].
  destruct (oj_next_cases idsA idsB rdA rdB True _ _ _ _ Ia Ib Sa Sb Ca Cb)
    as [-> -> -> | a xs' x q ra ita' -> E Aa Ab R I' -> | b ys' y q rb itb' -> E Aa Ab R I' ->
       | a b xs' ys' x q q' ra rb ita' itb' -> -> Ea Eb Aa Ab Ra Ia' Rb Ib' ->]; cbn [bind].
  - exact Logic.I.
  - inversion Ca; subst. apply (IH ita' itb xs' ys); eauto using ksorted_tail, recw_a.
  - inversion Cb; subst. apply (IH ita itb' xs ys'); eauto using ksorted_tail, recw_b.
  - inversion Ca; inversion Cb; subst.
    eapply okw_bind; [apply (Hr a b x); cbn; auto; [now rewrite Ea|now rewrite Eb]|]. intros [] _; [exact Logic.I|].
    apply (IH ita' itb' xs' ys'); eauto using ksorted_tail, recw_tl.
Qed.

Lemma left_pred_loop_okw rec : forall fuel ita itb xs ys, IA ita xs -> IB itb ys -> ksorted xs -> ksorted ys -> Forall cc xs -> Forall cc ys ->
  recw any rec xs ys -> okw any (left_pred_loop rec fuel ita itb).
Proof.
  induction fuel as [|fuel IH]; intros ita itb xs ys Ia Ib Sa Sb Ca Cb Hr; [exact Logic.I|]. cbn [left_pred_loop].
  destruct (oj_next_cases idsA idsB rdA rdB True _ _ _ _ Ia Ib Sa Sb Ca Cb)
    as [-> -> -> | a xs' x q ra ita' -> E Aa Ab R I' -> | b ys' y q rb itb' -> E Aa Ab R I' ->
       | a b xs' ys' x q q' ra rb ita' itb' -> -> Ea Eb Aa Ab Ra Ia' Rb Ib' ->]; cbn [bind].
  - exact Logic.I.
  - exact Logic.I.
  - inversion Cb; subst. apply (IH ita itb' xs ys'); eauto using ksorted_tail, recw_b.
  - inversion Ca; inversion Cb; subst.
    eapply okw_bind; [apply (Hr a b x); cbn; auto; [now rewrite Ea|now rewrite Eb]|]. intros [] _; [exact Logic.I|].
    apply (IH ita' itb' xs' ys'); eauto using ksorted_tail, recw_tl.
Qed.

Section Ops.
Context (f : blob -> blob -> res (option blob)).
Context (Hf : forall av bv x y, RepV rdA av (Some x) -> RepV rdB bv (Some y) -> okw any (f av bv)).

Lemma nonempty_dp l : Forall dp l -> Forall dp (match nonempty_vec l with Some l => l | None => [] end).
Proof. now destruct l. Qed.

Lemma recs {X} (P : X -> Prop) L O rec xs ys :
  (forall ra rb g g', NA ra g -> NB rb g' -> croot g -> croot g' -> Al L O g g' -> okw P (rec ra rb)) ->
  Forall cc xs -> Forall cc ys ->
  (forall x y c, In x xs -> In y ys -> hd_error (tp x) = Some c -> hd_error (tp y) = Some c -> Al L O x y) ->
  recw P rec xs ys.
Proof.
  intros H Fx Fy HA x y c ra rb Ix Iy Hx Hy Ra Rb. rewrite Forall_forall in Fx, Fy.
  eapply H; eauto using cc_croot.
Qed.

Lemma diverge_common (r : bytes) x z c u : x <> c -> common_prefix (r ++ x :: z) (r ++ c :: u) = length r.
Proof.
  intros N. induction r as [|b r IH]; cbn.
  - destruct (Byte.eqb x c) eqn:E; [apply Byte.byte_dec_bl in E; congruence|reflexivity].
  - assert (Byte.eqb b b = true) as -> by (now apply Byte.byte_dec_lb). now rewrite IH.
Qed.

Lemma common_self (p : bytes) : common_prefix p p = length p.
Proof. induction p as [|b p IH]; cbn; [reflexivity|]. assert (Byte.eqb b b = true) as -> by (now apply Byte.byte_dec_lb). now rewrite IH. Qed.

Lemma outer_okw : forall fuel ra rb g g', NA ra g -> NB rb g' -> croot g -> croot g' -> Al true true g g' ->
  okw dp (outer_combine dbg rdA rdB f fuel ra rb).
Proof.
  induction fuel as [|fuel IH]; intros ra rb g g' Ra Rb C C' A; [exact Logic.I|].
  destruct A as [p v xs w ys HL HO HK|]; [|discriminate]. destruct (HL eq_refl) as [V1 K1]. destruct (HO eq_refl) as [V2 K2].
  destruct (croot_kids _ C) as [Sx Fx]. destruct (croot_kids _ C') as [Sy Fy]. cbn [tc] in *.
  cbn [outer_combine]. rewrite (NRep_prefix _ _ _ _ _ _ _ Ra), (NRep_prefix _ _ _ _ _ _ _ Rb). cbn [bind].
  rewrite common_self, Nat.eqb_refl. cbn [andb].
  eapply okw_bind with (P := any).
  { apply NRep_value in Ra. apply NRep_value in Rb. destruct v as [x|], w as [y|].
    - destruct Ra as (b & -> & R1), Rb as (b' & -> & R2). eauto.
    - now destruct V1.
    - now destruct V2.
    - rewrite Ra, Rb. exact Logic.I. }
  intros value _. destruct (NRep_children _ _ _ (or_intror Logic.I) _ _ _ _ Ra) as (oa & -> & Oa).
  destruct (NRep_children _ _ _ (or_intror Logic.I) _ _ _ _ Rb) as (ob & -> & Ob). cbn [bind].
  eapply okw_bind; [|intros o; apply finish_okw].
  unfold outer_children. destruct oa as [ia|], ob as [ib|]; cbn in Oa, Ob.
  - eapply okw_bind; [apply (outer_loop_okw _ _ _ _ xs ys); try tauto; now apply (recs dp true true)|]. intros l. apply nonempty_dp.
  - exfalso. destruct Oa. now apply K1.
  - exfalso. destruct Ob. now apply K2.
  - constructor.
Qed.

Lemma left_okw O : forall fuel ra rb g g', NA ra g -> NB rb g' -> croot g -> croot g' -> Al true O g g' ->
  okw dp (left_combine dbg rdA rdB f fuel ra rb).
Proof.
  induction fuel as [|fuel IH]; intros ra rb g g' Ra Rb C C' A; [exact Logic.I|].
  destruct A as [p v xs w ys HL HO HK|r x z v xs c u w ys _ Ne].
  - destruct (HL eq_refl) as [V1 K1].
    destruct (croot_kids _ C) as [Sx Fx]. destruct (croot_kids _ C') as [Sy Fy]. cbn [tc] in *.
    cbn [left_combine]. rewrite (NRep_prefix _ _ _ _ _ _ _ Ra), (NRep_prefix _ _ _ _ _ _ _ Rb). cbn [bind].
    rewrite common_self, Nat.eqb_refl. cbn [andb].
    eapply okw_bind with (P := any).
    { apply NRep_value in Ra. apply NRep_value in Rb. destruct v as [x|], w as [y|].
      - destruct Ra as (b & -> & R1), Rb as (b' & -> & R2). eauto.
      - now destruct V1.
      - rewrite Ra. exact Logic.I.
      - rewrite Ra. exact Logic.I. }
    intros value _. destruct (NRep_children _ _ _ (or_intror Logic.I) _ _ _ _ Ra) as (oa & -> & Oa).
    destruct (NRep_children _ _ _ (or_intror Logic.I) _ _ _ _ Rb) as (ob & -> & Ob). cbn [bind].
    eapply okw_bind; [|intros o; apply finish_okw].
    unfold left_children. destruct oa as [ia|], ob as [ib|]; cbn in Oa, Ob.
    + eapply okw_bind; [apply (left_loop_okw _ _ _ _ xs ys); try tauto; now apply (recs dp true O)|]. intros l. apply nonempty_dp.
    + exfalso. destruct Oa. now apply K1.
    + constructor.
    + constructor.
  - cbn [left_combine]. rewrite (NRep_prefix _ _ _ _ _ _ _ Ra), (NRep_prefix _ _ _ _ _ _ _ Rb). cbn [bind].
    rewrite diverge_common by auto. rewrite !app_length. cbn [length]. edge_tests. eapply r_detached_okw; exact Ra.
Qed.

Lemma inner_okw L O : forall fuel ra rb g g', NA ra g -> NB rb g' -> croot g -> croot g' -> Al L O g g' ->
  okw dp (inner_combine dbg rdA rdB f fuel ra rb).
Proof.
  induction fuel as [|fuel IH]; intros ra rb g g' Ra Rb C C' A; [exact Logic.I|].
  destruct A as [p v xs w ys HL HO HK|r x z v xs c u w ys _ Ne].
  - destruct (croot_kids _ C) as [Sx Fx]. destruct (croot_kids _ C') as [Sy Fy]. cbn [tc] in *.
    cbn [inner_combine]. rewrite (NRep_prefix _ _ _ _ _ _ _ Ra), (NRep_prefix _ _ _ _ _ _ _ Rb). cbn [bind].
    rewrite common_self, Nat.eqb_refl. cbn [andb].
    eapply okw_bind with (P := any).
    { apply NRep_value in Ra. apply NRep_value in Rb. destruct v as [x|], w as [y|].
      - destruct Ra as (b & -> & R1), Rb as (b' & -> & R2). eauto.
      - rewrite Rb. exact Logic.I.
      - destruct Rb as (b' & -> & R2). rewrite Ra. exact Logic.I.
      - rewrite Rb. exact Logic.I. }
    intros value _. destruct (NRep_children _ _ _ (or_intror Logic.I) _ _ _ _ Ra) as (oa & -> & Oa).
    destruct (NRep_children _ _ _ (or_intror Logic.I) _ _ _ _ Rb) as (ob & -> & Ob). cbn [bind].
    eapply okw_bind; [|intros o; apply finish_okw].
    unfold inner_children. destruct oa as [ia|], ob as [ib|]; cbn in Oa, Ob; try constructor.
    eapply okw_bind; [apply (inner_loop_okw _ _ _ _ xs ys); try tauto; now apply (recs dp L O)|]. intros l. apply nonempty_dp.
  - cbn [inner_combine]. rewrite (NRep_prefix _ _ _ _ _ _ _ Ra), (NRep_prefix _ _ _ _ _ _ _ Rb). cbn [bind].
    rewrite diverge_common by auto. rewrite !app_length. cbn [length]. edge_tests. apply finish_okw. constructor.
Qed.

(** The roots are owned, so an empty tree is no problem for the inner combine, and
    none on the left for the left combine. *)
Lemma inner_empty_l fuel t u g' : Rep idsA rdA t tempty -> Rep idsB rdB u g' ->
  okw dp (inner_combine dbg rdA rdB f fuel (ROwned t) (ROwned u)).
Proof.
  intros Ra Rb. destruct fuel as [|fuel]; [exact Logic.I|]. pose proof (Rep_NRep idsA rdA True _ _ Ra) as Na.
  destruct g' as [q w ys]. pose proof (Rep_NRep idsB rdB True _ _ Rb) as Nb.
  cbn [inner_combine]. rewrite (NRep_prefix _ _ _ _ _ _ _ Na), (NRep_prefix _ _ _ _ _ _ _ Nb). cbn [bind common_prefix length].
  destruct (NRep_children _ _ _ (or_intror Logic.I) _ _ _ _ Na) as (oa & Ea & Oa). destruct oa as [ia|]; [cbn in Oa; tauto|].
  destruct (NRep_children _ _ _ (or_intror Logic.I) _ _ _ _ Nb) as (ob & Eb & _). apply NRep_value in Na.
  destruct q as [|c q]; cbn [length Nat.eqb andb].
  - rewrite Na. destruct (r_value_opt (ROwned u)); cbn [bind]; rewrite Ea, Eb; cbn [bind inner_children]; apply finish_okw; constructor.
  - rewrite Ea. cbn [bind r_clone_shortened].
    destruct (clone_shortened_ok idsB rdB u _ 0 Rb) as (n' & -> & _); [lia|]. cbn [bind inner_children]. apply finish_okw. constructor.
Qed.

Lemma inner_empty_r fuel t u g : Rep idsA rdA t g -> Rep idsB rdB u tempty ->
  okw dp (inner_combine dbg rdA rdB f fuel (ROwned t) (ROwned u)).
Proof.
  intros Ra Rb. destruct fuel as [|fuel]; [exact Logic.I|]. pose proof (Rep_NRep idsB rdB True _ _ Rb) as Nb.
  destruct g as [q w ys]. pose proof (Rep_NRep idsA rdA True _ _ Ra) as Na.
  cbn [inner_combine]. rewrite (NRep_prefix _ _ _ _ _ _ _ Na), (NRep_prefix _ _ _ _ _ _ _ Nb). cbn [bind].
  destruct (NRep_children _ _ _ (or_intror Logic.I) _ _ _ _ Na) as (oa & Ea & _).
  destruct (NRep_children _ _ _ (or_intror Logic.I) _ _ _ _ Nb) as (ob & Eb & Ob). destruct ob as [ib|]; [cbn in Ob; tauto|].
  apply NRep_value in Nb.
  destruct q as [|c q]; cbn [common_prefix length Nat.eqb andb].
  - rewrite Nb. cbn [bind]; rewrite Ea, Eb; cbn [bind]. destruct oa; cbn [bind inner_children]; apply finish_okw; constructor.
  - rewrite Eb. cbn [bind r_clone_shortened].
    destruct (clone_shortened_ok idsA rdA t _ 0 Ra) as (n' & -> & _); [lia|]. cbn [bind inner_children it_single]. apply finish_okw. constructor.
Qed.

Lemma left_empty_l fuel t u g' : Rep idsA rdA t tempty -> Rep idsB rdB u g' ->
  okw dp (left_combine dbg rdA rdB f fuel (ROwned t) (ROwned u)).
Proof.
  intros Ra Rb. destruct fuel as [|fuel]; [exact Logic.I|]. pose proof (Rep_NRep idsA rdA True _ _ Ra) as Na.
  destruct g' as [q w ys]. pose proof (Rep_NRep idsB rdB True _ _ Rb) as Nb.
  cbn [left_combine]. rewrite (NRep_prefix _ _ _ _ _ _ _ Na), (NRep_prefix _ _ _ _ _ _ _ Nb). cbn [bind common_prefix length].
  destruct (NRep_children _ _ _ (or_intror Logic.I) _ _ _ _ Na) as (oa & Ea & Oa). destruct oa as [ia|]; [cbn in Oa; tauto|].
  destruct (NRep_children _ _ _ (or_intror Logic.I) _ _ _ _ Nb) as (ob & Eb & _). apply NRep_value in Na.
  destruct q as [|c q]; cbn [length Nat.eqb andb]; rewrite Na; cbn [bind opt_detached]; rewrite Ea; cbn [bind].
  - rewrite Eb. cbn [bind left_children]. apply finish_okw; constructor.
  - cbn [r_clone_shortened].
    destruct (clone_shortened_ok idsB rdB u _ 0 Rb) as (n' & -> & _); [lia|]. cbn [bind left_children]. apply finish_okw. constructor.
Qed.
End Ops.

Section Preds.
Context (f : blob -> blob -> res bool).
Context (Hf : forall av bv x y, RepV rdA av (Some x) -> RepV rdB bv (Some y) -> okw any (f av bv)).

Lemma inner_pred_okw L O : forall fuel ra rb g g', NA ra g -> NB rb g' -> croot g -> croot g' -> Al L O g g' ->
  okw any (inner_combine_pred rdA rdB f fuel ra rb).
Proof.
  induction fuel as [|fuel IH]; intros ra rb g g' Ra Rb C C' A; [exact Logic.I|].
  destruct A as [p v xs w ys HL HO HK|r x z v xs c u w ys _ Ne].
  - destruct (croot_kids _ C) as [Sx Fx]. destruct (croot_kids _ C') as [Sy Fy]. cbn [tc] in *.
    cbn [inner_combine_pred]. rewrite (NRep_prefix _ _ _ _ _ _ _ Ra), (NRep_prefix _ _ _ _ _ _ _ Rb). cbn [bind].
    rewrite common_self, Nat.eqb_refl. cbn [andb].
    eapply okw_bind with (P := any).
    { apply NRep_value in Ra. apply NRep_value in Rb. destruct v as [x|], w as [y|].
      - destruct Ra as (b & -> & R1), Rb as (b' & -> & R2). eauto.
      - destruct Ra as (b & -> & R1). rewrite Rb. exact Logic.I.
      - rewrite Ra. exact Logic.I.
      - rewrite Ra. exact Logic.I. }
    intros [] _; [exact Logic.I|]. destruct (NRep_children _ _ _ (or_intror Logic.I) _ _ _ _ Ra) as (oa & -> & Oa).
    destruct (NRep_children _ _ _ (or_intror Logic.I) _ _ _ _ Rb) as (ob & -> & Ob). cbn [bind].
    unfold inner_pred_children. destruct oa as [ia|], ob as [ib|]; cbn in Oa, Ob; try exact Logic.I.
    apply (inner_pred_loop_okw _ _ _ _ xs ys); try tauto; now apply (recs any L O).
  - cbn [inner_combine_pred]. rewrite (NRep_prefix _ _ _ _ _ _ _ Ra), (NRep_prefix _ _ _ _ _ _ _ Rb). cbn [bind].
    rewrite diverge_common by auto. rewrite !app_length. cbn [length]. edge_tests. exact Logic.I.
Qed.

Lemma left_pred_okw L O : forall fuel ra rb g g', NA ra g -> NB rb g' -> croot g -> croot g' -> Al L O g g' ->
  okw any (left_combine_pred rdA rdB f fuel ra rb).
Proof.
  induction fuel as [|fuel IH]; intros ra rb g g' Ra Rb C C' A; [exact Logic.I|].
  destruct A as [p v xs w ys HL HO HK|r x z v xs c u w ys _ Ne].
  - destruct (croot_kids _ C) as [Sx Fx]. destruct (croot_kids _ C') as [Sy Fy]. cbn [tc] in *.
    cbn [left_combine_pred]. rewrite (NRep_prefix _ _ _ _ _ _ _ Ra), (NRep_prefix _ _ _ _ _ _ _ Rb). cbn [bind].
    rewrite common_self, Nat.eqb_refl. cbn [andb].
    eapply okw_bind with (P := any).
    { apply NRep_value in Ra. apply NRep_value in Rb. destruct v as [x|], w as [y|].
      - destruct Ra as (b & -> & R1), Rb as (b' & -> & R2). eauto.
      - destruct Ra as (b & -> & R1). rewrite Rb. exact Logic.I.
      - rewrite Ra. exact Logic.I.
      - rewrite Ra. exact Logic.I. }
    intros [] _; [exact Logic.I|]. destruct (NRep_children _ _ _ (or_intror Logic.I) _ _ _ _ Ra) as (oa & -> & Oa).
    destruct (NRep_children _ _ _ (or_intror Logic.I) _ _ _ _ Rb) as (ob & -> & Ob). cbn [bind].
    unfold left_pred_children. destruct oa as [ia|], ob as [ib|]; cbn in Oa, Ob; try exact Logic.I.
    apply (left_pred_loop_okw _ _ _ _ xs ys); try tauto; now apply (recs any L O).
  - cbn [left_combine_pred]. rewrite (NRep_prefix _ _ _ _ _ _ _ Ra), (NRep_prefix _ _ _ _ _ _ _ Rb). cbn [bind].
    rewrite diverge_common by auto. rewrite !app_length. cbn [length]. edge_tests. exact Logic.I.
Qed.

Lemma preds_empty_l fuel t u g' : Rep idsA rdA t tempty -> Rep idsB rdB u g' ->
  okw any (inner_combine_pred rdA rdB f fuel (ROwned t) (ROwned u)) /\ okw any (left_combine_pred rdA rdB f fuel (ROwned t) (ROwned u)).
Proof.
  intros Ra Rb. destruct fuel as [|fuel]; [split; exact Logic.I|]. pose proof (Rep_NRep idsA rdA True _ _ Ra) as Na.
  destruct g' as [q w ys]. pose proof (Rep_NRep idsB rdB True _ _ Rb) as Nb.
  cbn [inner_combine_pred left_combine_pred]. rewrite (NRep_prefix _ _ _ _ _ _ _ Na), (NRep_prefix _ _ _ _ _ _ _ Nb). cbn [bind common_prefix length].
  destruct (NRep_children _ _ _ (or_intror Logic.I) _ _ _ _ Na) as (oa & Ea & Oa). destruct oa as [ia|]; [cbn in Oa; tauto|].
  destruct (NRep_children _ _ _ (or_intror Logic.I) _ _ _ _ Nb) as (ob & Eb & _). apply NRep_value in Na.
  destruct q as [|c q]; cbn [length Nat.eqb andb]; rewrite Na; cbn [bind]; rewrite Ea; cbn [bind].
  - rewrite Eb. split; exact Logic.I.
  - cbn [r_clone_shortened]. destruct (clone_shortened_ok idsB rdB u _ 0 Rb) as (n' & -> & _); [lia|]. split; exact Logic.I.
Qed.

Lemma preds_empty_r fuel t u g : Rep idsA rdA t g -> Rep idsB rdB u tempty ->
  okw any (inner_combine_pred rdA rdB f fuel (ROwned t) (ROwned u)) /\ okw any (left_combine_pred rdA rdB f fuel (ROwned t) (ROwned u)).
Proof.
  intros Ra Rb. destruct fuel as [|fuel]; [split; exact Logic.I|]. pose proof (Rep_NRep idsB rdB True _ _ Rb) as Nb.
  destruct g as [q w ys]. pose proof (Rep_NRep idsA rdA True _ _ Ra) as Na.
  cbn [inner_combine_pred left_combine_pred]. rewrite (NRep_prefix _ _ _ _ _ _ _ Na), (NRep_prefix _ _ _ _ _ _ _ Nb). cbn [bind].
  destruct (NRep_children _ _ _ (or_intror Logic.I) _ _ _ _ Na) as (oa & Ea & _).
  destruct (NRep_children _ _ _ (or_intror Logic.I) _ _ _ _ Nb) as (ob & Eb & Ob). destruct ob as [ib|]; [cbn in Ob; tauto|].
  apply NRep_value in Nb.
  destruct q as [|c q]; cbn [common_prefix length Nat.eqb andb].
  - rewrite Nb, Ea, Eb. destruct (r_value_opt (ROwned t)), oa; split; exact Logic.I.
  - rewrite Eb. cbn [r_clone_shortened].
    destruct (clone_shortened_ok idsA rdA t _ 0 Ra) as (n' & -> & _); [lia|]. split; exact Logic.I.
Qed.
End Preds.
End NoPanic.
