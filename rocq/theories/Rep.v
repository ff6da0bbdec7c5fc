(** Which plain tree a node of the model stands for. *)
From Verif Require Import Base BaseLemmas Header Node Tree.
From Coq Require Import Sorting.Sorted.

(** The nodes contained in a children buffer, as owned nodes. *)
Inductive decode : bytes -> list node -> Prop :=
| dec_nil : decode [] []
| dec_cons data b rest n ns :
    read_one data = Some (b, rest) -> b_to_owned b = Ok n -> decode rest ns ->
    decode data (n :: ns).

Section Rep.
(** [ids]: may edges be stored as ids (edges of 128 bytes and more of attached
    trees). *)
Context (ids : bool) (rd : reader).

Definition RepP (b : blob) (p : bytes) : Prop :=
  b = Data p \/
  (ids = true /\ exists c id q, b = Id (c :: id) /\ rd id = Ok p /\ p = c :: q).

Definition RepV (b : blob) (v : option bytes) : Prop :=
  match v with
  | None => b = Id []
  | Some x => b = Data x \/ (exists c id, b = Id (c :: id) /\ rd (c :: id) = Ok x)
  end.

Definition KidsOf (k : kids) (ns : list node) : Prop :=
  k = KArc ns \/ (k = KId [] /\ ns = []) \/
  (exists r id data, k = KId (r :: id) /\ rd id = Ok data /\ decode data ns /\ ns <> []).

Inductive Rep : node -> tree -> Prop :=
| Rep_intro pb vb kb p v ns cs :
    RepP pb p -> RepV vb v -> KidsOf kb ns -> Forall2 Rep ns cs ->
    Rep (Node pb vb kb) (T p v cs).

Lemma Rep_inv n p v cs : Rep n (T p v cs) ->
  RepP (n_prefix n) p /\ RepV (n_value n) v /\
  exists ns, KidsOf (n_kids n) ns /\ Forall2 Rep ns cs.
Proof. intros H; inversion H; subst; cbn. eauto 6. Qed.

Lemma Rep_mk n p v cs ns : RepP (n_prefix n) p -> RepV (n_value n) v ->
  KidsOf (n_kids n) ns -> Forall2 Rep ns cs -> Rep n (T p v cs).
Proof. destruct n. cbn. econstructor; eauto. Qed.

(** What an iterator still has to deliver. *)
Definition IRep (it : iter) (ns : list node) : Prop :=
  match it with IOwned l => l = ns | IBorrowed data => decode data ns end.

(** Panics of the unimplemented cases on stored nodes are excused by [al]. *)
Context (al : Prop).

Definition det : Prop := forall id x, rd id <> Ok x.

Definition NRep (r : noderef) (t : tree) : Prop :=
  ((exists n, r = ROwned n) \/ al) /\ exists n, r_to_owned r = Ok n /\ Rep n t.

Definition IRepT (it : iter) (cs : list tree) : Prop :=
  ((exists l, it = IOwned l) \/ al) /\ exists ns, IRep it ns /\ Forall2 Rep ns cs.

Definition ORep (o : option iter) (cs : list tree) : Prop :=
  match o with None => cs = [] | Some it => cs <> [] /\ IRepT it cs end.

Context (Hdet : det \/ al).

Lemma RepP_first b p : RepP b p -> first_byte b = hd_error p.
Proof. intros [->|(_ & c & id & q & -> & _ & ->)]; reflexivity. Qed.

Lemma RepP_load b p : RepP b p -> load_prefix rd b = Ok p.
Proof. intros [->|(_ & c & id & q & -> & H & _)]; [reflexivity|exact H]. Qed.

Lemma RepV_opt b v : RepV b v ->
  match v with
  | None => blob_opt b = None
  | Some x => blob_opt b = Some b
  end.
Proof.
  destruct v as [x|]; cbn.
  - intros [->|(c & id & -> & _)]; reflexivity.
  - intros ->; reflexivity.
Qed.

Lemma RepV_load b v : RepV b v -> load_value rd b = Ok v.
Proof.
  destruct v as [x|]; cbn.
  - intros [->|(c & id & -> & H)]; cbn; [reflexivity|]. now rewrite H.
  - intros ->; reflexivity.
Qed.

Lemma RepV_value_load b x : RepV b (Some x) -> value_load rd b = Ok x.
Proof. intros [->|(c & id & -> & H)]; cbn; auto. Qed.

Lemma owned_view r n : r_to_owned r = Ok n ->
  r_prefix r = n_prefix n /\ r_value_opt r = blob_opt (n_value n) /\
  r_load_children rd r = load_children rd n /\
  r_load_children_owned rd r = load_children_owned rd n.
Proof.
  destruct r as [m|[p v c]]; cbn.
  - intros [= ->]. auto.
  - unfold b_to_owned, b_load_children, load_children, load_children_owned. cbn.
    destruct c as [c|c]; intros [= <-]. cbn. destruct c; auto.
Qed.

Lemma NRep_prefix r p v cs : NRep r (T p v cs) -> load_prefix rd (r_prefix r) = Ok p.
Proof.
  intros [_ (n & E & H)]. apply owned_view in E as (-> & _).
  apply Rep_inv in H as (H & _). now apply RepP_load.
Qed.

Lemma NRep_value r p v cs : NRep r (T p v cs) ->
  match v with
  | None => r_value_opt r = None
  | Some x => exists b, r_value_opt r = Some b /\ RepV b (Some x)
  end.
Proof.
  intros [_ (n & E & H)]. apply owned_view in E as (_ & -> & _).
  apply Rep_inv in H as (_ & H & _). pose proof (RepV_opt _ _ H) as H'.
  destruct v; [|exact H']. eauto.
Qed.

Lemma Rep_value n p v cs : Rep n (T p v cs) ->
  match v with
  | None => blob_opt (n_value n) = None
  | Some x => exists b, blob_opt (n_value n) = Some b /\ RepV b (Some x)
  end.
Proof.
  intros H. apply Rep_inv in H as (_ & H & _). pose proof (RepV_opt _ _ H) as H'.
  destruct v; [|exact H']. eauto.
Qed.

Lemma decode_nil_inv ns : decode [] ns -> ns = [].
Proof. inversion 1; subst; [reflexivity|]. discriminate. Qed.

Lemma KidsOf_load n ns cs : KidsOf (n_kids n) ns -> Forall2 Rep ns cs ->
  exists o, load_children rd n = Ok o /\ ORep o cs.
Proof.
  unfold load_children, KidsOf. intros [->|[[-> ->]|(r & id & data & -> & H1 & H2 & H3)]] F.
  - destruct ns as [|m ns].
    + inversion F; subst. exists None. cbn. auto.
    + exists (Some (IOwned (m :: ns))). split; [reflexivity|]. split.
      * inversion F; discriminate.
      * split; [left; eauto|]. exists (m :: ns). cbn. auto.
  - inversion F; subst. exists None. cbn. auto.
  - cbn. rewrite H1. cbn. exists (Some (IBorrowed data)). split; [reflexivity|]. split.
    + intros ->. inversion F; subst; congruence.
    + split; [|exists ns; auto]. right. destruct Hdet as [D|]; [|assumption].
      now destruct (D id data).
Qed.

(** For the iterators: [load_children_owned] may give an empty vector. *)
Lemma KidsOf_load_owned n ns cs : KidsOf (n_kids n) ns -> Forall2 Rep ns cs ->
  exists o, load_children_owned rd n = Ok o /\
    match o with None => cs = [] | Some it => IRepT it cs end.
Proof.
  unfold load_children_owned, KidsOf. intros [->|[[-> ->]|(r & id & data & -> & H1 & H2 & H3)]] F.
  - exists (Some (IOwned ns)). split; [reflexivity|]. split; [left; eauto|]. exists ns. cbn. auto.
  - inversion F; subst. exists None. cbn. auto.
  - cbn. rewrite H1. cbn. exists (Some (IBorrowed data)). split; [reflexivity|].
    split; [|exists ns; auto]. right. destruct Hdet as [D|]; [|assumption].
    now destruct (D id data).
Qed.

Lemma NRep_children r p v cs : NRep r (T p v cs) ->
  exists o, r_load_children rd r = Ok o /\ ORep o cs.
Proof.
  intros [_ (n & E & H)]. apply owned_view in E as (_ & _ & -> & _).
  apply Rep_inv in H as (_ & _ & ns & H1 & H2). eauto using KidsOf_load.
Qed.

Lemma NRep_children_owned r p v cs : NRep r (T p v cs) ->
  exists o, r_load_children_owned rd r = Ok o /\
    match o with None => cs = [] | Some it => IRepT it cs end.
Proof.
  intros [_ (n & E & H)]. apply owned_view in E as (_ & _ & _ & ->).
  apply Rep_inv in H as (_ & _ & ns & H1 & H2). eauto using KidsOf_load_owned.
Qed.

Lemma Rep_NRep n t : Rep n t -> NRep (ROwned n) t.
Proof. intros H. split; [left; eauto|]. exists n. auto. Qed.

(* ------------------------------------------------------------------ *)
(** Iterators. *)

Lemma IRepT_nil it : IRepT it [] -> it_next it = None /\ it_first it = None.
Proof.
  intros [_ (ns & H & F)]. inversion F; subst. destruct it as [l|data]; cbn in *.
  - subst. auto.
  - inversion H; subst. auto.
Qed.

Lemma IRepT_cons it t cs : IRepT it (t :: cs) ->
  exists r it', it_next it = Some (r, it') /\ NRep r t /\ IRepT it' cs /\
    it_first it = Some (hd_error (tp t)).
Proof.
  intros [O (ns & H & F)]. inversion F as [|n ? ns' ? R F']; subst.
  destruct t as [p v ds]. pose proof (Rep_inv _ _ _ _ R) as (RP & _).
  destruct it as [l|data]; cbn in H.
  - subst l. exists (ROwned n), (IOwned ns'). cbn.
    split; [reflexivity|]. split; [apply Rep_NRep; exact R|].
    split; [split; [left; eexists; reflexivity|exists ns'; cbn; auto]|].
    unfold n_first. now rewrite (RepP_first _ _ RP).
  - inversion H as [|? b rest ? ? H1 H2 H3]; subst.
    exists (RBorrowed b), (IBorrowed rest). cbn. rewrite H1.
    assert (al) as A by (destruct O as [[l O]|O]; [discriminate|exact O]).
    split; [reflexivity|]. split; [split; [right; exact A|exists n; auto]|].
    split; [split; [right; exact A|exists ns'; cbn; auto]|].
    apply owned_view with (r := RBorrowed b) in H2 as (E & _). cbn in E. rewrite E.
    now rewrite (RepP_first _ _ RP).
Qed.

Lemma IRepT_single n t : Rep n t -> IRepT (IOwned [n]) [t].
Proof. intros H. split; [left; eauto|]. exists [n]. cbn. auto. Qed.

Lemma Rep_first n t : Rep n t -> n_first n = hd_error (tp t).
Proof.
  destruct t as [p v cs]. intros H. apply Rep_inv in H as (RP & _).
  now apply RepP_first.
Qed.

(* ------------------------------------------------------------------ *)
(** Node operations. *)

Lemma clone_shortened_ok n t k : Rep n t -> k <= length (tp t) ->
  exists n', clone_shortened rd n k = Ok n' /\ Rep n' (shorten k t) /\ blob_is_id (n_prefix n') = false.
Proof.
  destruct t as [p v cs]. intros H Hk. cbn [tp] in Hk.
  apply Rep_inv in H as (RP & RV & ns & RK & F).
  unfold clone_shortened. rewrite (RepP_load _ _ RP). cbn.
  rewrite slice_from_ok by assumption. cbn. eexists. split; [reflexivity|]. split; [|reflexivity].
  unfold shorten. cbn. eapply Rep_mk; cbn; eauto. now left.
Qed.

Lemma r_clone_shortened_ok r t k : NRep r t -> k <= length (tp t) ->
  okp al (r_clone_shortened rd r k)
    (fun n' => Rep n' (shorten k t) /\ blob_is_id (n_prefix n') = false).
Proof.
  intros [O (n & E & H)] Hk. destruct r as [m|b]; cbn in *.
  - injection E as ->. destruct (clone_shortened_ok _ _ _ H Hk) as (n' & -> & H').
    now apply okp_ok.
  - destruct O as [[? O]|O]; [discriminate|]. right. auto.
Qed.

Lemma split_ok n t k : Rep n t -> k <= length (tp t) ->
  exists n' m, split rd n k = Ok n' /\ n_kids n' = KArc [m] /\
    Rep m (shorten k t) /\ blob_is_id (n_prefix m) = false /\
    n_prefix n' = Data (firstn k (tp t)) /\ n_value n' = bnone.
Proof.
  destruct t as [p v cs]. intros H Hk. cbn [tp] in *.
  apply Rep_inv in H as (RP & RV & ns & RK & F).
  unfold split. rewrite (RepP_load _ _ RP). cbn.
  rewrite slice_from_ok, slice_to_ok by assumption. cbn.
  do 2 eexists. split; [reflexivity|]. cbn. split; [reflexivity|].
  split; [|auto]. unfold shorten. cbn. eapply Rep_mk; cbn; eauto. now left.
Qed.

Lemma read_field_shorter rest b rest' : read_field rest = Some (b, rest') ->
  length rest' < length rest.
Proof.
  destruct rest as [|h tl]; cbn [read_field]; [discriminate|].
  destruct (length tl <? hdr_len h); [discriminate|]. intros [= _ <-].
  cbn [length]. rewrite skipn_length. lia.
Qed.

Lemma read_one_shorter rest b rest' : read_one rest = Some (b, rest') ->
  length rest' + 3 <= length rest.
Proof.
  unfold read_one.
  destruct (read_field rest) as [[p r1]|] eqn:E1; [|discriminate].
  destruct (read_field r1) as [[v r2]|] eqn:E2; [|discriminate].
  destruct (read_field r2) as [[c r3]|] eqn:E3; [|discriminate].
  intros [= _ <-]. apply read_field_shorter in E1, E2, E3. lia.
Qed.

Lemma collect_owned_ok data ns : decode data ns ->
  forall fuel, length data < fuel -> collect_owned fuel data = Ok ns.
Proof.
  induction 1 as [|data b rest n ns H1 H2 H3 IH]; intros fuel Hf.
  - destruct fuel; [lia|]. reflexivity.
  - destruct fuel; [lia|]. cbn. rewrite H1, H2. cbn.
    apply read_one_shorter in H1. rewrite IH by lia. reflexivity.
Qed.

Lemma load_children_mut_ok n ns : KidsOf (n_kids n) ns -> load_children_mut rd n = Ok ns.
Proof.
  unfold load_children_mut. intros [->|[[-> ->]|(r & id & data & -> & H1 & H2 & H3)]]; try reflexivity.
  rewrite H1. cbn [bind]. apply collect_owned_ok; [assumption|lia].
Qed.

Lemma v_detached_ok b x : RepV b (Some x) -> okp al (v_detached b) (fun b' => b' = Data x).
Proof.
  intros [->|(c & id & -> & H)]; cbn.
  - now apply okp_ok.
  - right. split; [reflexivity|]. destruct Hdet as [D|]; [|assumption]. now destruct (D (c :: id) x).
Qed.
End Rep.

(** Enlarging the store keeps the meaning of nodes. *)
Lemma Rep_mono ids ids' (rd rd' : reader) n t :
  (forall id x, rd id = Ok x -> rd' id = Ok x) -> (ids = true -> ids' = true) ->
  Rep ids rd n t -> Rep ids' rd' n t.
Proof.
  intros Hrd Hids. revert n. induction t as [p v cs IH] using tree_ind'. intros n H.
  apply Rep_inv in H as (RP & RV & ns & RK & F).
  apply Rep_mk with (ns := ns).
  - destruct RP as [->|(I & c & id & q & -> & E & ->)]; [now left|].
    right. split; [auto|]. exists c, id, q. auto.
  - destruct v as [x|]; cbn in *; [|assumption].
    destruct RV as [->|(c & id & -> & E)]; [now left|]. right. eauto.
  - destruct RK as [->|[[-> ->]|(r & id & data & -> & E & D & N)]]; [now left|right; now left|].
    right; right. exists r, id, data. auto.
  - clear RK. revert ns F. induction IH as [|c cs Hc _ IHcs]; intros ns F; inversion F; subst; constructor; auto.
Qed.

Lemma det_detached : det detached_read.
Proof. intros id x. discriminate. Qed.

Lemma Rep_detached ids ids' rd n t : Rep ids detached_read n t -> Rep ids' rd n t.
Proof.
  revert n. induction t as [p v cs IH] using tree_ind'. intros n H.
  apply Rep_inv in H as (RP & RV & ns & RK & F).
  apply Rep_mk with (ns := ns).
  - destruct RP as [->|(I & c & id & q & -> & E & ->)]; [now left|discriminate].
  - destruct v as [x|]; cbn in *; [|assumption].
    destruct RV as [->|(c & id & -> & E)]; [now left|discriminate].
  - destruct RK as [->|[[-> ->]|(r & id & data & -> & E & D & N)]]; [now left|right; now left|discriminate].
  - clear RK. revert ns F. induction IH as [|c cs Hc _ IHcs]; intros ns F; inversion F; subst; constructor; auto.
Qed.

(** Detached nodes. *)
Definition DRep := Rep false detached_read.

Lemma DRep_tnil n t : DRep n t -> tnil t = false -> is_empty n = false.
Proof.
  destruct t as [p v cs]. intros H. apply Rep_inv in H as (RP & RV & ns & RK & F).
  unfold tnil, is_empty, has_value, is_leaf. cbn.
  pose proof (RepV_opt _ _ _ RV) as O.
  destruct v; [now rewrite O|]. rewrite O. cbn.
  destruct cs; [discriminate|]. intros _. inversion F; subst.
  destruct RK as [->|[[-> E]|(r & id & data & -> & E & D & N)]]; auto. discriminate.
Qed.

(** [is_empty] is right on every represented tree that is not empty. *)
Lemma Rep_tnil ids rd n t : Rep ids rd n t -> tnil t = false -> is_empty n = false.
Proof.
  destruct t as [p v cs]. intros H. apply Rep_inv in H as (RP & RV & ns & RK & F).
  unfold tnil, is_empty, has_value, is_leaf. cbn.
  pose proof (RepV_opt _ _ _ RV) as O.
  destruct v; [now rewrite O|]. rewrite O. cbn.
  destruct cs; [discriminate|]. intros _. inversion F; subst.
  destruct RK as [->|[[-> E]|(r & id & data & -> & E & D & N)]]; auto. discriminate.
Qed.

Lemma cc_tnil t : cc t -> tnil t = false.
Proof.
  intros H; inversion H as [p v cs Hp Hl Hs Hc]; subst. unfold tnil. cbn.
  destruct v; [reflexivity|]. destruct cs; [|reflexivity]. destruct Hl as [|Hl]; [congruence|cbn in Hl; lia].
Qed.

(* ------------------------------------------------------------------ *)
(** Detaching. *)
Section Detach.
Context (ids : bool) (rd : reader) (al : Prop).

(** [Hdet] is not needed: everything is loaded. *)
Lemma detach_loop_ok rec M : 
  (forall r t, NRep ids rd True r t -> size t <= M -> exists n, rec r = Ok n /\ DRep n t) ->
  forall cs fuel it, IRepT ids rd True it cs -> sizes cs <= M -> length cs < fuel ->
  exists ns, detach_loop rec fuel it = Ok ns /\ Forall2 DRep ns cs.
Proof.
  intros Hrec. induction cs as [|t cs IH]; intros fuel it H HM Hf.
  - destruct fuel; [lia|]. apply IRepT_nil in H as (H & _). cbn. rewrite H. eauto.
  - destruct fuel; [lia|]. apply IRepT_cons in H as (r & it' & H1 & H2 & H3 & _).
    cbn. rewrite H1. rewrite sizes_cons in HM. cbn in Hf.
    destruct (Hrec _ _ H2) as (n & -> & Hn); [lia|]. cbn.
    destruct (IH fuel it' H3) as (ns & -> & Hns); [lia|lia|]. cbn. eauto.
Qed.

Lemma NRep_weaken (al' : Prop) r t : (al -> al') -> NRep ids rd al r t -> NRep ids rd al' r t.
Proof. intros Ha [[O|O] H]; split; auto. Qed.

Lemma IRepT_weaken (al' : Prop) r t : (al -> al') -> IRepT ids rd al r t -> IRepT ids rd al' r t.
Proof. intros Ha [[O|O] H]; split; auto. Qed.

Lemma r_detached_True : forall fuel r t, NRep ids rd True r t -> size t < fuel ->
  exists n, r_detached rd fuel r = Ok n /\ DRep n t /\ blob_is_id (n_prefix n) = false.
Proof.
  induction fuel as [|fuel IH]; intros r [p v cs] H Hf; [lia|].
  rewrite size_T in Hf. cbn [r_detached].
  destruct H as [O (n & E & H)]. rewrite E. cbn [bind].
  pose proof (Rep_inv _ _ _ _ _ _ H) as (RP & RV & ns & RK & F).
  rewrite (RepP_load _ _ _ _ RP). cbn [bind]. rewrite (RepV_load _ _ _ RV). cbn [bind].
  destruct (KidsOf_load ids rd True (or_intror I) n ns cs RK F) as (o & -> & HO). cbn [bind].
  assert (RepV detached_read (opt_value (option_map Data v)) v) as RV'.
  { destruct v; cbn; auto. }
  destruct o as [it|].
  - destruct HO as [N HI].
    destruct (detach_loop_ok (r_detached rd fuel) (sizes cs)) with (cs := cs) (fuel := fuel) (it := it)
      as (xs & -> & Fx); auto.
    + intros r0 t0 H0 Hs0. destruct (IH r0 t0 H0) as (n0 & ? & ? & ?); [lia|]. eauto.
    + pose proof (sizes_length cs). lia.
    + cbn [bind]. eexists. split; [reflexivity|]. split; [|reflexivity].
      eapply Rep_mk; cbn; eauto; [now left|]. now left.
  - cbn in HO. subst cs. cbn [bind]. eexists. split; [reflexivity|]. split; [|reflexivity].
    eapply Rep_mk with (ns := []); cbn; eauto; [now left|]. right; left; auto.
Qed.

Lemma r_detached_ok fuel r t : NRep ids rd al r t -> size t < fuel ->
  exists n, r_detached rd fuel r = Ok n /\ DRep n t /\ blob_is_id (n_prefix n) = false.
Proof. intros H. apply r_detached_True. eapply NRep_weaken; [|exact H]. auto. Qed.

Lemma it_detached_ok fuel it cs : cs <> [] -> IRepT ids rd al it cs -> sizes cs < fuel ->
  okp al (it_detached rd fuel it) (fun o => exists ns, o = Some ns /\ Forall2 DRep ns cs).
Proof.
  intros N H Hf. unfold it_detached. destruct it as [l|data].
  - destruct H as [O (ns & E & F)]. cbn in E. subst l.
    destruct ns as [|m ns]; [inversion F; congruence|].
    destruct (detach_loop_ok (r_detached rd fuel) (sizes cs)) with (cs := cs) (fuel := fuel)
      (it := IOwned (m :: ns)) as (xs & -> & Fx).
    + intros r0 t0 H0 Hs0. destruct (r_detached_True fuel r0 t0 H0) as (n0 & ? & ? & ?); [lia|]. eauto.
    + split; [left; eauto|]. exists (m :: ns). cbn. auto.
    + lia.
    + pose proof (sizes_length cs). lia.
    + cbn. apply okp_ok. eauto.
  - destruct H as [O (ns & E & F)]. cbn in E.
    destruct data as [|b data].
    + apply decode_nil_inv in E. subst. inversion F; congruence.
    + right. split; [reflexivity|]. destruct O as [[? O]|O]; [discriminate|exact O].
Qed.
End Detach.

(* ------------------------------------------------------------------ *)
(** Canonicalize. *)

Definition merge_ok (n : node) : Prop :=
  match n_kids n with
  | KArc [c] => blob_is_id (n_prefix n) = false /\ blob_is_id (n_prefix c) = false
  | _ => True
  end.

Lemma RepP_noids rd b p : RepP false rd b p -> blob_is_id b = false.
Proof. intros [->|(H & _)]; [reflexivity|discriminate]. Qed.

Lemma RepP_data ids rd b p : RepP ids rd b p -> blob_is_id b = false -> b = Data p.
Proof. intros [->|(_ & c & id & q & -> & _)]; [reflexivity|discriminate]. Qed.

Lemma Rep_noids_merge rd n t : Rep false rd n t -> merge_ok n.
Proof.
  destruct t as [p v cs]. intros H. apply Rep_inv in H as (RP & RV & ns & RK & F).
  unfold merge_ok. destruct (n_kids n) as [[|c [|c2 l]]|] eqn:E; auto.
  split; [eapply RepP_noids; eauto|].
  destruct RK as [[= <-]|[[K _]|(r & id & data & K & _)]]; try discriminate.
  inversion F as [|? [p' v' cs'] ? ? R F']; subst. apply Rep_inv in R as (RP' & _).
  eapply RepP_noids; eauto.
Qed.

Lemma canonicalize_ok ids rd dbg n p v cs :
  Rep ids rd n (T p v cs) -> Forall cc cs ->
  (n_kids n = KId [] \/ exists ns, n_kids n = KArc ns) ->
  (v = None -> merge_ok n) ->
  exists n', canonicalize dbg n = Ok n' /\ Rep ids rd n' (mk p v cs) /\
    is_empty n' = tnil (mk p v cs).
Proof.
  intros H Hcc HL HM. pose proof (Rep_inv _ _ _ _ _ _ H) as (RP & RV & ns & RK & F).
  pose proof (RepV_opt _ _ _ RV) as O.
  destruct n as [pb vb kb]. cbn [n_prefix n_value n_kids] in *.
  assert (kb = KArc ns \/ (kb = KId [] /\ ns = [])) as RK'.
  { destruct RK as [->|[[-> ->]|(r & id & data & -> & _)]]; auto.
    destruct HL as [HL|[? HL]]; discriminate. }
  unfold canonicalize. cbn [n_kids n_value n_prefix].
  assert (dbg && negb (match kb with KArc _ => true | KId [] => true | KId _ => false end) = false) as ->.
  { destruct RK' as [->|[-> _]]; cbn; now rewrite andb_false_r. }
  destruct v as [x|].
  - (* a value: nothing happens *)
    rewrite O. cbn [bind]. unfold has_value at 1. cbn [n_value]. rewrite O. cbn [negb andb].
    eexists. split; [reflexivity|]. split; [exact H|]. unfold is_empty, has_value. cbn. now rewrite O.
  - rewrite O. cbn in RV. subst vb.
    destruct RK' as [->|[-> ->]].
    + destruct ns as [|c [|c2 ns]]; inversion F as [|? t ? cs' R F']; subst.
      * cbn. eexists. split; [reflexivity|]. split; [|reflexivity].
        eapply Rep_mk with (ns := []); cbn; eauto; [now left|]. right; left; auto.
      * inversion F'; subst. specialize (HM eq_refl). cbn in HM. destruct HM as [M1 M2].
        rewrite M1, M2. cbn [orb]. rewrite andb_false_r. cbn [bind].
        destruct t as [q w ds]. pose proof (Rep_inv _ _ _ _ _ _ R) as (RP2 & RV2 & ns2 & RK2 & F2).
        rewrite (RepP_data _ _ _ _ RP M1), (RepP_data _ _ _ _ RP2 M2). cbn [blob_slice].
        pose proof (RepV_opt _ _ _ RV2) as O2.
        inversion Hcc as [|? ? Hc _]; subst. pose proof (cc_tnil _ Hc) as Nt.
        assert (mk p None [T q w ds] = T (p ++ q) w ds) as ->.
        { cbn. unfold tnil in Nt. cbn in Nt. destruct w, ds; try reflexivity. discriminate. }
        assert (Rep ids rd (Node (Data (p ++ q)) (n_value c) (n_kids c)) (T (p ++ q) w ds)) as HR.
        { eapply Rep_mk; cbn; eauto. now left. }
        assert (negb (has_value (Node (Data (p ++ q)) (n_value c) (n_kids c))) &&
          (child_count (Node (Data (p ++ q)) (n_value c) (n_kids c)) =? 0) = false) as ->.
        { unfold has_value. cbn. destruct w; [rewrite O2; reflexivity|]. rewrite O2. cbn.
          destruct ds; [discriminate|]. inversion F2; subst. unfold child_count. cbn.
          destruct RK2 as [->|[[-> ?]|(r & id & data & -> & _)]]; cbn; auto. discriminate. }
        eexists. split; [reflexivity|]. split; [exact HR|].
        assert (tnil (T (p ++ q) w ds) = false) as Nt2.
        { destruct w, ds; auto. }
        rewrite Nt2. eapply Rep_tnil; eauto.
      * inversion F'; subst.
        destruct t. cbn. eexists. split; [reflexivity|]. split; [exact H|reflexivity].
    + inversion F; subst. cbn. eexists. split; [reflexivity|]. split; [|reflexivity].
      eapply Rep_mk with (ns := []); cbn; eauto; now left.
Qed.

Lemma mk_croot t : croot t -> mk (tp t) (tv t) (tc t) = t.
Proof.
  intros [->|(Hl & _)]; [reflexivity|]. destruct t as [p v cs]. cbn in *.
  destruct v; [reflexivity|]. destruct Hl as [|Hl]; [congruence|].
  destruct cs as [|c [|c2 cs]]; cbn in Hl; try lia. cbn. now destruct c.
Qed.

(** Canonicalizing a canonical tree: the debug assertion fails when the children
    have not been loaded. *)
Lemma canonicalize_same ids rd (al : Prop) dbg n t :
  Rep ids rd n t -> croot t ->
  (dbg = true -> det rd \/ al) ->
  okp al (canonicalize dbg n) (fun n' => Rep ids rd n' t /\ is_empty n' = tnil t).
Proof.
  intros H Hr Hal. destruct t as [p v cs].
  pose proof (Rep_inv _ _ _ _ _ _ H) as (RP & RV & ns & RK & F).
  assert ((n_kids n = KId [] \/ exists ns, n_kids n = KArc ns) \/
          exists r id data, n_kids n = KId (r :: id) /\ rd id = Ok data) as [L|(r & id & data & E & D)].
  { destruct RK as [->|[[-> ->]|(r & id & data & -> & ? & _)]]; eauto 8. }
  - left. destruct (canonicalize_ok ids rd dbg n p v cs H) as (n' & E & R & Em); auto.
    + exact (proj2 (croot_kids _ Hr)).
    + intros ->. unfold merge_ok. destruct (n_kids n) as [[|c [|c2 l]]|] eqn:E; auto.
      exfalso. destruct RK as [[= <-]|[[K _]|(r & id & data & K & _)]]; try discriminate.
      inversion F as [|? ? ? ? _ F']; subst. inversion F'; subst.
      destruct Hr as [?|([?|Hl] & _)]; cbn in *; try discriminate; try congruence; lia.
    + assert (mk p v cs = T p v cs) as M by (apply (mk_croot _ Hr)). rewrite M in *. eauto.
  - unfold canonicalize. rewrite E. cbn [negb]. rewrite andb_true_r.
    destruct dbg.
    + right. split; [reflexivity|]. destruct (Hal eq_refl) as [Dt|]; [now destruct (Dt id data)|assumption].
    + assert (canonicalize false n = Ok n) as En.
      { unfold canonicalize. rewrite E. cbn. destruct (blob_opt (n_value n)); cbn; unfold child_count; rewrite E;
        cbn; rewrite andb_false_r; reflexivity. }
      unfold canonicalize in En. rewrite E in En. cbn [negb andb] in En. rewrite En.
      apply okp_ok. split; [exact H|].
      assert (tnil (T p v cs) = false) as Nt; [|rewrite Nt; eapply Rep_tnil; eauto].
      unfold tnil. cbn. destruct v; [reflexivity|]. destruct cs; [|reflexivity].
      inversion F; subst. destruct RK as [K|[[K _]|(r' & id' & data' & _ & _ & _ & K)]]; congruence.
Qed.
