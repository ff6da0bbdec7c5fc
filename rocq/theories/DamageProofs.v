(** Reading and changing trees on stores whose contents are damaged does not panic. *)
From Verif Require Import Base Header Node Combine Iter Api Spec Client BaseLemmas Store DamageSpec.

Definition np {A} (P : A -> Prop) (r : res A) : Prop := match r with Ok a => P a | Panic => False | _ => True end.
Lemma np_bind {A B} (P : A -> Prop) (Q : B -> Prop) r (k : A -> res B) : np P r -> (forall a, r = Ok a -> P a -> np Q (k a)) -> np Q (bind r k).
Proof. destruct r as [a| | |]; cbn; intros H K; auto. Qed.
Lemma np_weak {A} (P Q : A -> Prop) r : np P r -> (forall a, P a -> Q a) -> np Q r.
Proof. destruct r; cbn; auto. Qed.
Lemma np_panic {A} (P : A -> Prop) r : np P r -> r <> Panic.
Proof. intros H ->. exact H. Qed.
Lemma panic_np {A} (r : res A) : r <> Panic -> np (fun _ => True) r.
Proof. destruct r; cbn; auto. Qed.

Section Store.
Context (rd : reader) (C : bytes -> Prop) (T : tolerable rd C).
Notation prefix_ok := (prefix_ok rd).
Notation value_ok := (value_ok rd).
Notation children_ok := (children_ok rd C).
Notation record_ok := (record_ok rd C).
Notation node_ok := (node_ok rd C).

Definition ref_ok (r : noderef) : Prop := match r with ROwned n => node_ok n | RBorrowed b => record_ok b end.
Definition it_ok (it : iter) : Prop :=
  match it with IOwned ns => forall n, In n ns -> node_ok n | IBorrowed data => forall b, record_in data b -> record_ok b end.
Definition oit_ok (o : option iter) : Prop := match o with Some it => it_ok it | None => True end.
Definition kids_ok (ns : list node) : Prop := forall n, In n ns -> node_ok n.

Lemma node_prefix n : node_ok n -> prefix_ok (n_prefix n).
Proof. intros []; assumption. Qed.
Lemma node_value n : node_ok n -> value_ok (n_value n).
Proof. intros []; assumption. Qed.
Lemma ref_prefix r : ref_ok r -> prefix_ok (r_prefix r).
Proof. destruct r as [n|b]; [apply node_prefix|now intros []]. Qed.
Lemma blob_opt_ok v x : value_ok v -> blob_opt v = Some x -> value_ok x /\ x <> Id [].
Proof. destruct v as [b|[|c b]]; cbn [blob_opt]; intros H E; try discriminate E; injection E as <-; split; auto; discriminate. Qed.
Lemma ref_value r x : ref_ok r -> r_value_opt r = Some x -> value_ok x /\ x <> Id [].
Proof.
  destruct r as [n|b]; cbn [ref_ok r_value_opt].
  - intros H. apply blob_opt_ok. now apply node_value.
  - intros (_ & H & _). now apply blob_opt_ok.
Qed.
Lemma prefix_np p : prefix_ok p -> np (fun _ => True) (load_prefix rd p).
Proof. destruct p as [x|[|c id]]; cbn; [auto|auto|]. apply panic_np. Qed.
Lemma load_np x : value_ok x -> x <> Id [] -> np (fun _ => True) (value_load rd x).
Proof. destruct x as [b|[|c b]]; cbn; [auto|congruence|]. intros H _. now apply panic_np. Qed.
Lemma value_np v : value_ok v -> np (fun _ => True) (load_value rd v).
Proof. destruct v as [b|[|c b]]; cbn; auto. intros H. destruct (rd (c :: b)); cbn; auto. Qed.
Lemma itload_np c : children_ok c -> np oit_ok (it_load rd c).
Proof.
  destruct c as [|x id]; cbn; [auto|]. intros [H K]. destruct (rd id) as [data| | |] eqn:E; cbn; auto.
  intros b Hb. exact (T id data b K E Hb).
Qed.
Lemma children_np n : node_ok n -> np oit_ok (load_children rd n).
Proof.
  intros [p v c Hp Hv Hc|p v ns Hp Hv Hn]; cbn [load_children n_kids].
  - now apply itload_np.
  - destruct ns; cbn; auto.
Qed.
Lemma children_owned_np n : node_ok n -> np oit_ok (load_children_owned rd n).
Proof.
  intros [p v c Hp Hv Hc|p v ns Hp Hv Hn]; cbn [load_children_owned n_kids].
  - now apply itload_np.
  - cbn. auto.
Qed.
Lemma b_children_np b : record_ok b -> np oit_ok (b_load_children rd b).
Proof.
  intros (_ & _ & c & E & H). unfold b_load_children. rewrite E. destruct c; [cbn; auto|]. now apply itload_np.
Qed.
Lemma rchildren_np r : ref_ok r -> np oit_ok (r_load_children rd r).
Proof. destruct r; [apply children_np|apply b_children_np]. Qed.
Lemma rchildren_owned_np r : ref_ok r -> np oit_ok (r_load_children_owned rd r).
Proof. destruct r; [apply children_owned_np|apply b_children_np]. Qed.
Lemma b_owned_np b : record_ok b -> np node_ok (b_to_owned b).
Proof. intros (Hp & Hv & c & E & H). unfold b_to_owned. rewrite E. cbn. now constructor. Qed.
Lemma owned_np r : ref_ok r -> np node_ok (r_to_owned r).
Proof. destruct r; [cbn; auto|apply b_owned_np]. Qed.

Lemma next_ok it r it' : it_ok it -> it_next it = Some (r, it') -> ref_ok r /\ it_ok it'.
Proof.
  destruct it as [[|n ns]|data]; cbn; [discriminate| |].
  - intros H [= <- <-]. cbn. split; [apply H; now left|]. intros x Hx. apply H. now right.
  - intros H. destruct (read_one data) as [[b rest]|] eqn:E; [|discriminate]. intros [= <- <-]. cbn. split.
    + apply H. now apply (ri_first _ _ rest).
    + intros x Hx. apply H. now apply (ri_later _ b rest).
Qed.
Lemma bsearch_in ns c : forall fuel l r n, bsearch ns c fuel l r = Some n -> In n ns.
Proof.
  induction fuel as [|fuel IH]; intros l r n; cbn [bsearch]; [discriminate|].
  destruct (l <? r); [|discriminate]. destruct (nth_error ns (l + (r - l) / 2)) as [x|] eqn:E; [|discriminate].
  destruct (cmp_ob (n_first x) (Some c)); [intros [= <-]; now apply nth_error_In in E|apply IH|apply IH].
Qed.
Lemma find_borrowed_in c : forall fuel data b, find_borrowed fuel data c = Some b -> record_in data b.
Proof.
  induction fuel as [|fuel IH]; intros data b; cbn [find_borrowed]; [discriminate|].
  destruct (read_one data) as [[x rest]|] eqn:E; [|discriminate].
  destruct (cmp_ob (first_byte (b_prefix x)) (Some c)); [intros [= <-]; now apply (ri_first _ _ rest)|intros H; apply (ri_later _ x rest); auto|discriminate].
Qed.
Lemma last_borrowed_in : forall fuel data acc b, last_borrowed fuel data acc = Some b -> acc = Some b \/ record_in data b.
Proof.
  induction fuel as [|fuel IH]; intros data acc b; cbn [last_borrowed]; [auto|].
  destruct (read_one data) as [[x rest]|] eqn:E; [|auto]. intros H. destruct (IH _ _ _ H) as [[= ->]|K]; right.
  - now apply (ri_first _ _ rest).
  - now apply (ri_later _ x rest).
Qed.
Lemma last_borrowed_some : forall fuel data acc, acc <> None -> last_borrowed fuel data acc <> None.
Proof. induction fuel as [|fuel IH]; intros data acc H; cbn [last_borrowed]; [auto|]. destruct (read_one data) as [[x rest]|]; [apply IH; discriminate|auto]. Qed.
Lemma find_ok it c r : it_ok it -> it_find it c = Some r -> ref_ok r.
Proof.
  destruct it as [ns|data]; cbn [it_find it_ok]; intros H.
  - unfold find_owned. destruct (if length ns =? 256 then _ else _) as [n|] eqn:E; [|discriminate]. intros [= <-]. cbn. apply H.
    destruct (length ns =? 256); [now apply nth_error_In in E|now apply bsearch_in in E].
  - destruct (find_borrowed (S (length data)) data c) as [b|] eqn:E; [|discriminate]. intros [= <-]. cbn. apply H. now apply find_borrowed_in in E.
Qed.
Lemma last_ok it r : it_ok it -> it_last it = Some r -> ref_ok r.
Proof.
  destruct it as [ns|data]; cbn [it_last it_ok]; intros H.
  - destruct (nth_error ns (length ns - 1)) as [n|] eqn:E; [|discriminate]. intros [= <-]. cbn. apply H. now apply nth_error_In in E.
  - destruct (last_borrowed (S (length data)) data None) as [b|] eqn:E; [|discriminate]. intros [= <-]. cbn. apply H.
    destruct (last_borrowed_in _ _ _ _ E) as [|]; [discriminate|assumption].
Qed.

(** ** Searching *)
Definition found_ok (prefix : bytes) (x : find_result) : Prop :=
  match x with
  | Found r => ref_ok r
  | Prefix r n => ref_ok r /\ exists tp, load_prefix rd (r_prefix r) = Ok tp /\ n <= length tp
  | NotFound => True
  end.
Lemma find_np : forall fuel r prefix, ref_ok r -> np (found_ok prefix) (find rd fuel r prefix).
Proof.
  induction fuel as [|fuel IH]; intros r prefix H; cbn [find]; [exact Logic.I|].
  eapply np_bind; [apply prefix_np; now apply ref_prefix|]. intros tp Etp _. cbv zeta.
  set (n := common_prefix tp prefix). pose proof (common_prefix_le_l tp prefix) as Hl. pose proof (common_prefix_le_r tp prefix) as Hr. fold n in Hl, Hr.
  destruct (length prefix - n =? 0) eqn:E1; cbn [andb].
  - destruct (length tp - n =? 0); cbn; [assumption|]. split; [assumption|]. exists tp. auto.
  - destruct (length tp - n =? 0); cbn [andb]; [|exact Logic.I]. apply Nat.eqb_neq in E1.
    destruct (nth_error prefix n) as [c|] eqn:E; [|apply nth_error_None in E; lia].
    eapply np_bind; [now apply rchildren_np|]. intros [it|] _ Hit; cbn; [|exact Logic.I].
    destruct (it_find it c) as [child|] eqn:Ef; [|exact Logic.I].
    eapply np_weak; [apply IH; now apply (find_ok it c)|]. intros [q|q m|]; cbn; auto.
Qed.
Lemma get_np n k : node_ok n -> forall fuel, np (fun o => forall x, o = Some x -> value_ok x /\ x <> Id []) (t_get rd n k fuel).
Proof.
  intros H fuel. unfold t_get, get. eapply np_bind; [apply (find_np fuel (ROwned n) k H)|]. intros [r|r m|] _ Hr; cbn; try discriminate.
  intros x. now apply ref_value.
Qed.
Lemma load_opt_np o : (forall x, o = Some x -> value_ok x /\ x <> Id []) -> np (fun _ => True) (load_opt rd o).
Proof.
  destruct o as [x|]; cbn; intros H; [|exact Logic.I]. destruct (H x eq_refl) as [Hv Hn].
  eapply np_bind; [now apply load_np|]. intros; exact Logic.I.
Qed.
Lemma to_owned_prefix r m s : ref_ok r -> r_to_owned r = Ok m -> node_ok (set_prefix_slice m s).
Proof.
  intros H E. pose proof (owned_np r H) as K. rewrite E in K. cbn in K.
  destruct K; unfold set_prefix_slice; cbn [n_value n_kids]; constructor; cbn; auto.
Qed.
Lemma filter_np n p s : node_ok n -> forall fuel, np node_ok (t_filter_prefix rd n p s fuel).
Proof.
  intros H fuel. unfold t_filter_prefix, filter_prefix. eapply np_bind; [apply (find_np fuel (ROwned n) p H)|]. intros [r|r m|] _ Hr; cbn [found_ok] in Hr.
  - eapply np_bind; [now apply owned_np|]. intros x Ex _. cbn. now apply (to_owned_prefix r).
  - destruct Hr as (Hr & tp & Etp & Hm). rewrite Etp. cbn [bind].
    eapply np_bind; [now apply owned_np|]. intros x Ex _. unfold slice_from. destruct (Nat.leb_spec m (length tp)); [|lia]. cbn.
    now apply (to_owned_prefix r).
  - cbn. constructor; cbn; auto.
Qed.

(** ** The ends *)
Lemma children_next (L : legible rd C) r : ref_ok r -> np (fun o => match o with Some it => it_ok it /\ it_next it <> None /\ it_last it <> None | None => True end) (r_load_children rd r).
Proof.
  assert (forall c, children_ok c -> np (fun o => match o with Some it => it_ok it /\ it_next it <> None /\ it_last it <> None | None => True end) (it_load rd c)) as Hi.
  { intros [|x id]; cbn; [auto|]. intros [H K]. destruct (rd id) as [data| | |] eqn:E; cbn; auto.
    split; [intros b Hb; exact (T id data b K E Hb)|]. pose proof (L id data K E) as Hd.
    destruct (read_one data) as [[b rest]|] eqn:Er; [|contradiction]. split; [discriminate|].
    pose proof (last_borrowed_some (length data) rest (Some b) ltac:(discriminate)) as Hs.
    destruct (last_borrowed (length data) rest (Some b)); [discriminate|contradiction]. }
  destruct r as [n|b]; cbn [r_load_children ref_ok].
  - intros [p v c Hp Hv Hc|p v ns Hp Hv Hn]; cbn [load_children n_kids]; [now apply Hi|].
    destruct ns as [|n0 ns]; [exact Logic.I|]. cbn -[it_last]. split; [exact Hn|]. split; [discriminate|].
    cbn. rewrite Nat.sub_0_r. destruct (nth_error (n0 :: ns) (length ns)) eqn:E; [discriminate|]. apply nth_error_None in E. cbn in E. lia.
  - intros (_ & _ & c & E & H). unfold b_load_children. rewrite E. destruct c; [cbn; auto|]. now apply Hi.
Qed.
Lemma first_value_np (L : legible rd C) : forall fuel r, ref_ok r -> np (fun o => forall x, o = Some x -> value_ok x /\ x <> Id []) (first_value rd fuel r).
Proof.
  induction fuel as [|fuel IH]; intros r H; cbn [first_value]; [exact Logic.I|]. destruct (r_value_opt r) as [v|] eqn:Ev.
  - cbn. intros x [= <-]. now apply (ref_value r).
  - eapply np_bind; [now apply children_next|]. intros [it|] _ Hit; [|cbn; discriminate]. destruct Hit as (Hi & Hn & _).
    destruct (it_next it) as [[c it']|] eqn:En; [|contradiction]. apply IH. apply (next_ok it c it' Hi En).
Qed.
Lemma last_value_np (L : legible rd C) : forall fuel r, ref_ok r -> np (fun o => forall x, o = Some x -> value_ok x /\ x <> Id []) (last_value rd fuel r).
Proof.
  induction fuel as [|fuel IH]; intros r H; cbn [last_value]; [exact Logic.I|].
  eapply np_bind; [now apply children_next|]. intros [it|] _ Hit; [|cbn; intros x; now apply ref_value]. destruct Hit as (Hi & _ & Hn).
  destruct (it_last it) as [c|] eqn:En; [|contradiction]. apply IH. apply (last_ok it c Hi En).
Qed.
Definition entry_ok (o : option (bytes * blob)) : Prop := forall k x, o = Some (k, x) -> value_ok x /\ x <> Id [].
Lemma first_entry_np (L : legible rd C) : forall fuel p r, ref_ok r -> np entry_ok (first_entry rd fuel p r).
Proof.
  induction fuel as [|fuel IH]; intros p r H; cbn [first_entry]; [exact Logic.I|].
  eapply np_bind; [apply prefix_np; now apply ref_prefix|]. intros tp _ _. cbv zeta. destruct (r_value_opt r) as [v|] eqn:Ev.
  - cbn. intros k x [= <- <-]. now apply (ref_value r).
  - eapply np_bind; [now apply children_next|]. intros [it|] _ Hit; [|cbn; intros k x; discriminate]. destruct Hit as (Hi & Hn & _).
    destruct (it_next it) as [[c it']|] eqn:En; [|contradiction]. apply IH. apply (next_ok it c it' Hi En).
Qed.
Lemma last_entry_np (L : legible rd C) : forall fuel p r, ref_ok r -> np entry_ok (last_entry rd fuel p r).
Proof.
  induction fuel as [|fuel IH]; intros p r H; cbn [last_entry]; [exact Logic.I|].
  eapply np_bind; [apply prefix_np; now apply ref_prefix|]. intros tp _ _. cbv zeta.
  eapply np_bind; [now apply children_next|]. intros [it|] _ Hit.
  - destruct Hit as (Hi & _ & Hn). destruct (it_last it) as [c|] eqn:En; [|contradiction]. apply IH. apply (last_ok it c Hi En).
  - cbn. intros k x. destruct (r_value_opt r) eqn:E; [|discriminate]. cbn. intros [= <- <-]. now apply (ref_value r).
Qed.
Lemma load_entry_np o : entry_ok o -> np (fun _ => True) (load_entry rd o).
Proof.
  destruct o as [[k x]|]; cbn; intros H; [|exact Logic.I]. destruct (H k x eq_refl) as [Hv Hn].
  eapply np_bind; [now apply load_np|]. intros; exact Logic.I.
Qed.

(** ** Iterators *)
Lemma collect_np {S A} (J : S -> Prop) (P : A -> Prop) (next : nat -> S -> res (yielded A * S)) :
  (forall fuel s, J s -> np (fun x => J (snd x) /\ forall a, fst x = YItem a -> P a) (next fuel s)) ->
  forall fuel s, J s -> np (Forall P) (collect next fuel s).
Proof.
  intros Hn. induction fuel as [|fuel IH]; intros s Hs; cbn [collect]; [exact Logic.I|].
  eapply np_bind; [now apply Hn|]. intros [y s'] _ [Hs' Hy]. cbn in Hs', Hy. destruct y as [|a|]; cbn; auto.
  eapply np_bind; [now apply IH|]. intros l _ Hl. cbn. auto.
Qed.
Definition loadable (x : blob) : Prop := value_ok x /\ x <> Id [].
Lemma vi_np : forall fuel s, Forall it_ok s -> np (fun x => Forall it_ok (snd x) /\ forall a, fst x = Some a -> loadable a) (vi_next0 rd fuel s).
Proof.
  induction fuel as [|fuel IH]; intros s H; cbn [vi_next0]; [exact Logic.I|].
  destruct s as [|it rest]; [cbn; split; [constructor|discriminate]|]. inversion H as [|? ? Hi Hr]; subst.
  destruct (it_next it) as [[t it']|] eqn:En; [|now apply IH]. destruct (next_ok _ _ _ Hi En) as [Ht Hi'].
  eapply np_bind; [now apply rchildren_owned_np|]. intros ch _ Hc. cbv zeta.
  assert (Forall it_ok (match ch with Some c => c :: it' :: rest | None => it' :: rest end)) as Hs by (destruct ch; repeat constructor; auto).
  destruct (r_value_opt t) as [v|] eqn:Ev; [|now apply IH]. cbn. split; [exact Hs|]. intros a [= <-]. now apply (ref_value t).
Qed.
Lemma vi_next_np fuel s : Forall it_ok s -> np (fun x => Forall it_ok (snd x) /\ forall a, fst x = YItem a -> loadable a) (vi_next rd fuel s).
Proof.
  intros H. unfold vi_next. pose proof (vi_np fuel s H) as K. destruct (vi_next0 rd fuel s) as [[[v|] s']| | |]; cbn in *.
  - destruct K as [K1 K2]. split; [exact K1|]. intros a [= <-]. now apply K2.
  - split; [apply K|discriminate].
  - split; [constructor|discriminate].
  - exact K.
  - exact Logic.I.
Qed.
Definition frame_ok (x : nat * option iter) : Prop := oit_ok (snd x).
Definition kv_ok (s : kv_iter) : Prop := Forall frame_ok (kv_stack s).
Lemma kv_np : forall fuel s, kv_ok s -> np (fun x => kv_ok (snd x) /\ forall k a, fst x = Some (k, a) -> loadable a) (kv_next0 rd fuel s).
Proof.
  unfold kv_ok. induction fuel as [|fuel IH]; intros s H; cbn [kv_next0]; [exact Logic.I|].
  destruct (kv_stack s) as [|[len [it|]] rest] eqn:Es.
  - cbn. rewrite Es. split; [constructor|discriminate].
  - inversion H as [|? ? Hi Hr]; subst. cbn in Hi. destruct (it_next it) as [[t it']|] eqn:En.
    + destruct (next_ok _ _ _ Hi En) as [Ht Hi']. eapply np_bind; [apply prefix_np; now apply ref_prefix|]. intros p _ _.
      eapply np_bind; [now apply rchildren_owned_np|]. intros ch _ Hc. cbv zeta.
      assert (Forall frame_ok ((length p, ch) :: (len, Some it') :: rest)) as Hs by (repeat constructor; auto).
      destruct (r_value_opt t) as [v|] eqn:Ev.
      * cbn. split; [exact Hs|]. intros k a [= <- <-]. now apply (ref_value t).
      * apply IH. exact Hs.
    + apply IH. cbn. repeat constructor; auto.
  - inversion H as [|? ? Hi Hr]; subst. apply IH. exact Hr.
Qed.
Lemma kv_next_np fuel s : kv_ok s -> np (fun x => kv_ok (snd x) /\ forall a, fst x = YItem a -> loadable (snd a)) (kv_next rd fuel s).
Proof.
  intros H. unfold kv_next. pose proof (kv_np fuel s H) as K. destruct (kv_next0 rd fuel s) as [[[[k v]|] s']| | |]; cbn in *.
  - destruct K as [K1 K2]. split; [exact K1|]. intros a [= <-]. now apply (K2 k).
  - split; [apply K|discriminate].
  - split; [constructor|discriminate].
  - exact K.
  - exact Logic.I.
Qed.
Lemma gb_np d : (forall p r, d p r <> Panic) -> forall fuel s, kv_ok s -> np (fun x => kv_ok (snd x)) (gb_next0 rd d fuel s).
Proof.
  unfold kv_ok. intros Hd. induction fuel as [|fuel IH]; intros s H; cbn [gb_next0]; [exact Logic.I|].
  destruct (kv_stack s) as [|[len [it|]] rest] eqn:Es.
  - cbn. rewrite Es. constructor.
  - inversion H as [|? ? Hi Hr]; subst. cbn in Hi. destruct (it_next it) as [[t it']|] eqn:En.
    + destruct (next_ok _ _ _ Hi En) as [Ht Hi']. eapply np_bind; [apply prefix_np; now apply ref_prefix|]. intros p _ _. cbv zeta.
      eapply np_bind; [apply panic_np; apply Hd|]. intros b _ _. destruct b.
      * eapply np_bind; [now apply rchildren_owned_np|]. intros ch _ Hc. cbv zeta.
        assert (Forall frame_ok ((length p, ch) :: (len, Some it') :: rest)) as Hs by (repeat constructor; auto).
        destruct (r_value_opt t) as [v|] eqn:Ev; [|apply IH; exact Hs].
        eapply np_bind; [now apply owned_np|]. intros n _ _. exact Hs.
      * eapply np_bind; [now apply owned_np|]. intros n _ _. cbn. repeat constructor; auto.
    + apply IH. cbn. repeat constructor; auto.
  - inversion H as [|? ? Hi Hr]; subst. apply IH. exact Hr.
Qed.
Lemma gb_next_np d : (forall p r, d p r <> Panic) -> forall fuel s, kv_ok s -> np (fun x => kv_ok (snd x) /\ forall a, fst x = YItem a -> True) (gb_next rd d fuel s).
Proof.
  intros Hd fuel s H. unfold gb_next. pose proof (gb_np d Hd fuel s H) as K. destruct (gb_next0 rd d fuel s) as [[[v|] s']| | |]; cbn in *; auto.
  split; [constructor|auto].
Qed.
Lemma kv_new_ok n : node_ok n -> kv_ok (kv_new n).
Proof. intros H. repeat constructor. cbn. intros x [<-|[]]. exact H. Qed.
Lemma load_values_np l : Forall loadable l -> np (fun _ => True) (load_values rd l).
Proof.
  induction 1 as [|x l [Hv Hn] _ IH]; cbn [load_values]; [exact Logic.I|]. eapply np_bind; [now apply load_np|]. intros v _ _.
  eapply np_bind; [exact IH|]. intros; exact Logic.I.
Qed.
Lemma load_entries_np l : Forall (fun a => loadable (snd a)) l -> np (fun _ => True) (load_entries rd l).
Proof.
  induction 1 as [|[k x] l [Hv Hn] _ IH]; cbn [load_entries]; [exact Logic.I|]. cbn in Hv, Hn. eapply np_bind; [now apply load_np|]. intros v _ _.
  eapply np_bind; [exact IH|]. intros; exact Logic.I.
Qed.
Lemma scan_np n p : node_ok n -> forall fuel, np kv_ok (scan_prefix rd fuel n p).
Proof.
  intros H fuel. unfold scan_prefix. eapply np_bind; [apply (find_np fuel (ROwned n) p H)|]. intros [r|r m|] _ Hr; cbn [found_ok] in Hr.
  - eapply np_bind; [now apply owned_np|]. intros x _ Hx. cbn. now apply kv_new_ok.
  - destruct Hr as (Hr & _). eapply np_bind; [now apply owned_np|]. intros x _ Hx. unfold slice_to.
    destruct (Nat.leb_spec (length p - m) (length p)); [|lia]. cbn. now apply kv_new_ok.
  - cbn. constructor.
Qed.
Lemma detach_loop_np rec : (forall r, ref_ok r -> np (fun _ => True) (rec r)) -> forall fuel it, it_ok it -> np (fun _ => True) (detach_loop rec fuel it).
Proof.
  intros Hr. induction fuel as [|fuel IH]; intros it H; cbn [detach_loop]; [exact Logic.I|].
  destruct (it_next it) as [[t it']|] eqn:En; [|exact Logic.I]. destruct (next_ok _ _ _ H En) as [Ht Hi'].
  eapply np_bind; [now apply Hr|]. intros x _ _. eapply np_bind; [now apply IH|]. intros; exact Logic.I.
Qed.
Lemma detached_np : forall fuel r, ref_ok r -> np (fun _ => True) (r_detached rd fuel r).
Proof.
  induction fuel as [|fuel IH]; intros r H; cbn [r_detached]; [exact Logic.I|].
  eapply np_bind; [now apply owned_np|]. intros n _ Hn. eapply np_bind; [apply prefix_np; now apply node_prefix|]. intros p _ _.
  eapply np_bind; [apply value_np; now apply node_value|]. intros v _ _. eapply np_bind; [now apply children_np|]. intros [it|] _ Hc; [|exact Logic.I].
  eapply np_bind; [apply detach_loop_np; [apply IH|exact Hc]|]. intros; exact Logic.I.
Qed.

Theorem damaged_reads t A (f : nat -> res A) : node_ok t -> reading rd t A f -> forall fuel, f fuel <> Panic.
Proof.
  intros H R fuel. apply (np_panic (fun _ => True)). destruct R.
  - unfold get_bytes. eapply np_bind; [now apply get_np|]. intros o _ Ho. now apply load_opt_np.
  - unfold t_contains_key, contains_key. eapply np_bind; [apply (find_np fuel (ROwned t) k H)|]. intros; exact Logic.I.
  - unfold t_has_prefix, has_prefix. eapply np_bind; [apply (find_np fuel (ROwned t) p H)|]. intros; exact Logic.I.
  - unfold iter_bytes, t_iter. eapply np_bind; [apply (collect_np kv_ok (fun a => loadable (snd a)) _ kv_next_np); now apply kv_new_ok|]. intros l _ Hl. now apply load_entries_np.
  - unfold values_bytes, t_values. eapply np_bind; [apply (collect_np (Forall it_ok) loadable _ vi_next_np); repeat constructor; cbn; intros x [<-|[]]; exact H|].
    intros l _ Hl. now apply load_values_np.
  - unfold scan_bytes, t_scan_prefix. eapply np_bind; [eapply np_bind; [now apply scan_np|]; intros s _ Hs; apply (collect_np kv_ok (fun a => loadable (snd a)) _ kv_next_np); exact Hs|].
    intros l _ Hl. now apply load_entries_np.
  - unfold t_group_by. eapply np_weak; [apply (collect_np kv_ok (fun _ => True) _ (gb_next_np d H0)); now apply kv_new_ok|auto].
  - unfold t_detached. now apply detached_np.
Qed.
Theorem damaged_ends (L : legible rd C) t A (f : nat -> res A) : node_ok t -> reading_ends rd t A f -> forall fuel, f fuel <> Panic.
Proof.
  intros H R fuel. apply (np_panic (fun _ => True)). destruct R.
  - unfold first_value_bytes. eapply np_bind; [now apply first_value_np|]. intros o _ Ho. now apply load_opt_np.
  - unfold last_value_bytes. eapply np_bind; [now apply last_value_np|]. intros o _ Ho. now apply load_opt_np.
  - unfold first_entry_bytes. eapply np_bind; [now apply first_entry_np|]. intros o _ Ho. now apply load_entry_np.
  - unfold last_entry_bytes. eapply np_bind; [now apply last_entry_np|]. intros o _ Ho. now apply load_entry_np.
Qed.

(** ** Changes *)
Lemma canon_np n : node_ok n -> np node_ok (canonicalize false n).
Proof.
  intros H. unfold canonicalize. cbn [andb].
  assert (np node_ok (match blob_opt (n_value n), n_kids n with
           | None, KArc [c] => Ok (Node (Data (blob_slice (n_prefix n) ++ blob_slice (n_prefix c))) (n_value c) (n_kids c))
           | _, _ => Ok n end)) as K.
  { destruct (blob_opt (n_value n)); [exact H|]. destruct (n_kids n) as [[|c [|? ?]]|id] eqn:Ek; try exact H. cbn.
    assert (node_ok c) as Hc. { destruct H as [|p v ns Hp Hv Hn]; cbn in Ek; [discriminate|]. injection Ek as ->. apply Hn. now left. }
    destruct Hc; cbn; constructor; cbn; auto. }
  eapply np_bind; [exact K|]. intros n1 _ H1. destruct (negb (has_value n1) && (child_count n1 =? 0)); cbn; [|exact H1].
  constructor; cbn; auto. now apply node_value.
Qed.
Lemma set_kids_ok n ns : node_ok n -> kids_ok ns -> node_ok (set_kids n (KArc ns)).
Proof. intros H K. unfold set_kids. constructor; [now apply node_prefix|now apply node_value|exact K]. Qed.
Lemma set_value_ok n v : node_ok n -> value_ok v -> node_ok (set_value n v).
Proof. intros H K. unfold set_value. destruct H; cbn; constructor; auto. Qed.
Lemma cleared_ok n : node_ok n -> node_ok (set_kids (set_value n bnone) (KId [])).
Proof. intros H. unfold set_kids, set_value. constructor; cbn; auto. now apply node_prefix. Qed.
Lemma split_np n k p : node_ok n -> load_prefix rd (n_prefix n) = Ok p -> k <= length p -> np node_ok (split rd n k).
Proof.
  intros H E Hk. unfold split. rewrite E. cbn [bind]. unfold slice_from, slice_to. destruct (Nat.leb_spec k (length p)); [|lia]. cbn.
  constructor; cbn; auto. intros x [<-|[]]. destruct H; cbn; constructor; cbn; auto.
Qed.
Lemma collect_owned_np : forall fuel data, (forall b, record_in data b -> record_ok b) -> np kids_ok (collect_owned fuel data).
Proof.
  induction fuel as [|fuel IH]; intros data H; cbn [collect_owned]; [exact Logic.I|].
  destruct (read_one data) as [[b rest]|] eqn:E; [|cbn; intros ? []].
  eapply np_bind; [apply b_owned_np; apply H; now apply (ri_first _ _ rest)|]. intros n _ Hn.
  eapply np_bind; [apply IH; intros x Hx; apply H; now apply (ri_later _ b rest)|]. intros ns _ Hns. cbn. intros x [<-|Hx]; auto.
Qed.
Lemma children_mut_np n : node_ok n -> np kids_ok (load_children_mut rd n).
Proof.
  intros [p v [|x id] Hp Hv Hc|p v ns Hp Hv Hn]; cbn [load_children_mut n_kids]; [cbn; intros ? []| |exact Hn].
  destruct Hc as [H K]. destruct (rd id) as [data| | |] eqn:E; cbn [bind np]; auto. apply collect_owned_np. intros b Hb. exact (T id data b K E Hb).
Qed.

(** The other tree is in memory. *)
Definition mem_ref (b : noderef) : Prop := exists u, b = ROwned u /\ in_memory u.
Definition mem_it (o : option iter) : Prop := match o with Some it => exists us, it = IOwned us /\ forall u, In u us -> in_memory u | None => True end.
Lemma mem_ok u : in_memory u -> node_ok u.
Proof.
  induction 1 as [p v c Hp Hv Hc|p v ns Hp Hv Hn IH].
  - destruct p as [?|[|? ?]]; cbn in Hp; try contradiction; try (now destruct Hp).
    destruct v as [?|[|? ?]]; cbn in Hv; try (now destruct Hv); (destruct c as [|? ?]; [|now destruct Hc]); constructor; cbn; auto.
  - destruct p as [?|[|? ?]]; cbn in Hp; try contradiction; try (now destruct Hp).
    destruct v as [?|[|? ?]]; cbn in Hv; try (now destruct Hv); constructor; cbn; auto.
Qed.
Lemma mem_prefix b : mem_ref b -> exists p, load_prefix detached_read (r_prefix b) = Ok p.
Proof.
  intros (u & -> & H). destruct H as [p v c Hp _ _|p v ns Hp _ _]; destruct p as [x|[|? ?]]; cbn in *; try contradiction; try (now destruct Hp); eauto.
Qed.
Lemma mem_value b x : mem_ref b -> r_value_opt b = Some x -> exists d, x = Data d.
Proof.
  intros (u & -> & H). cbn. destruct H as [p v c _ Hv _|p v ns _ Hv _]; destruct v as [d|[|? ?]]; cbn in *; try (now destruct Hv); intros [= <-]; eauto.
Qed.
Lemma mem_children b : mem_ref b -> np mem_it (r_load_children detached_read b).
Proof.
  intros (u & -> & H). cbn [r_load_children]. destruct H as [p v [|? ?] Hp Hv Hc|p v ns Hp Hv Hn]; cbn; auto.
  - now destruct Hc.
  - destruct ns; cbn; [auto|]. eexists. split; [reflexivity|exact Hn].
Qed.
Lemma mem_short b k bp : mem_ref b -> load_prefix detached_read (r_prefix b) = Ok bp -> k <= length bp -> np in_memory (r_clone_shortened detached_read b k).
Proof.
  intros (u & -> & H) E Hk. cbn [r_clone_shortened r_prefix] in *. unfold clone_shortened. rewrite E. cbn [bind]. unfold slice_from.
  destruct (Nat.leb_spec k (length bp)); [|lia]. cbn. destruct H; unfold set_prefix_slice; cbn; constructor; cbn; auto.
Qed.
Lemma mem_single u : in_memory u -> mem_it (it_single u).
Proof. intros H. cbn. eexists. split; [reflexivity|]. intros x [<-|[]]. exact H. Qed.
Lemma cmp_cases ac us : match cmp_with ac (IOwned us) with
  | None => True | Some Lt => ac <> [] | Some Eq => ac <> [] /\ us <> [] | Some Gt => us <> [] end.
Proof.
  unfold cmp_with. destruct ac as [|x ac], us as [|u us]; cbn; auto; try discriminate.
  destruct (cmp_ob (n_first x) (n_first u)); try split; discriminate.
Qed.
Definition rec_np (rec : node -> noderef -> res node) : Prop := forall a b, node_ok a -> mem_ref b -> np node_ok (rec a b).
Lemma keep_ok (r : node) rs : node_ok r -> kids_ok rs -> kids_ok (if is_empty r then rs else r :: rs).
Proof. intros H K. destruct (is_empty r); [exact K|]. intros x [<-|Hx]; auto. Qed.
Lemma outer_loop_np rec : rec_np rec -> forall fuel ac us, kids_ok ac -> (forall u, In u us -> in_memory u) ->
  np kids_ok (outer_with_loop downcast_converter rec fuel ac (IOwned us)).
Proof.
  intros Hr. induction fuel as [|fuel IH]; intros ac us Ha Hu; cbn [outer_with_loop]; [exact Logic.I|].
  pose proof (cmp_cases ac us) as Hc. destruct (cmp_with ac (IOwned us)) as [[| |]|]; [| | |intros ? []].
  - destruct Hc as [Hc1 Hc2]. destruct ac as [|x ac]; [contradiction|]. destruct us as [|u us]; [contradiction|]. cbn [it_next].
    eapply np_bind; [apply Hr; [apply Ha; now left|exists u; split; [reflexivity|apply Hu; now left]]|]. intros r _ Hrr.
    eapply np_bind; [apply IH; [intros y Hy; apply Ha; now right|intros y Hy; apply Hu; now right]|]. intros rs _ Hrs. now apply keep_ok.
  - destruct ac as [|x ac]; [contradiction|]. eapply np_bind; [apply IH; [intros y Hy; apply Ha; now right|exact Hu]|]. intros rs _ Hrs.
    cbn. intros y [<-|Hy]; [apply Ha; now left|auto].
  - destruct us as [|u us]; [contradiction|]. cbn [it_next conv_node downcast_converter bind].
    eapply np_bind; [apply IH; [exact Ha|intros y Hy; apply Hu; now right]|]. intros rs _ Hrs.
    cbn. intros y [<-|Hy]; [apply mem_ok; apply Hu; now left|auto].
Qed.
Lemma inner_loop_np rec : rec_np rec -> forall fuel ac us, kids_ok ac -> (forall u, In u us -> in_memory u) ->
  np kids_ok (inner_with_loop rec fuel ac (IOwned us)).
Proof.
  intros Hr. induction fuel as [|fuel IH]; intros ac us Ha Hu; cbn [inner_with_loop]; [exact Logic.I|].
  pose proof (cmp_cases ac us) as Hc. destruct (cmp_with ac (IOwned us)) as [[| |]|]; [| | |intros ? []].
  - destruct Hc as [Hc1 Hc2]. destruct ac as [|x ac]; [contradiction|]. destruct us as [|u us]; [contradiction|]. cbn [it_next].
    eapply np_bind; [apply Hr; [apply Ha; now left|exists u; split; [reflexivity|apply Hu; now left]]|]. intros r _ Hrr.
    eapply np_bind; [apply IH; [intros y Hy; apply Ha; now right|intros y Hy; apply Hu; now right]|]. intros rs _ Hrs. now apply keep_ok.
  - destruct ac as [|x ac]; [contradiction|]. apply IH; [intros y Hy; apply Ha; now right|exact Hu].
  - destruct us as [|u us]; [contradiction|]. cbn [it_next]. apply IH; [exact Ha|intros y Hy; apply Hu; now right].
Qed.
Lemma left_loop_np rec : rec_np rec -> forall fuel ac us, kids_ok ac -> (forall u, In u us -> in_memory u) ->
  np kids_ok (left_with_loop rec fuel ac (IOwned us)).
Proof.
  intros Hr. induction fuel as [|fuel IH]; intros ac us Ha Hu; cbn [left_with_loop]; [exact Logic.I|].
  pose proof (cmp_cases ac us) as Hc. destruct (cmp_with ac (IOwned us)) as [[| |]|]; [| | |intros ? []].
  - destruct Hc as [Hc1 Hc2]. destruct ac as [|x ac]; [contradiction|]. destruct us as [|u us]; [contradiction|]. cbn [it_next].
    eapply np_bind; [apply Hr; [apply Ha; now left|exists u; split; [reflexivity|apply Hu; now left]]|]. intros r _ Hrr.
    eapply np_bind; [apply IH; [intros y Hy; apply Ha; now right|intros y Hy; apply Hu; now right]|]. intros rs _ Hrs. now apply keep_ok.
  - destruct ac as [|x ac]; [contradiction|]. eapply np_bind; [apply IH; [intros y Hy; apply Ha; now right|exact Hu]|]. intros rs _ Hrs.
    cbn. intros y [<-|Hy]; [apply Ha; now left|auto].
  - destruct us as [|u us]; [contradiction|]. cbn [it_next]. apply IH; [exact Ha|intros y Hy; apply Hu; now right].
Qed.
Lemma convert_np : forall fuel us, (forall u, In u us -> in_memory u) -> np kids_ok (convert_loop downcast_converter fuel (IOwned us)).
Proof.
  induction fuel as [|fuel IH]; intros us Hu; cbn [convert_loop]; [exact Logic.I|]. destruct us as [|u us]; [cbn; intros ? []|].
  cbn [it_next conv_node downcast_converter bind]. eapply np_bind; [apply IH; intros y Hy; apply Hu; now right|]. intros rs _ Hrs.
  cbn. intros y [<-|Hy]; [apply mem_ok; apply Hu; now left|auto].
Qed.
Lemma outer_kids_np rec : rec_np rec -> forall fuel ac bc, kids_ok ac -> mem_it bc -> np kids_ok (outer_children_with downcast_converter rec fuel ac bc).
Proof.
  intros Hr fuel ac [it|] Ha Hb; [|exact Ha]. destruct Hb as (us & -> & Hu). cbn [outer_children_with]. destruct ac as [|x ac]; [now apply convert_np|now apply outer_loop_np].
Qed.
Lemma inner_kids_np rec : rec_np rec -> forall fuel ac bc, kids_ok ac -> mem_it bc -> np kids_ok (inner_children_with rec fuel ac bc).
Proof.
  intros Hr fuel ac [it|] Ha Hb; [|intros ? []]. destruct Hb as (us & -> & Hu). cbn [inner_children_with]. destruct ac as [|x ac]; [intros ? []|now apply inner_loop_np].
Qed.
Lemma left_kids_np rec : rec_np rec -> forall fuel ac bc, kids_ok ac -> mem_it bc -> np kids_ok (left_children_with rec fuel ac bc).
Proof.
  intros Hr fuel ac [it|] Ha Hb; [|exact Ha]. destruct Hb as (us & -> & Hu). cbn [left_children_with]. destruct ac as [|x ac]; [intros ? []|now apply left_loop_np].
Qed.

Ltac edges Ha Hb ap bp Eap Ebp n Hl Hr :=
  eapply np_bind; [apply prefix_np; now apply node_prefix|]; intros ap Eap _;
  destruct (mem_prefix _ Hb) as [bp Ebp]; rewrite Ebp; cbn [bind]; cbv zeta;
  pose proof (common_prefix_le_l ap bp) as Hl; pose proof (common_prefix_le_r ap bp) as Hr;
  set (n := common_prefix ap bp) in *.
Ltac both K Hb := eapply np_bind; [apply children_mut_np; first [assumption|idtac]|]; intros ? _ ?;
  eapply np_bind; [apply mem_children; exact Hb|]; intros ? _ ?; eapply np_bind; [apply K; assumption|]; intros ? _ ?.
Ltac short K Hb Ebp Hr := eapply np_bind; [apply children_mut_np; first [assumption|idtac]|]; intros ? _ ?;
  eapply np_bind; [apply (mem_short _ _ _ Hb Ebp Hr)|]; intros ? _ ?; eapply np_bind; [apply K; [assumption|now apply mem_single]|]; intros ? _ ?.
Lemma outer_with_np f : calm rd f -> forall fuel, rec_np (outer_combine_with false rd detached_read downcast_converter f fuel).
Proof.
  intros Hf. induction fuel as [|fuel IH]; intros a b Ha Hb; cbn [outer_combine_with]; [exact Logic.I|].
  edges Ha Hb ap bp Eap Ebp n Hl Hr. pose proof (outer_kids_np _ IH fuel) as K. destruct (n =? length bp).
  - eapply np_bind with (P := node_ok). { destruct (negb (n =? length ap)); [now apply (split_np a n ap)|exact Ha]. } intros a1 _ H1.
    eapply np_bind with (P := node_ok).
    { destruct (r_value_opt b) as [bv|] eqn:Ev; [|exact H1]. destruct (mem_value _ _ Hb Ev) as [d ->].
      destruct (blob_opt (n_value a1)) as [av|] eqn:Ea.
      - destruct (blob_opt_ok _ _ (node_value _ H1) Ea) as [Hv _]. pose proof (Hf av d Hv) as Hz. destruct (f av (Data d)); cbn; auto. now apply set_value_ok.
      - cbn. now apply set_value_ok. }
    intros a2 _ H2. both K Hb. apply canon_np. now apply set_kids_ok.
  - destruct (n =? length ap).
    + short K Hb Ebp Hr. apply canon_np. now apply set_kids_ok.
    + eapply np_bind; [now apply (split_np a n ap)|]. intros a1 _ H1. eapply np_bind; [now apply children_mut_np|]. intros ac _ Hac.
      cbn [conv_node_shortened downcast_converter]. eapply np_bind; [apply (mem_short _ _ _ Hb Ebp Hr)|]. intros b' _ Hb'. apply canon_np. apply set_kids_ok; [exact H1|].
      apply mem_ok in Hb'. destruct ac as [|x [|y ac]].
      * intros z [<-|[]]. exact Hb'.
      * unfold sort2. destruct (cmp_ob (n_first x) (n_first b')); intros z [<-|[<-|[]]]; auto; apply Hac; now left.
      * intros z Hz. apply in_app_or in Hz. destruct Hz as [Hz|[<-|[]]]; auto.
Qed.
Lemma inner_with_np f : calm rd f -> forall fuel, rec_np (inner_combine_with false rd detached_read f fuel).
Proof.
  intros Hf. induction fuel as [|fuel IH]; intros a b Ha Hb; cbn [inner_combine_with]; [exact Logic.I|].
  edges Ha Hb ap bp Eap Ebp n Hl Hr. pose proof (inner_kids_np _ IH fuel) as K.
  assert (node_ok (set_value a bnone)) as H0 by (apply set_value_ok; cbn; auto).
  destruct ((n =? length ap) && (n =? length bp)); [|destruct (n =? length ap); [|destruct (n =? length bp)]].
  - eapply np_bind with (P := node_ok).
    { destruct (blob_opt (n_value a)) as [av|] eqn:Ea; [|exact H0]. destruct (r_value_opt b) as [bv|] eqn:Ev; [|exact H0].
      destruct (blob_opt_ok _ _ (node_value _ Ha) Ea) as [Hv _]. destruct (mem_value _ _ Hb Ev) as [d ->]. pose proof (Hf av d Hv) as Hz. destruct (f av (Data d)); cbn; auto. now apply set_value_ok. }
    intros a1 _ H1. both K Hb. apply canon_np. now apply set_kids_ok.
  - short K Hb Ebp Hr. apply canon_np. now apply set_kids_ok.
  - eapply np_bind; [now apply (split_np a n ap)|]. intros a1 _ H1. both K Hb. apply canon_np. now apply set_kids_ok.
  - apply canon_np. now apply cleared_ok.
Qed.
Lemma left_with_np f : calm rd f -> forall fuel, rec_np (left_combine_with false rd detached_read f fuel).
Proof.
  intros Hf. induction fuel as [|fuel IH]; intros a b Ha Hb; cbn [left_combine_with]; [exact Logic.I|].
  edges Ha Hb ap bp Eap Ebp n Hl Hr. pose proof (left_kids_np _ IH fuel) as K.
  destruct ((n =? length ap) && (n =? length bp)); [|destruct (n =? length ap); [|destruct (n =? length bp)]].
  - eapply np_bind with (P := node_ok).
    { destruct (r_value_opt b) as [bv|] eqn:Ev; [|exact Ha]. destruct (blob_opt (n_value a)) as [av|] eqn:Ea; [|exact Ha].
      destruct (blob_opt_ok _ _ (node_value _ Ha) Ea) as [Hv _]. destruct (mem_value _ _ Hb Ev) as [d ->]. pose proof (Hf av d Hv) as Hz. destruct (f av (Data d)); cbn; auto. now apply set_value_ok. }
    intros a1 _ H1. both K Hb. apply canon_np. now apply set_kids_ok.
  - short K Hb Ebp Hr. apply canon_np. now apply set_kids_ok.
  - eapply np_bind; [now apply (split_np a n ap)|]. intros a1 _ H1. both K Hb. apply canon_np. now apply set_kids_ok.
  - now apply canon_np.
Qed.
Lemma selected_np f o : (forall x, f x <> Panic) -> np (fun _ => True) (selected f o).
Proof. intros H. destruct o; cbn; [apply panic_np; apply H|exact Logic.I]. Qed.
Lemma retain_with_np f : (forall x, f x <> Panic) -> forall fuel, rec_np (retain_prefix_with false rd detached_read f fuel).
Proof.
  intros Hf. induction fuel as [|fuel IH]; intros a b Ha Hb; cbn [retain_prefix_with]; [exact Logic.I|].
  edges Ha Hb ap bp Eap Ebp n Hl Hr. pose proof (inner_kids_np _ IH fuel) as K.
  assert (node_ok (set_value a bnone)) as H0 by (apply set_value_ok; cbn; auto).
  destruct ((n =? length ap) && (n =? length bp)); [|destruct (n =? length bp); [|destruct (n =? length ap)]].
  - eapply np_bind; [now apply selected_np|]. intros s _ _. destruct s; [now apply canon_np|]. both K Hb. apply canon_np. now apply set_kids_ok.
  - destruct (r_value_opt b) as [bv|].
    + eapply np_bind; [apply panic_np; apply Hf|]. intros s _ _. destruct s; apply canon_np; [exact Ha|now apply cleared_ok].
    + eapply np_bind; [now apply (split_np a n ap)|]. intros a1 _ H1. both K Hb. apply canon_np. now apply set_kids_ok.
  - short K Hb Ebp Hr. apply canon_np. now apply set_kids_ok.
  - apply canon_np. now apply cleared_ok.
Qed.
Lemma remove_with_np f : (forall x, f x <> Panic) -> forall fuel, rec_np (remove_prefix_with false rd detached_read f fuel).
Proof.
  intros Hf. induction fuel as [|fuel IH]; intros a b Ha Hb; cbn [remove_prefix_with]; [exact Logic.I|].
  edges Ha Hb ap bp Eap Ebp n Hl Hr. pose proof (left_kids_np _ IH fuel) as K.
  destruct ((n =? length ap) && (n =? length bp)); [|destruct (n =? length bp); [|destruct (n =? length ap)]].
  - eapply np_bind; [now apply selected_np|]. intros s _ _. destruct s; [apply canon_np; now apply cleared_ok|]. both K Hb. apply canon_np. now apply set_kids_ok.
  - eapply np_bind; [now apply selected_np|]. intros s _ _. destruct s; [apply canon_np; now apply cleared_ok|].
    eapply np_bind; [now apply (split_np a n ap)|]. intros a1 _ H1. both K Hb. apply canon_np. now apply set_kids_ok.
  - short K Hb Ebp Hr. apply canon_np. now apply set_kids_ok.
  - now apply canon_np.
Qed.
Lemma single_memory k v : in_memory (n_single k v).
Proof. constructor; cbn; auto. Qed.
Theorem damaged_changes t f : node_ok t -> changing rd t f -> forall fuel, match f fuel with Ok t' => node_ok t' | Panic => False | _ => True end.
Proof.
  intros H R fuel. change (np node_ok (f fuel)). destruct R.
  - apply outer_with_np; [|exact H|eexists; split; [reflexivity|apply single_memory]]. intros x y Hx. exact Logic.I.
  - apply left_with_np; [|exact H|eexists; split; [reflexivity|apply single_memory]]. intros x y Hx. cbn. auto.
  - apply remove_with_np; [discriminate|exact H|eexists; split; [reflexivity|apply single_memory]].
  - now apply filter_np.
  - apply outer_with_np; [assumption|exact H|eexists; split; [reflexivity|assumption]].
  - apply inner_with_np; [assumption|exact H|eexists; split; [reflexivity|assumption]].
  - apply left_with_np; [assumption|exact H|eexists; split; [reflexivity|assumption]].
  - apply remove_with_np; [assumption|exact H|eexists; split; [reflexivity|assumption]].
  - apply retain_with_np; [assumption|exact H|eexists; split; [reflexivity|assumption]].
Qed.
Theorem damaged_changed t t' : node_ok t -> changed rd t t' -> node_ok t'.
Proof.
  intros H. induction 1 as [|t1 f fuel t2 _ IH Hc E]; [exact H|]. pose proof (damaged_changes t1 f IH Hc fuel) as K. now rewrite E in K.
Qed.
Theorem loaded_ok id data t : rd id = Ok data -> (forall b, record_in data b -> record_ok b) -> deserialize data = Ok t -> node_ok t.
Proof.
  intros _ H. unfold deserialize. destruct (read_one data) as [[b rest]|] eqn:E; [|discriminate]. destruct rest; [|discriminate].
  intros Eb. pose proof (b_owned_np b (H b (ri_first _ _ _ E))) as K. now rewrite Eb in K.
Qed.
End Store.
Lemma record_cases data b : record_in data b -> exists a rest, read_one data = Some (a, rest) /\ (b = a \/ record_in rest b).
Proof. intros [d x rest E|d a rest x E H]; eauto. Qed.

(** ** Lookups end *)
Section Ends.
Context (rd : reader) (C : bytes -> Prop) (T : tolerable rd C) (E : edges_there rd C).
(** A child that was found by its first byte, or the root. *)
Definition starts (r : noderef) : Prop :=
  match r with RBorrowed b => exists id data, C id /\ rd id = Ok data /\ record_in data b | ROwned _ => False end.
Lemma find_first c : forall fuel data b, find_borrowed fuel data c = Some b -> cmp_ob (first_byte (b_prefix b)) (Some c) = Eq.
Proof.
  induction fuel as [|fuel IH]; intros data b; cbn [find_borrowed]; [discriminate|].
  destruct (read_one data) as [[x rest]|]; [|discriminate].
  destruct (cmp_ob (first_byte (b_prefix x)) (Some c)) eqn:Ec; [intros [= <-]; exact Ec|apply IH|discriminate].
Qed.
Lemma itload_from c it : children_ok rd C c -> it_load rd c = Ok (Some it) -> exists id data, it = IBorrowed data /\ C id /\ rd id = Ok data.
Proof.
  destruct c as [|x id]; cbn; [discriminate|]. intros [_ K]. destruct (rd id) as [data| | |] eqn:Er; cbn; try discriminate. intros [= <-]. eauto 6.
Qed.
Lemma find_from it c child : (exists id data, it = IBorrowed data /\ C id /\ rd id = Ok data) -> it_find it c = Some child ->
  starts child /\ ref_ok rd C child /\ load_prefix rd (r_prefix child) <> Ok [].
Proof.
  intros (id & data & -> & Hc & Er). cbn [it_find]. destruct (find_borrowed (S (length data)) data c) as [b|] eqn:Ef; [|discriminate]. intros [= <-].
  pose proof (find_borrowed_in _ _ _ _ Ef) as Hi. pose proof (find_first _ _ _ _ Ef) as Hf. split; [exists id, data; auto|]. split; [exact (T id data b Hc Er Hi)|].
  cbn [r_prefix]. destruct (b_prefix b) as [x|[|y e]] eqn:Eb; cbn in *.
  - destruct x; [discriminate Hf|discriminate].
  - discriminate.
  - exact (E id data b y e Hc Er Hi Eb).
Qed.
Context (An : answering rd).
Lemma prefix_fuel p : load_prefix rd p <> Fuel.
Proof. destruct p as [x|[|c id]]; cbn; try discriminate. apply An. Qed.
Lemma children_fuel r : r_load_children rd r <> Fuel.
Proof.
  assert (forall c, it_load rd c <> Fuel) as Hi. { intros [|x id]; cbn; [discriminate|]. specialize (An id). destruct (rd id); cbn; congruence. }
  destruct r as [n|b]; cbn [r_load_children].
  - unfold load_children. destruct (n_kids n) as [[|? ?]|id]; try discriminate. apply Hi.
  - unfold b_load_children. destruct (b_children b) as [?|[|? ?]]; try discriminate. apply Hi.
Qed.
Lemma children_from r it : ref_ok rd C r -> (starts r \/ exists n, r = ROwned n /\ just_loaded n) -> r_load_children rd r = Ok (Some it) ->
  exists id data, it = IBorrowed data /\ C id /\ rd id = Ok data.
Proof.
  intros Ho [Hs|(n & -> & c & Ek)].
  - destruct r as [?|b]; [contradiction|]. cbn [ref_ok r_load_children] in *. destruct Ho as (_ & _ & c & Ec & Hc).
    unfold b_load_children. rewrite Ec. destruct c as [|x c]; [discriminate|]. now apply itload_from.
  - cbn [ref_ok r_load_children] in *. unfold load_children. rewrite Ek. destruct Ho as [p v c' _ _ Hc|p v ns _ _ _]; cbn in Ek; [|discriminate].
    injection Ek as ->. now apply itload_from.
Qed.
Lemma step_ends fuel r prefix : ref_ok rd C r -> (starts r \/ exists n, r = ROwned n /\ just_loaded n) ->
  (forall child p, starts child -> ref_ok rd C child -> load_prefix rd (r_prefix child) <> Ok [] -> length p <= length prefix ->
     (load_prefix rd (r_prefix r) <> Ok [] -> length p < length prefix) -> find rd fuel child p <> Fuel) ->
  find rd (S fuel) r prefix <> Fuel.
Proof.
  intros Ho Hs K. cbn [find]. pose proof (prefix_fuel (r_prefix r)) as Hp. destruct (load_prefix rd (r_prefix r)) as [tp| | |] eqn:Etp; cbn [bind]; try congruence.
  cbv zeta. set (n := common_prefix tp prefix). pose proof (common_prefix_le_l tp prefix) as Hl. pose proof (common_prefix_le_r tp prefix) as Hr. fold n in Hl, Hr.
  destruct (length prefix - n =? 0); cbn [andb].
  - destruct (length tp - n =? 0); discriminate.
  - destruct (length tp - n =? 0) eqn:Et; [|discriminate]. apply Nat.eqb_eq in Et. destruct (nth_error prefix n) as [c|]; [|discriminate].
    pose proof (children_fuel r) as Hc. destruct (r_load_children rd r) as [[it|]| | |] eqn:Ech; cbn [bind]; try congruence.
    destruct (it_find it c) as [child|] eqn:Ef; [|discriminate].
    destruct (find_from it c child (children_from r it Ho Hs Ech) Ef) as (H1 & H2 & H3). apply K; auto; rewrite skipn_length; [lia|].
    intros Hne. assert (tp <> []) as Hne' by (intros ->; apply Hne; reflexivity). clearbody n. destruct tp; [contradiction|]. cbn [length] in *. lia.
Qed.
Lemma child_ends : forall fuel r prefix, starts r -> ref_ok rd C r -> load_prefix rd (r_prefix r) <> Ok [] -> length prefix < fuel -> find rd fuel r prefix <> Fuel.
Proof.
  induction fuel as [|fuel IH]; intros r prefix Hs Ho Hp Hf; [lia|]. apply step_ends; auto.
  intros child p H1 H2 H3 _ H5. apply IH; auto. specialize (H5 Hp). lia.
Qed.
Theorem lookups_end t k fuel : node_ok rd C t -> just_loaded t -> length k + 1 < fuel ->
  (exists o, get_bytes rd t k fuel = Ok o) \/ get_bytes rd t k fuel = Err.
Proof.
  intros H Hl Hf. assert (get_bytes rd t k fuel <> Panic) as Hn by (eapply damaged_reads; [exact T|exact H|constructor]).
  assert (get_bytes rd t k fuel <> Fuel) as Hu.
  { unfold get_bytes, t_get, get. destruct fuel as [|fuel]; [lia|].
    assert (find rd (S fuel) (ROwned t) k <> Fuel) as Hx.
    { apply step_ends; [exact H|right; eauto|]. intros child p H1 H2 H3 H4 _. apply child_ends; auto. lia. }
    destruct (find rd (S fuel) (ROwned t) k) as [x| | |]; cbn [bind]; try congruence.
    destruct x as [r|r m|]; cbn; try discriminate. destruct (r_value_opt r) as [v|]; cbn; try discriminate.
    destruct v as [d|id]; cbn; try discriminate. specialize (An id). destruct (rd id); cbn; congruence. }
  destruct (get_bytes rd t k fuel); eauto; contradiction.
Qed.
End Ends.

Section Whole.
Context (rd : reader) (C : bytes -> Prop).
Theorem damaged_history t t' : tolerable rd C -> node_ok rd C t -> changed rd t t' ->
  (forall A (f : nat -> res A) fuel, reading rd t' A f -> f fuel <> Panic) /\
  (legible rd C -> forall A (f : nat -> res A) fuel, reading_ends rd t' A f -> f fuel <> Panic) /\
  (forall f fuel, changing rd t' f -> f fuel <> Panic).
Proof.
  intros T H Hc. pose proof (damaged_changed rd C T t t' H Hc) as H'. split; [|split].
  - intros A f fuel R. exact (damaged_reads rd C T t' A f H' R fuel).
  - intros L A f fuel R. exact (damaged_ends rd C T L t' A f H' R fuel).
  - intros f fuel R E. pose proof (damaged_changes rd C T t' f H' R fuel) as K. now rewrite E in K.
Qed.
Theorem damaged_load (S : store) (s : st S) id : tolerable (st_read S s) C -> st_read S s id <> Panic ->
  (forall data b, st_read S s id = Ok data -> record_in data b -> record_ok (st_read S s) C b) ->
  t_load S s (Some id) <> Panic /\ (forall t, t_load S s (Some id) = Ok t -> node_ok (st_read S s) C t).
Proof.
  intros T NP H. unfold t_load. destruct (st_read S s id) as [data| | |] eqn:E; cbn [bind];
    [|split; [discriminate|discriminate]|now contradict NP|split; discriminate].
  specialize (H data). split; [|intros t; exact (loaded_ok _ C id data t E (fun b => H b eq_refl))].
  unfold deserialize. destruct (read_one data) as [[b rest]|] eqn:R; [|discriminate]. destruct rest; [|discriminate].
  destruct (H b eq_refl (ri_first _ _ _ R)) as (_ & _ & c & Ec & _). unfold b_to_owned. rewrite Ec. discriminate.
Qed.
End Whole.
