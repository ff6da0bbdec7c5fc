(** Correctness of the iterators and of the operations returning extremes. *)
From Verif Require Import Base BaseLemmas Header Node Iter Api Tree Rep JoinBase PrefixProofs FindProofs Entries.
From Coq Require Import Sorting.Sorted.

Lemma size_pos' t : 1 <= size t.
Proof. destruct t; rewrite size_T; lia. Qed.

Lemma collect_S {S A} (next : nat -> S -> res (yielded A * S)) fuel s :
  collect next (Datatypes.S fuel) s =
    ('(y, s') <- next fuel s ;;
     match y with
     | YDone => Ok []
     | YItem a => l <- collect next fuel s' ;; Ok (a :: l)
     | YError => Err
     end).
Proof. reflexivity. Qed.

Section Iter.
Context (ids : bool) (rd : reader).

Notation NR := (NRep ids rd True).
Notation IR := (IRepT ids rd True).
Notation RR := (Rep ids rd).

(** A returned value loads to the given bytes. *)
Definition vrel (b : blob) (x : bytes) : Prop := RepV rd b (Some x).
Definition erel (e : bytes * blob) (e' : bytes * bytes) : Prop := fst e = fst e' /\ vrel (snd e) (snd e').
Definition orel {A B} (R : A -> B -> Prop) (o : option A) (o' : option B) : Prop :=
  match o, o' with Some a, Some b => R a b | None, None => True | _, _ => False end.

(* ------------------------------------------------------------------ *)
(** Filtering by prefix. *)
Theorem filter_prefix_ok fuel n t k sub : RR n t -> croot t -> size t < fuel ->
  (t <> tempty \/ k <> [] \/ sub = []) ->
  exists n' t', filter_prefix rd fuel n k sub = Ok n' /\ RR n' t' /\ croot t' /\
    (forall z, lookup t' (sub ++ z) = lookup t (k ++ z)) /\
    (forall w, lookup t' w <> None -> exists z, w = sub ++ z) /\
    (is_empty n = tnil t -> is_empty n' = tnil t').
Proof.
  intros H Hc Hf Hne.
  assert (t = tempty -> is_empty n = tnil t -> forall n', filter_prefix rd fuel n k sub = Ok n' -> is_empty n' = true) as He.
  { intros -> Ee n'. unfold filter_prefix. destruct fuel as [|fu]; [lia|]. cbn [find].
    pose proof (Rep_inv _ _ _ _ _ _ H) as (RP & RV & ns & RK & F).
    change (r_prefix (ROwned n)) with (n_prefix n). rewrite (RepP_load _ _ _ _ RP). cbn [bind length common_prefix].
    destruct k as [|c k]; cbn [length Nat.sub Nat.eqb andb bind nth_error r_to_owned].
    - intros [= <-]. unfold is_empty in *. cbn. exact Ee.
    - destruct (KidsOf_load ids rd True (or_intror I) n ns [] RK F) as (o & Ho & Oo).
      destruct o as [it|]; [destruct Oo as [Oo _]; congruence|].
      change (r_load_children rd (ROwned n)) with (load_children rd n). rewrite Ho. cbn. intros [= <-]. reflexivity. }
  revert He. unfold filter_prefix.
  destruct (find_ok ids rd fuel (ROwned n) t k (Rep_NRep _ _ _ _ _ H) Hc Hf) as (x & -> & Hp). cbn [bind].
  destruct x as [r|r m|]; cbn [find_post] in Hp; intros He.
  - destruct Hp as (t' & N' & C' & _ & _ & Hcc & Hz). destruct N' as [_ (n' & Er & R')]. rewrite Er in *. cbn [bind] in *.
    destruct t' as [p v cs]. pose proof (Rep_inv _ _ _ _ _ _ R') as (RP & RV & ns & RK & F).
    exists (set_prefix_slice n' sub), (T sub v cs). split; [reflexivity|]. split.
    { eapply Rep_mk; cbn; eauto. now left. }
    split; [|split; [|split]].
    + destruct C' as [E|(L & S & C)].
      * injection E as -> -> ->. destruct Hcc as [[Et Ek]|Hcc].
        -- destruct Hne as [Hne|[Hne|Hne]]; [now destruct Hne|now subst|]. subst. now left.
        -- inversion Hcc; congruence.
      * right. cbn in *. auto.
    + intros z. rewrite Hz. cbn [tp]. now rewrite !lookup_self.
    + intros w Hw. destruct (lookup (T sub v cs) w) eqn:E; [|congruence].
      apply lookup_some_prefix in E. exact E.
    + intros Ee. change (is_empty (set_prefix_slice n' sub)) with (is_empty n').
      change (tnil (T sub v cs)) with (tnil (T p v cs)).
      destruct (tnil (T p v cs)) eqn:En; [|eapply Rep_tnil; eauto].
      destruct Hcc as [[Et _]|Hcc]; [|rewrite (cc_tnil _ Hcc) in En; discriminate].
      assert (t = tempty) as Et'.
      { destruct Hc as [|(L & _)]; [assumption|]. rewrite <- Et in L. unfold tnil in En. cbn in *.
        destruct L as [L|L]; destruct v, cs; cbn in *; try congruence; lia. }
      exact (He Et' Ee _ eq_refl).
  - clear He. destruct Hp as (t' & N' & C' & Ln & _ & _ & _ & Hz).
    destruct t' as [p v cs]. rewrite (NRep_prefix _ _ _ _ _ _ _ N'). cbn [bind].
    destruct N' as [_ (n' & -> & R')]. cbn [bind tp] in *. rewrite slice_from_ok by lia. cbn [bind].
    pose proof (Rep_inv _ _ _ _ _ _ R') as (RP & RV & ns & RK & F).
    eexists _, (T (sub ++ skipn m p) v cs). split; [reflexivity|]. split.
    { eapply Rep_mk; cbn; eauto. now left. }
    assert (tnil (T (sub ++ skipn m p) v cs) = false) as Nn.
    { destruct C' as [E|(L & _)]; [injection E as -> -> ->; cbn in Ln; lia|].
      unfold tnil. cbn in *. destruct L as [L|L]; destruct v, cs; cbn in *; try congruence; lia. }
    split; [|split; [|split]].
    + right. destruct C' as [E|C']; [injection E as -> -> ->; cbn in Ln; lia|exact C'].
    + intros z. rewrite Hz, !lookup_raw. unfold rawlook. rewrite strip_app_l, strip_app.
      rewrite <- (firstn_skipn m p) at 2. now rewrite strip_app_l, strip_app.
    + intros w Hw. destruct (lookup (T (sub ++ skipn m p) v cs) w) eqn:E; [|congruence].
      apply lookup_some_prefix in E as [z ->]. cbn [tp]. rewrite <- app_assoc. eauto.
    + intros _. rewrite Nn. eapply Rep_tnil with (t := T (sub ++ skipn m p) v cs); [|exact Nn].
      eapply Rep_mk; cbn; eauto. now left.
  - clear He. exists n_empty, tempty. split; [reflexivity|]. split.
    { eapply Rep_mk with (ns := []); cbn; eauto; [now left|]. right; left; auto. }
    split; [now left|]. split.
    + intros z. rewrite tempty_lookup. destruct Hp as [_ Hp]. now rewrite Hp.
    + split; [|reflexivity]. intros w Hw. now rewrite tempty_lookup in Hw.
Qed.

(* ------------------------------------------------------------------ *)
(** Extremes. *)

Lemma last_borrowed_ok : forall fuel data cs acc, length data < fuel -> IR (IBorrowed data) cs ->
  match last_borrowed fuel data acc with
  | Some b => (cs = [] /\ acc = Some b) \/ (exists ds d, cs = ds ++ [d] /\ NR (RBorrowed b) d)
  | None => cs = [] /\ acc = None
  end.
Proof.
  induction fuel as [|fuel IH]; intros data cs acc Hf H; [lia|]. cbn [last_borrowed].
  destruct cs as [|c cs].
  - apply IRepT_nil in H as [H _]. cbn in H. destruct (read_one data) as [[b rest]|]; [discriminate|].
    destruct acc; auto.
  - apply IRepT_cons in H as (r & it' & H1 & H2 & H3 & _). cbn in H1.
    destruct (read_one data) as [[b rest]|] eqn:Er; [|discriminate]. injection H1 as <- <-.
    apply read_one_shorter in Er. specialize (IH rest cs (Some b) ltac:(lia) H3).
    destruct (last_borrowed fuel rest (Some b)) as [b'|].
    + right. destruct IH as [[-> [= ->]]|(ds & d & -> & Hd)].
      * exists [], c. auto.
      * exists (c :: ds), d. auto.
    + destruct IH; discriminate.
Qed.

Lemma it_last_ok it cs : IR it cs -> cs <> [] ->
  exists ds d r, cs = ds ++ [d] /\ it_last it = Some r /\ NR r d.
Proof.
  intros H N. destruct it as [ns|data]; cbn [it_last].
  - destruct H as [_ (ns' & E & F)]. cbn in E. subst ns'.
    destruct (exists_last N) as (ds & d & ->). exists ds, d.
    apply Forall2_app_inv_r in F as (n1 & n2 & F1 & F2 & ->).
    inversion F2 as [|m ? ? ? Rm F3]; subst. inversion F3; subst.
    exists (ROwned m). split; [reflexivity|]. split; [|now apply Rep_NRep].
    rewrite app_length. cbn. rewrite Nat.add_sub, nth_error_app2, Nat.sub_diag by lia. reflexivity.
  - pose proof (last_borrowed_ok (S (length data)) data cs None ltac:(lia) H) as L.
    destruct (last_borrowed _ data None) as [b|].
    + destruct L as [[_ L]|(ds & d & -> & Hd)]; [discriminate|]. exists ds, d, (RBorrowed b). auto.
    + destruct L. congruence.
Qed.

Lemma entries_nonempty t path : cc t -> entries path t <> [].
Proof.
  intros H E. destruct (cc_has_key _ H) as [k Hk]. destruct (lookup t k) as [x|] eqn:El; [|congruence].
  assert (In (path ++ k, x) (entries path t)) as Hi.
  { apply entries_in; [now apply croot_kids, cc_croot|]. eauto. }
  rewrite E in Hi. destruct Hi.
Qed.

Lemma last_error_app {A} (l l' : list A) (d : A) : l' <> [] -> last (l ++ l') d = last l' d.
Proof.
  intros N. induction l as [|a l IH]; [reflexivity|]. cbn. rewrite IH.
  destruct (l ++ l') eqn:E; [|reflexivity]. apply app_eq_nil in E as [_ ->]. congruence.
Qed.

Definition last_error {A} (l : list A) : option A := hd_error (rev l).

Lemma last_error_app' {A} (l l' : list A) : l' <> [] -> last_error (l ++ l') = last_error l'.
Proof.
  intros N. unfold last_error. rewrite rev_app_distr. destruct (rev l') eqn:E; [|reflexivity].
  apply (f_equal (@rev A)) in E. rewrite rev_involutive in E. now subst.
Qed.

Theorem first_entry_ok : forall fuel path r t, NR r t -> croot t -> size t < fuel ->
  exists o, first_entry rd fuel path r = Ok o /\ orel erel o (hd_error (entries path t)).
Proof.
  induction fuel as [|fuel IH]; intros path r [p v cs] H Hc Hf; [lia|]. cbn [first_entry].
  rewrite (NRep_prefix _ _ _ _ _ _ _ H). cbn [bind]. rewrite size_T in Hf.
  destruct (croot_kids _ Hc) as [So C]. cbn [tc] in *. rewrite entries_T.
  pose proof (NRep_value _ _ _ _ _ _ _ H) as HV. destruct v as [x|].
  - destruct HV as (b & -> & RV). eexists. split; [reflexivity|]. cbn. split; [reflexivity|exact RV].
  - rewrite HV. destruct (NRep_children_T _ _ _ _ _ _ H) as (o & -> & Ho). cbn [bind]. destruct o as [it|].
    + destruct Ho as [N Hi]. destruct cs as [|c cs]; [congruence|].
      apply IRepT_cons in Hi as (r' & it' & -> & Hr & _). inversion C; subst. rewrite sizes_cons in Hf.
      destruct (IH (path ++ p) r' c Hr (cc_croot _ H2) ltac:(lia)) as (o & -> & Ho).
      eexists. split; [reflexivity|]. cbn. unfold entriesl. cbn.
      pose proof (entries_nonempty c (path ++ p) H2) as Ne.
      destruct (entries (path ++ p) c); [congruence|exact Ho].
    + cbn in Ho. subst cs. eexists. split; [reflexivity|]. exact I.
Qed.

Theorem last_entry_ok : forall fuel path r t, NR r t -> croot t -> size t < fuel ->
  exists o, last_entry rd fuel path r = Ok o /\ orel erel o (last_error (entries path t)).
Proof.
  induction fuel as [|fuel IH]; intros path r [p v cs] H Hc Hf; [lia|]. cbn [last_entry].
  rewrite (NRep_prefix _ _ _ _ _ _ _ H). cbn [bind]. rewrite size_T in Hf.
  destruct (croot_kids _ Hc) as [So C]. cbn [tc] in *. rewrite entries_T.
  pose proof (NRep_value _ _ _ _ _ _ _ H) as HV.
  destruct (NRep_children_T _ _ _ _ _ _ H) as (o & -> & Ho). cbn [bind]. destruct o as [it|].
  - destruct Ho as [N Hi]. destruct (it_last_ok _ _ Hi N) as (ds & d & r' & -> & -> & Hr).
    apply Forall_app in C as [_ C]. inversion C; subst.
    assert (size d <= sizes (ds ++ [d])) as Sz by (apply size_in, in_or_app; right; now left).
    destruct (IH (path ++ p) r' d Hr (cc_croot _ H2) ltac:(lia)) as (o & -> & Ho).
    eexists. split; [reflexivity|].
    unfold entriesl. rewrite flat_map_app. cbn. rewrite app_nil_r.
    pose proof (entries_nonempty d (path ++ p) H2) as Ne.
    rewrite app_assoc, last_error_app' by assumption. exact Ho.
  - cbn in Ho. subst cs. eexists. split; [reflexivity|]. unfold entriesl. cbn. rewrite app_nil_r.
    destruct v as [x|].
    + destruct HV as (b & -> & RV). cbn. split; [reflexivity|exact RV].
    + rewrite HV. exact I.
Qed.

Theorem first_value_ok : forall fuel path r t, NR r t -> croot t -> size t < fuel ->
  exists o, first_value rd fuel r = Ok o /\ orel vrel o (option_map snd (hd_error (entries path t))).
Proof.
  induction fuel as [|fuel IH]; intros path r [p v cs] H Hc Hf; [lia|]. cbn [first_value].
  rewrite size_T in Hf.
  destruct (croot_kids _ Hc) as [So C]. cbn [tc] in *. rewrite entries_T.
  pose proof (NRep_value _ _ _ _ _ _ _ H) as HV. destruct v as [x|].
  - destruct HV as (b & -> & RV). eexists. split; [reflexivity|]. exact RV.
  - rewrite HV. destruct (NRep_children_T _ _ _ _ _ _ H) as (o & -> & Ho). cbn [bind]. destruct o as [it|].
    + destruct Ho as [N Hi]. destruct cs as [|c cs]; [congruence|].
      apply IRepT_cons in Hi as (r' & it' & -> & Hr & _). inversion C; subst. rewrite sizes_cons in Hf.
      destruct (IH (path ++ p) r' c Hr (cc_croot _ H2) ltac:(lia)) as (o & -> & Ho).
      eexists. split; [reflexivity|]. unfold entriesl. cbn.
      pose proof (entries_nonempty c (path ++ p) H2) as Ne.
      destruct (entries (path ++ p) c); [congruence|exact Ho].
    + cbn in Ho. subst cs. eexists. split; [reflexivity|]. exact I.
Qed.

Theorem last_value_ok : forall fuel path r t, NR r t -> croot t -> size t < fuel ->
  exists o, last_value rd fuel r = Ok o /\ orel vrel o (option_map snd (last_error (entries path t))).
Proof.
  induction fuel as [|fuel IH]; intros path r [p v cs] H Hc Hf; [lia|]. cbn [last_value].
  rewrite size_T in Hf.
  destruct (croot_kids _ Hc) as [So C]. cbn [tc] in *. rewrite entries_T.
  pose proof (NRep_value _ _ _ _ _ _ _ H) as HV.
  destruct (NRep_children_T _ _ _ _ _ _ H) as (o & -> & Ho). cbn [bind]. destruct o as [it|].
  - destruct Ho as [N Hi]. destruct (it_last_ok _ _ Hi N) as (ds & d & r' & -> & -> & Hr).
    apply Forall_app in C as [_ C]. inversion C; subst.
    assert (size d <= sizes (ds ++ [d])) as Sz by (apply size_in, in_or_app; right; now left).
    destruct (IH (path ++ p) r' d Hr (cc_croot _ H2) ltac:(lia)) as (o & -> & Ho).
    eexists. split; [reflexivity|].
    unfold entriesl. rewrite flat_map_app. cbn. rewrite app_nil_r.
    pose proof (entries_nonempty d (path ++ p) H2) as Ne.
    rewrite app_assoc, last_error_app' by assumption. exact Ho.
  - cbn in Ho. subst cs. eexists. split; [reflexivity|]. unfold entriesl. cbn. rewrite app_nil_r.
    destruct v as [x|].
    + destruct HV as (b & -> & RV). exact RV.
    + rewrite HV. exact I.
Qed.

(* ------------------------------------------------------------------ *)
(** Key/value iterator. *)
Definition frame (o : option iter) (cs : list tree) : Prop :=
  match o with None => cs = [] | Some it => IR it cs end.
Definition cost (o : option iter) (cs : list tree) : nat :=
  match o with None => 1 | Some _ => 2 + 3 * sizes cs end.

(** [St E path stack es m]: the iterator state still has to go through [es] (what
    [E] assigns to the subtrees on its stack), within [m] steps. *)
Section St.
Context {A : Type} (E : bytes -> tree -> list A).
Definition El (path : bytes) (cs : list tree) : list A := flat_map (E path) cs.

Inductive St : bytes -> list (nat * option iter) -> list A -> nat -> Prop :=
| St_nil path : St path [] [] 0
| St_cons path len o cs rest es m :
    frame o cs -> Forall cc cs -> St (key_pop path len) rest es m ->
    St path ((len, o) :: rest) (El path cs ++ es) (cost o cs + m).
End St.

Lemma key_pop_app path p : key_pop (path ++ p) (length p) = path.
Proof.
  unfold key_pop. rewrite app_length, Nat.add_sub, firstn_app, Nat.sub_diag, firstn_all. cbn.
  apply app_nil_r.
Qed.

Lemma key_pop_0 path : key_pop path 0 = path.
Proof. unfold key_pop. now rewrite Nat.sub_0_r, firstn_all. Qed.

(** A frame with its first node. *)
Lemma St_frame {A} (E : bytes -> tree -> list A) path len it rest es m :
  St E path ((len, Some it) :: rest) es m ->
  (it_next it = None /\ exists m', St E path ((len, None) :: rest) es m' /\ m' < m) \/
  (exists r it' c es' m', it_next it = Some (r, it') /\ NR r c /\ cc c /\ es = E path c ++ es' /\
     St E path ((len, Some it') :: rest) es' m' /\ m = 3 * size c + m').
Proof.
  intros H. inversion H as [|? ? ? cs ? es' m' HF HC HR]; subst. cbn [frame] in HF.
  destruct cs as [|c cs].
  - apply IRepT_nil in HF as [-> _]. left. split; [reflexivity|].
    exists (1 + m'). split; [|cbn; lia]. exact (St_cons E path len None [] rest es' m' eq_refl HC HR).
  - apply IRepT_cons in HF as (r & it' & -> & Hr & Hi & _). right. inversion HC; subst.
    exists r, it', c, (El E path cs ++ es'), (cost (Some it') cs + m').
    split; [reflexivity|]. split; [exact Hr|]. split; [assumption|].
    split; [unfold El; cbn; now rewrite app_assoc|].
    split; [now apply St_cons|]. cbn [cost]. rewrite sizes_cons. lia.
Qed.

Lemma St_pop {A} (E : bytes -> tree -> list A) path len rest es m :
  St E path ((len, None) :: rest) es m -> exists m', St E (key_pop path len) rest es m' /\ m' < m.
Proof.
  intros H. inversion H as [|? ? ? cs ? es' m' HF HC HR]; subst. cbn in HF. subst cs.
  exists m'. cbn. split; [exact HR|lia].
Qed.

Lemma St_push {A} (E : bytes -> tree -> list A) path p o cs rest es m :
  frame o cs -> Forall cc cs -> St E path rest es m ->
  St E (path ++ p) ((length p, o) :: rest) (El E (path ++ p) cs ++ es) (cost o cs + m).
Proof. intros F C H. apply St_cons; auto. now rewrite key_pop_app. Qed.

Lemma cost_le o cs : cost o cs <= 2 + 3 * sizes cs.
Proof. destruct o; cbn [cost]; lia. Qed.

Lemma kv_next0_in : forall fuel path stack es m, St entries path stack es m -> m < fuel ->
  match es with
  | [] => exists s, kv_next0 rd fuel (KV path stack) = Ok (None, s)
  | e :: es' => exists b path' stack' m',
      kv_next0 rd fuel (KV path stack) = Ok (Some (fst e, b), KV path' stack') /\
      vrel b (snd e) /\ St entries path' stack' es' m' /\ m' < m
  end.
Proof.
  induction fuel as [|fuel IH]; intros path stack es m HS Hf; [lia|].
  cbn [kv_next0]. cbn [kv_stack kv_path].
  destruct stack as [|[len [it|]] rest].
  - inversion HS; subst. eauto.
  - apply St_frame in HS as [(-> & m' & HS & Hm)|(r & it' & c & es' & m' & -> & Hr & Hc & -> & HS & ->)].
    + specialize (IH _ _ _ _ HS ltac:(lia)). destruct es; [exact IH|].
      destruct IH as (b & path' & stack' & m2 & E1 & E2 & E3 & E4). exists b, path', stack', m2.
      repeat split; auto; lia.
    + destruct c as [p v cs]. rewrite (NRep_prefix _ _ _ _ _ _ _ Hr). cbn [bind].
      destruct (NRep_children_owned ids rd True (or_intror I) _ _ _ _ Hr) as (o & -> & Ho). cbn [bind].
      assert (frame o cs) as HF by (destruct o; auto).
      inversion Hc as [? ? ? _ _ _ C]; subst.
      pose proof (St_push entries path p o cs _ _ _ HF C HS) as HS'.
      pose proof (cost_le o cs) as CL. rewrite size_T in *. rewrite entries_T.
      pose proof (NRep_value _ _ _ _ _ _ _ Hr) as HV. destruct v as [x|].
      * destruct HV as (b & -> & RV). cbn [app]. cbn [kv_path]. do 4 eexists. split; [reflexivity|].
        split; [exact RV|]. split; [exact HS'|]. lia.
      * rewrite HV. cbn [app]. specialize (IH _ _ _ _ HS' ltac:(lia)). unfold El in IH.
        unfold entriesl. destruct (flat_map (entries (path ++ p)) cs ++ es'); [exact IH|].
        destruct IH as (b & path' & stack' & m2 & E1 & E2 & E3 & E4). exists b, path', stack', m2.
        repeat split; auto; lia.
  - apply St_pop in HS as (m' & HS & Hm). specialize (IH _ _ _ _ HS ltac:(lia)).
    destruct es; [exact IH|].
    destruct IH as (b & path' & stack' & m2 & E1 & E2 & E3 & E4). exists b, path', stack', m2.
    repeat split; auto; lia.
Qed.

(** At the root the subtree may be empty or have an empty edge. *)
Lemma kv_next0_root fuel path n t : RR n t -> croot t -> 3 + 3 * size t < fuel ->
  match entries path t with
  | [] => exists s, kv_next0 rd fuel (KV path [(0, Some (IOwned [n]))]) = Ok (None, s)
  | e :: es' => exists b path' stack' m',
      kv_next0 rd fuel (KV path [(0, Some (IOwned [n]))]) = Ok (Some (fst e, b), KV path' stack') /\
      vrel b (snd e) /\ St entries path' stack' es' m' /\ m' < 3 + 3 * size t
  end.
Proof.
  intros H Hc Hf. destruct t as [p v cs]. destruct fuel as [|fuel]; [lia|]. cbn [kv_next0 it_next kv_stack kv_path].
  pose proof (Rep_NRep _ _ True _ _ H) as Hr.
  rewrite (NRep_prefix _ _ _ _ _ _ _ Hr). cbn [bind].
  destruct (NRep_children_owned ids rd True (or_intror I) _ _ _ _ Hr) as (o & -> & Ho). cbn [bind].
  assert (frame o cs) as HF by (destruct o; auto).
  destruct (croot_kids _ Hc) as [_ C]. cbn [tc] in C.
  assert (St entries path [(0, Some (IOwned []))] [] 2) as H0.
  { apply (St_cons entries path 0 (Some (IOwned [])) [] [] [] 0); [|constructor|constructor].
    split; [left; eauto|]. exists []. cbn. auto. }
  pose proof (St_push entries path p o cs _ _ _ HF C H0) as HS'.
  pose proof (cost_le o cs) as CL. rewrite size_T in *. rewrite entries_T. rewrite app_nil_r in HS'.
  pose proof (NRep_value _ _ _ _ _ _ _ Hr) as HV. destruct v as [x|].
  - destruct HV as (b & -> & RV). cbn [app]. cbn [kv_path]. do 4 eexists. split; [reflexivity|].
    split; [exact RV|]. split; [exact HS'|]. lia.
  - rewrite HV. cbn [app]. pose proof (kv_next0_in fuel _ _ _ _ HS' ltac:(lia)) as IH. unfold El in IH.
    unfold entriesl. destruct (flat_map (entries (path ++ p)) cs); [exact IH|].
    destruct IH as (b & path' & stack' & m2 & E1 & E2 & E3 & E4). exists b, path', stack', m2.
    repeat split; auto; lia.
Qed.

Lemma kv_collect_in : forall es fuel path stack m, St entries path stack es m -> length es + m + 1 < fuel ->
  exists l, collect (kv_next rd) fuel (KV path stack) = Ok l /\ Forall2 erel l es.
Proof.
  induction es as [|e es IH]; intros fuel path stack m HS Hf; (destruct fuel as [|fuel]; [lia|]);
    cbn [collect length] in *; unfold kv_next at 1.
  - destruct (kv_next0_in fuel _ _ _ _ HS ltac:(lia)) as (s & ->). cbn [bind]. eauto.
  - destruct (kv_next0_in fuel _ _ _ _ HS ltac:(lia)) as (b & path' & stack' & m' & -> & V & HS' & Hm).
    cbn [bind]. destruct (IH fuel _ _ _ HS' ltac:(lia)) as (l & -> & F). cbn [bind].
    eexists. split; [reflexivity|]. constructor; [|exact F]. split; auto.
Qed.

Theorem kv_collect_ok fuel path n t : RR n t -> croot t ->
  length (entries path t) + 3 * size t + 5 < fuel ->
  exists l, collect (kv_next rd) fuel (KV path [(0, Some (IOwned [n]))]) = Ok l /\
    Forall2 erel l (entries path t).
Proof.
  intros H Hc Hf. destruct fuel as [|fuel]; [lia|]. cbn [collect]. unfold kv_next at 1.
  pose proof (kv_next0_root fuel path n t H Hc ltac:(lia)) as HK.
  destruct (entries path t) as [|e es].
  - destruct HK as (s & ->). cbn [bind]. eauto.
  - destruct HK as (b & path' & stack' & m' & -> & V & HS' & Hm). cbn [bind length] in *.
    destruct (kv_collect_in es fuel _ _ _ HS' ltac:(lia)) as (l & -> & F). cbn [bind].
    eexists. split; [reflexivity|]. constructor; [|exact F]. split; auto.
Qed.

(** An exhausted iterator has nothing. *)
Lemma kv_collect_nil fuel path : 2 <= fuel -> collect (kv_next rd) fuel (KV path []) = Ok [].
Proof. destruct fuel as [|[|fuel]]; try lia. reflexivity. Qed.

(* ------------------------------------------------------------------ *)
(** Value iterator. *)
Fixpoint vals (t : tree) : list bytes :=
  match t with
  | T _ v cs => match v with Some x => [x] | None => [] end ++ flat_map vals cs
  end.

Lemma vals_entries t path : vals t = map snd (entries path t).
Proof.
  revert path. induction t as [p v cs IH] using tree_ind'. intros path. rewrite entries_T.
  cbn [vals]. rewrite map_app. f_equal; [now destruct v|]. unfold entriesl.
  induction IH as [|c cs Hc _ IHcs]; [reflexivity|]. cbn. rewrite map_app, (Hc (path ++ p)), IHcs. reflexivity.
Qed.

Definition fvals (cs : list tree) : list bytes := flat_map vals cs.

Inductive SV : value_iter -> list bytes -> nat -> Prop :=
| SV_nil : SV [] [] 0
| SV_cons it cs rest vs m : IR it cs -> SV rest vs m ->
    SV (it :: rest) (fvals cs ++ vs) (1 + 2 * sizes cs + m).

Lemma vi_next0_ok : forall fuel stack vs m, SV stack vs m -> m < fuel ->
  match vs with
  | [] => exists s, vi_next0 rd fuel stack = Ok (None, s)
  | x :: vs' => exists b stack' m', vi_next0 rd fuel stack = Ok (Some b, stack') /\
      vrel b x /\ SV stack' vs' m' /\ m' < m
  end.
Proof.
  induction fuel as [|fuel IH]; intros stack vs m HS Hf; [lia|]. cbn [vi_next0].
  inversion HS as [|it cs rest vs' m' HI HR]; subst; [now eexists|].
  destruct cs as [|c cs].
  - apply IRepT_nil in HI as [-> _]. cbn [fvals flat_map app].
    specialize (IH _ _ _ HR ltac:(lia)). destruct vs' as [|x vs']; [exact IH|].
    destruct IH as (b & stack' & m2 & E1 & E2 & E3 & E4). exists b, stack', m2. repeat split; auto; lia.
  - apply IRepT_cons in HI as (r & it' & -> & Hr & Hi & _). destruct c as [p v ds].
    destruct (NRep_children_owned ids rd True (or_intror I) _ _ _ _ Hr) as (o & -> & Ho). cbn [bind].
    set (stack' := match o with Some c => c :: it' :: rest | None => it' :: rest end).
    assert (exists m2, SV stack' (fvals ds ++ fvals cs ++ vs') m2 /\ m2 < 1 + 2 * sizes (T p v ds :: cs) + m')
      as (m2 & HS' & Hm2).
    { rewrite sizes_cons, size_T. pose proof (SV_cons _ _ _ _ _ Hi HR) as H1. subst stack'. destruct o as [c|].
      - pose proof (SV_cons _ _ _ _ _ Ho H1) as H2. eexists. split; [exact H2|lia].
      - cbn in Ho. subst ds. eexists. split; [exact H1|]. lia. }
    pose proof (NRep_value _ _ _ _ _ _ _ Hr) as HV.
    assert (fvals (T p v ds :: cs) ++ vs' =
      match v with Some x => [x] | None => [] end ++ fvals ds ++ fvals cs ++ vs') as ->.
    { unfold fvals. cbn [flat_map vals]. now rewrite <- !app_assoc. }
    destruct v as [x|].
    + destruct HV as (b0 & -> & RV). cbn [app]. exists b0, stack', m2. auto.
    + rewrite HV. cbn [app]. specialize (IH _ _ _ HS' ltac:(lia)).
      destruct (fvals ds ++ fvals cs ++ vs') as [|y ys]; [exact IH|].
      destruct IH as (b & s2 & m3 & E1 & E2 & E3 & E4). exists b, s2, m3. repeat split; auto; lia.
Qed.

Lemma vi_collect_in : forall vs fuel stack m, SV stack vs m -> length vs + m + 1 < fuel ->
  exists l, collect (vi_next rd) fuel stack = Ok l /\ Forall2 vrel l vs.
Proof.
  induction vs as [|x vs IH]; intros fuel stack m HS Hf; (destruct fuel as [|fuel]; [lia|]);
    cbn [collect length] in *; unfold vi_next at 1.
  - destruct (vi_next0_ok fuel _ _ _ HS ltac:(lia)) as (s & ->). cbn [bind]. eauto.
  - destruct (vi_next0_ok fuel _ _ _ HS ltac:(lia)) as (b & stack' & m' & -> & V & HS' & Hm).
    cbn [bind]. destruct (IH fuel _ _ HS' ltac:(lia)) as (l & -> & F). cbn [bind]. eauto.
Qed.

Theorem vi_collect_ok fuel n t : RR n t -> length (vals t) + 2 * size t + 2 < fuel ->
  exists l, collect (vi_next rd) fuel [IOwned [n]] = Ok l /\ Forall2 vrel l (vals t).
Proof.
  intros H Hf. eapply vi_collect_in.
  - replace (vals t) with (fvals [t] ++ []) by (unfold fvals; cbn; now rewrite !app_nil_r).
    apply SV_cons; [|constructor]. now apply IRepT_single.
  - rewrite sizes_cons. change (sizes []) with 0. lia.
Qed.

(* ------------------------------------------------------------------ *)
(** Group by. *)

Lemma entries_len path path' t : length (entries path t) = length (entries path' t).
Proof. rewrite (entries_path path), (entries_path path'), !map_length. reflexivity. Qed.

(** The tree standing for the node with its edge replaced by the full path. *)
Lemma entries_setp path p v cs : entries [] (T (path ++ p) v cs) = entries path (T p v cs).
Proof. now rewrite !entries_T. Qed.

Context (descend : bytes -> noderef -> res bool).
(** The predicate always answers. *)
Context (Hd : forall path r, exists b, descend path r = Ok b).

Definition grel (n : node) (es : list (bytes * bytes)) : Prop :=
  exists t, RR n t /\ croot t /\ entries [] t = es.

Lemma NR_to_owned r t : NR r t -> exists n, r_to_owned r = Ok n /\ RR n t.
Proof. intros [_ H]. exact H. Qed.

Lemma setp_grel n t path : RR n t -> cc t -> grel (set_prefix_slice n (path ++ tp t)) (entries path t).
Proof.
  destruct t as [p v cs]. intros H Hc. cbn [tp]. exists (T (path ++ p) v cs).
  apply Rep_inv in H as (RP & RV & ns & RK & F). split; [|split].
  - eapply Rep_mk; cbn; eauto. now left.
  - right. inversion Hc; subst. cbn. auto.
  - apply entries_setp.
Qed.

Lemma setv_grel n p x cs path : RR n (T p (Some x) cs) ->
  grel (set_kids (set_prefix_slice n path) (KId [])) [(path, x)].
Proof.
  intros H. exists (T path (Some x) []).
  apply Rep_inv in H as (RP & RV & ns & RK & F). split; [|split].
  - eapply Rep_mk with (ns := []); cbn; eauto; [now left|right; left; auto].
  - right. cbn. split; [left; discriminate|]. split; constructor.
  - rewrite entries_T. unfold entriesl. cbn. reflexivity.
Qed.

(** One step: yields a tree holding the next entries, not none. *)
Lemma gb_next0_in : forall fuel path stack es m, St entries path stack es m -> m < fuel ->
  match es with
  | [] => exists s, gb_next0 rd descend fuel (KV path stack) = Ok (None, s)
  | _ => exists n e1 e2 path' stack' m',
      gb_next0 rd descend fuel (KV path stack) = Ok (Some n, KV path' stack') /\
      es = e1 ++ e2 /\ e1 <> [] /\ grel n e1 /\ St entries path' stack' e2 m' /\ m' < m
  end.
Proof.
  induction fuel as [|fuel IH]; intros path stack es m HS Hf; [lia|].
  cbn [gb_next0]. cbn [kv_stack kv_path].
  assert (forall path' stack' es' m', St entries path' stack' es' m' -> es' = es -> m' < m ->
    match es with
    | [] => exists s, gb_next0 rd descend fuel (KV path' stack') = Ok (None, s)
    | _ => exists n e1 e2 path2 stack2 m2,
        gb_next0 rd descend fuel (KV path' stack') = Ok (Some n, KV path2 stack2) /\
        es = e1 ++ e2 /\ e1 <> [] /\ grel n e1 /\ St entries path2 stack2 e2 m2 /\ m2 < m
    end) as Rec.
  { intros path' stack' es' m' HS' -> Hm. specialize (IH _ _ _ _ HS' ltac:(lia)).
    destruct es; [exact IH|].
    destruct IH as (n & e1 & e2 & path2 & stack2 & m2 & E1 & E2 & E3 & E4 & E5 & E6).
    exists n, e1, e2, path2, stack2, m2. repeat split; auto; lia. }
  destruct stack as [|[len [it|]] rest].
  - inversion HS; subst. eauto.
  - apply St_frame in HS as [(-> & m' & HS & Hm)|(r & it' & c & es' & m' & -> & Hr & Hc & -> & HS & ->)].
    + eapply Rec; eauto.
    + destruct c as [p v cs]. rewrite (NRep_prefix _ _ _ _ _ _ _ Hr). cbn [bind].
      destruct (Hd (path ++ p) r) as (d & ->). cbn [bind].
      destruct (NR_to_owned _ _ Hr) as (n & En & Rn).
      pose proof (entries_nonempty _ path Hc) as Ne.
      destruct d.
      * destruct (NRep_children_owned ids rd True (or_intror I) _ _ _ _ Hr) as (o & -> & Ho). cbn [bind].
        assert (frame o cs) as HF by (destruct o; auto).
        inversion Hc as [? ? ? _ _ _ C]; subst.
        pose proof (St_push entries path p o cs _ _ _ HF C HS) as HS'.
        pose proof (cost_le o cs) as CL. rewrite size_T in *. rewrite entries_T in *.
        pose proof (NRep_value _ _ _ _ _ _ _ Hr) as HV. destruct v as [x|].
        -- destruct HV as (b & -> & RV). rewrite En. cbn [bind app].
           exists (set_kids (set_prefix_slice n (path ++ p)) (KId [])), [(path ++ p, x)].
           do 4 eexists. split; [reflexivity|]. split; [reflexivity|]. split; [discriminate|].
           split; [eapply setv_grel; eauto|]. split; [exact HS'|lia].
        -- rewrite HV. eapply Rec; [exact HS'|reflexivity|lia].
      * rewrite En. cbn [bind]. rewrite key_pop_app.
        destruct (entries path (T p v cs) ++ es') eqn:Ee.
        { apply app_eq_nil in Ee as [Ee _]. congruence. }
        exists (set_prefix_slice n (path ++ p)), (entries path (T p v cs)), es', path.
        do 2 eexists. split; [reflexivity|]. split; [now rewrite Ee|]. split; [exact Ne|].
        split; [exact (setp_grel n _ path Rn Hc)|]. split; [exact HS|]. rewrite size_T. lia.
  - apply St_pop in HS as (m' & HS & Hm). eapply Rec; eauto.
Qed.

Lemma gb_collect_in : forall k es fuel path stack m, length es <= k -> St entries path stack es m -> k + m + 1 < fuel ->
  exists l ess, collect (gb_next rd descend) fuel (KV path stack) = Ok l /\ Forall2 grel l ess /\ concat ess = es /\
    Forall (fun e => e <> []) ess.
Proof.
  induction k as [|k IH]; intros es fuel path stack m Hk HS Hf; (destruct fuel as [|fuel]; [lia|]);
    cbn [collect] in *; unfold gb_next at 1.
  - pose proof (gb_next0_in fuel _ _ _ _ HS ltac:(lia)) as HN. destruct es; [|cbn in Hk; lia].
    destruct HN as (s & ->). cbn [bind]. exists [], []. auto.
  - pose proof (gb_next0_in fuel _ _ _ _ HS ltac:(lia)) as HN. destruct es as [|e es].
    + destruct HN as (s & ->). cbn [bind]. exists [], []. auto.
    + destruct HN as (n & e1 & e2 & path' & stack' & m' & -> & E2 & N1 & G & HS' & Hm).
      cbn [bind]. rewrite E2 in *. rewrite app_length in Hk.
      assert (1 <= length e1) by (destruct e1; [congruence|cbn; lia]).
      destruct (IH e2 fuel _ _ _ ltac:(lia) HS' ltac:(lia)) as (l & ess & -> & F & <- & Ne). cbn [bind].
      exists (n :: l), (e1 :: ess). cbn. auto.
Qed.

(** For the root the yielded tree can be empty: the empty tree itself, when the
    predicate does not descend. *)
Theorem gb_collect_ok fuel n t : RR n t -> croot t ->
  length (entries [] t) + 3 * size t + 6 < fuel ->
  exists l ess, collect (gb_next rd descend) fuel (kv_new n) = Ok l /\ Forall2 grel l ess /\
    concat ess = entries [] t.
Proof.
  intros H Hc Hf. destruct fuel as [|fuel]; [lia|]. destruct t as [p v cs].
  pose proof (Rep_NRep _ _ True _ _ H) as Hr.
  assert (St entries [] [(0, Some (IOwned []))] [] 2) as H0.
  { apply (St_cons entries [] 0 (Some (IOwned [])) [] [] [] 0); [|constructor|constructor].
    split; [left; eauto|]. exists []. cbn. auto. }
  assert (exists fuel', fuel = S fuel') as (fuel' & ->) by (destruct fuel; [lia|eauto]).
  rewrite collect_S. unfold gb_next at 1. cbn [gb_next0 kv_new it_next kv_stack kv_path app].
  rewrite (NRep_prefix _ _ _ _ _ _ _ Hr). cbn [bind].
  destruct (Hd p (ROwned n)) as (d & ->). cbn [bind].
  destruct d.
  - destruct (NRep_children_owned ids rd True (or_intror I) _ _ _ _ Hr) as (o & -> & Ho). cbn [bind].
    assert (frame o cs) as HF by (destruct o; auto).
    destruct (croot_kids _ Hc) as [_ C]. cbn [tc] in C.
    pose proof (St_push entries [] p o cs _ _ _ HF C H0) as HS'. rewrite app_nil_r in HS'. cbn [app] in HS'.
    pose proof (cost_le o cs) as CL. rewrite size_T in *. rewrite entries_T in *. cbn [app] in *.
    rewrite app_length in Hf.
    pose proof (NRep_value _ _ _ _ _ _ _ Hr) as HV. destruct v as [x|].
    + destruct HV as (b & -> & RV). cbn [bind r_to_owned].
      destruct (gb_collect_in _ _ (S fuel') _ _ _ (le_n _) HS') as (l & ess & -> & F & E & Ne).
      { clear - Hf CL. unfold El, entriesl in *. cbn [length] in Hf. unfold bytes in *. lia. }
      cbn [bind]. eexists _, ([(p, x)] :: ess). split; [reflexivity|]. split; [|cbn; now rewrite E].
      constructor; [|exact F]. eapply setv_grel; eauto.
    + rewrite HV. cbn [app].
      pose proof (gb_next0_in fuel' _ _ _ _ HS' ltac:(lia)) as HN.
      unfold entriesl, El in *. cbn [length] in Hf.
      destruct (flat_map (entries p) cs) as [|e es] eqn:Ee.
      * destruct HN as (s & ->). cbn [bind]. exists [], []. auto.
      * destruct HN as (m & e1 & e2 & path' & stack' & m' & -> & E2 & N1 & G & HS2 & Hm).
        cbn [bind]. rewrite E2 in *. rewrite app_length in Hf.
        destruct (gb_collect_in _ _ (S fuel') _ _ _ (le_n _) HS2) as (l & ess & -> & F & <- & Ne); [lia|].
        cbn [bind]. exists (m :: l), (e1 :: ess). auto.
  - cbn [bind r_to_owned].
    assert (key_pop p (length p) = []) as -> by (unfold key_pop; now rewrite Nat.sub_diag).
    destruct (gb_collect_in _ _ (S fuel') _ _ _ (le_n _) H0) as (l & ess & -> & F & E & Ne); [cbn; lia|].
    cbn [bind]. eexists _, (entries [] (T p v cs) :: ess). split; [reflexivity|].
    split; [|cbn; rewrite E; apply app_nil_r]. constructor; [|exact F].
    exists (T p v cs). split; [|split; [exact Hc|reflexivity]].
    apply Rep_inv in H as (RP & RV & ns & RK & F'). eapply Rep_mk; cbn; eauto. now left.
Qed.

End Iter.
