(** Which blocks iterators need. *)
From Verif Require Import Base BaseLemmas Header Node Combine Iter Api Tree Entries Rep Sim Spec Client
  Top TopOps MemLemmas JoinBase PrefixProofs FindProofs IterProofs AcceptProofs LazySpec LazyProofs.

Ltac dc := solve [apply dep_const | apply dep_same; intros ?rd; reflexivity].

Section LazyIter.
Context (ids : bool) (rd0 : reader).
Notation dep := (dep rd0).
Notation NR := (NRep ids rd0 True).
Notation IR := (IRepT ids rd0 True).

Lemma dep_map {A B} n (g : reader -> res A) (F : res A -> res B) : dep n g -> dep n (fun rd => F (g rd)).
Proof. intros (l & H & E). exists l. split; [exact H|]. intros rd' Ha. now rewrite E. Qed.
Lemma dep_children_owned r : dep 1 (fun rd => r_load_children_owned rd r).
Proof.
  destruct r as [n|b]; cbn [r_load_children_owned].
  - unfold load_children_owned. destruct (n_kids n); [dc|]. apply dep_it_load.
  - unfold b_load_children. destruct (b_children b) as [|[|]]; try dc. apply dep_it_load.
Qed.

Lemma entry_longer pre c e : cc c -> In e (entries pre c) -> length pre + 1 <= length (fst e).
Proof.
  intros Cc Hi. destruct e as [k x]. apply entries_in in Hi as (z & -> & Hl); [|now apply croot_kids, cc_croot]. cbn [fst].
  apply lookup_some_prefix in Hl as (w & ->). inversion Cc as [q w' ds Nq]; subst. cbn [tp]. destruct q; [congruence|].
  unfold bytes in *. rewrite app_length. cbn [app length]. lia.
Qed.

(** ** First and last *)
Lemma first_entry_dep : forall fuel pre r g N, NR r g -> croot g ->
  match entries pre g with
  | e :: _ => 2 * length (fst e) + 2 <= N + 2 * length pre + 2 * Nat.min 1 (length (tp g))
  | [] => 2 <= N
  end -> dep N (fun rd => first_entry rd fuel pre r).
Proof.
  induction fuel as [|fuel IH]; intros pre r [p v cs] N H Hc L; [dc|]. cbn [first_entry]. cbn [tp] in L.
  destruct (croot_kids _ Hc) as [So C]. cbn [tc] in *. rewrite entries_T in L.
  pose proof (NRep_value _ _ _ _ _ _ _ H) as HV. destruct v as [x|].
  - destruct HV as (b & -> & RV). cbn [app fst] in L. rewrite app_length in L.
    apply (dep_bind_le _ N 1 0); [apply dep_prefix|unfold bytes in *; destruct p; cbn [length Nat.min] in L; lia|]. intros; dc.
  - rewrite HV. cbn [app] in L. destruct (NRep_children_T _ _ _ _ _ _ H) as (o & Eo & Ho).
    assert (2 <= N) as L2.
    { destruct (entriesl (pre ++ p) cs) as [|e es] eqn:Ee; [exact L|].
      unfold entriesl in Ee. assert (In e (flat_map (entries (pre ++ p)) cs)) as Hi by (rewrite Ee; now left).
      apply in_flat_map in Hi as (c & Hc' & Hi). destruct e as [k x]. pose proof (proj1 (Forall_forall _ _) C c Hc') as Cc. apply entries_in in Hi as (z & -> & _); [|now apply croot_kids, cc_croot].
      cbn [fst] in L. rewrite !app_length in L. unfold bytes in *; destruct p; cbn [length Nat.min] in L; lia. }
    apply (dep_bind_le _ N 1 (N - 1)); [apply dep_prefix|lia|]. intros p' Ep.
    rewrite (NRep_prefix _ _ _ _ _ _ _ H) in Ep. injection Ep as <-.
    apply (dep_bind_le _ _ 1 (N - 2)); [apply dep_children|lia|]. intros o' Eo'. rewrite Eo in Eo'. injection Eo' as <-.
    destruct o as [it|]; [|dc]. destruct Ho as [Nn Hi]. destruct cs as [|c cs]; [congruence|].
    apply IRepT_cons in Hi as (r' & it' & -> & Hr & _). inversion C as [|? ? Cc]; subst.
    apply (IH (pre ++ p) r' c); [exact Hr|exact (cc_croot _ Cc)|].
    pose proof (entries_nonempty c (pre ++ p) Cc) as Ne. unfold entriesl in L. cbn in L.
    destruct (entries (pre ++ p) c) as [|e es]; [congruence|]. cbn [app] in L. rewrite app_length.
    inversion Cc as [q w ds Nq]; subst. cbn [tp]. destruct q as [|y q]; [congruence|].
    unfold bytes in *; destruct p; cbn [length Nat.min] in *; lia.
Qed.
Lemma first_value_dep : forall fuel pre r g N, NR r g -> croot g ->
  match entries pre g with
  | e :: _ => length (fst e) + 1 <= N + length pre + Nat.min 1 (length (tp g))
  | [] => 1 <= N
  end -> dep N (fun rd => first_value rd fuel r).
Proof.
  induction fuel as [|fuel IH]; intros pre r [p v cs] N H Hc L; [dc|]. cbn [first_value]. cbn [tp] in L.
  destruct (croot_kids _ Hc) as [So C]. cbn [tc] in *. rewrite entries_T in L.
  pose proof (NRep_value _ _ _ _ _ _ _ H) as HV. destruct v as [x|].
  - destruct HV as (b & -> & RV). dc.
  - rewrite HV. cbn [app] in L. destruct (NRep_children_T _ _ _ _ _ _ H) as (o & Eo & Ho).
    destruct o as [it|].
    + destruct Ho as [Nn Hi]. destruct cs as [|c cs]; [congruence|].
      apply IRepT_cons in Hi as (r' & it' & En & Hr & _). inversion C as [|? ? Cc]; subst.
      pose proof (entries_nonempty c (pre ++ p) Cc) as Ne. unfold entriesl in L. cbn in L.
      destruct (entries (pre ++ p) c) as [|e es] eqn:Ee; [congruence|]. cbn [app] in L.
      pose proof (entry_longer _ _ e Cc ltac:(rewrite Ee; now left)) as Le.
      rewrite app_length in Le.
      apply (dep_bind_le _ N 1 (N - 1)); [apply dep_children|unfold bytes in *; destruct p; cbn [length Nat.min] in *; lia|]. intros o' Eo'. rewrite Eo in Eo'. injection Eo' as <-.
      rewrite En. apply (IH (pre ++ p) r' c); [exact Hr|exact (cc_croot _ Cc)|]. rewrite Ee, app_length.
      inversion Cc as [q w ds Nq]; subst. cbn [tp]. destruct q as [|y q]; [congruence|].
      unfold bytes in *; destruct p; cbn [length Nat.min] in *; lia.
    + cbn in Ho. subst cs. cbn in L. apply (dep_bind_le _ N 1 0); [apply dep_children|lia|]. intros o' Eo'. rewrite Eo in Eo'. injection Eo' as <-. dc.
Qed.

Lemma last_app_cons {A} (l : list A) x l' : last_error (l ++ x :: l') = last_error (x :: l').
Proof. apply last_error_app'. discriminate. Qed.
Lemma last_In {A} (l : list A) x : last_error l = Some x -> In x l.
Proof. unfold last_error. intros H. apply in_rev. destruct (rev l); cbn in H; [discriminate|]. injection H as ->. now left. Qed.

Lemma last_entry_dep : forall fuel pre r g N, NR r g -> croot g ->
  match last_error (entries pre g) with
  | Some e => 2 * length (fst e) + 2 <= N + 2 * length pre + 2 * Nat.min 1 (length (tp g))
  | None => 2 <= N
  end -> dep N (fun rd => last_entry rd fuel pre r).
Proof.
  induction fuel as [|fuel IH]; intros pre r [p v cs] N H Hc L; [dc|]. cbn [last_entry]. cbn [tp] in L.
  destruct (croot_kids _ Hc) as [So C]. cbn [tc] in *. rewrite entries_T in L.
  destruct (NRep_children_T _ _ _ _ _ _ H) as (o & Eo & Ho).
  destruct o as [it|].
  - destruct Ho as [Nn Hi]. destruct (it_last_ok _ _ _ _ Hi Nn) as (ds & d & r' & -> & El & Hr).
    apply Forall_app in C as [_ C]. inversion C as [|? ? Cd]; subst.
    unfold entriesl in L. rewrite flat_map_app in L. cbn in L. rewrite app_nil_r in L.
    pose proof (entries_nonempty d (pre ++ p) Cd) as Ne. rewrite app_assoc, last_error_app' in L by assumption.
    destruct (last_error (entries (pre ++ p) d)) as [e|] eqn:Ee.
    2:{ unfold last_error in Ee. destruct (entries (pre ++ p) d) as [|e es]; [congruence|]. cbn in Ee. destruct (rev es ++ [e]) eqn:X; [|discriminate]. now apply app_eq_nil in X as [_ X]. }
    pose proof (entry_longer _ _ e Cd (last_In _ _ Ee)) as Le. rewrite app_length in Le.
    apply (dep_bind_le _ N 1 (N - 1)); [apply dep_prefix|unfold bytes in *; destruct p; cbn [length Nat.min] in *; lia|]. intros p' Ep.
    rewrite (NRep_prefix _ _ _ _ _ _ _ H) in Ep. injection Ep as <-.
    apply (dep_bind_le _ _ 1 (N - 2)); [apply dep_children|unfold bytes in *; destruct p; cbn [length Nat.min] in *; lia|]. intros o' Eo'. rewrite Eo in Eo'. injection Eo' as <-.
    rewrite El. apply (IH (pre ++ p) r' d); [exact Hr|exact (cc_croot _ Cd)|]. rewrite Ee, app_length.
    inversion Cd as [q w ds' Nq]; subst. cbn [tp]. destruct q as [|y q]; [congruence|].
    unfold bytes in *; destruct p; cbn [length Nat.min] in *; lia.
  - cbn in Ho. subst cs. cbn in L. rewrite app_nil_r in L.
    assert (2 <= N) as L2.
    { destruct v as [x|]; cbn in L; [|exact L]. rewrite app_length in L. unfold bytes in *; destruct p; cbn [length Nat.min] in *; lia. }
    apply (dep_bind_le _ N 1 1); [apply dep_prefix|lia|]. intros p' Ep.
    apply (dep_bind_le _ _ 1 0); [apply dep_children|lia|]. intros o' Eo'. rewrite Eo in Eo'. injection Eo' as <-. dc.
Qed.
Lemma last_value_dep : forall fuel pre r g N, NR r g -> croot g ->
  match last_error (entries pre g) with
  | Some e => length (fst e) + 1 <= N + length pre + Nat.min 1 (length (tp g))
  | None => 1 <= N
  end -> dep N (fun rd => last_value rd fuel r).
Proof.
  induction fuel as [|fuel IH]; intros pre r [p v cs] N H Hc L; [dc|]. cbn [last_value]. cbn [tp] in L.
  destruct (croot_kids _ Hc) as [So C]. cbn [tc] in *. rewrite entries_T in L.
  destruct (NRep_children_T _ _ _ _ _ _ H) as (o & Eo & Ho).
  destruct o as [it|].
  - destruct Ho as [Nn Hi]. destruct (it_last_ok _ _ _ _ Hi Nn) as (ds & d & r' & -> & El & Hr).
    apply Forall_app in C as [_ C]. inversion C as [|? ? Cd]; subst.
    unfold entriesl in L. rewrite flat_map_app in L. cbn in L. rewrite app_nil_r in L.
    pose proof (entries_nonempty d (pre ++ p) Cd) as Ne. rewrite app_assoc, last_error_app' in L by assumption.
    destruct (last_error (entries (pre ++ p) d)) as [e|] eqn:Ee.
    2:{ unfold last_error in Ee. destruct (entries (pre ++ p) d) as [|e es]; [congruence|]. cbn in Ee. destruct (rev es ++ [e]) eqn:X; [|discriminate]. now apply app_eq_nil in X as [_ X]. }
    pose proof (entry_longer _ _ e Cd (last_In _ _ Ee)) as Le. rewrite app_length in Le.
    apply (dep_bind_le _ N 1 (N - 1)); [apply dep_children|unfold bytes in *; destruct p; cbn [length Nat.min] in *; lia|]. intros o' Eo'. rewrite Eo in Eo'. injection Eo' as <-.
    rewrite El. apply (IH (pre ++ p) r' d); [exact Hr|exact (cc_croot _ Cd)|]. rewrite Ee, app_length.
    inversion Cd as [q w ds' Nq]; subst. cbn [tp]. destruct q as [|y q]; [congruence|].
    unfold bytes in *; destruct p; cbn [length Nat.min] in *; lia.
  - cbn in Ho. subst cs. cbn in L. rewrite app_nil_r in L.
    assert (1 <= N) as L2.
    { destruct v as [x|]; cbn in L; [|exact L]. rewrite app_length in L. unfold bytes in *; destruct p; cbn [length Nat.min] in *; lia. }
    apply (dep_bind_le _ N 1 0); [apply dep_children|lia|]. intros o' Eo'. rewrite Eo in Eo'. injection Eo' as <-. dc.
Qed.

(** ** Iterating over a subtree *)
Inductive KS : list (nat * option iter) -> nat -> Prop :=
| KS_nil : KS [] 0
| KS_cons len o cs rest P : frame ids rd0 o cs -> KS rest P -> KS ((len, o) :: rest) (sizes cs + P).

Lemma kv_next0_dep : forall fuel path stack P, KS stack P ->
  exists n P', dep n (fun rd => kv_next0 rd fuel (KV path stack)) /\
    (forall y s', kv_next0 rd0 fuel (KV path stack) = Ok (y, s') -> KS (kv_stack s') P') /\ n + 2 * P' <= 2 * P.
Proof.
  induction fuel as [|fuel IH]; intros path stack P H.
  { exists 0, P. split; [dc|]. split; [discriminate|lia]. }
  cbn [kv_next0 kv_stack kv_path]. destruct H as [|len o cs rest P F H].
  - exists 0, 0. split; [dc|]. split; [|lia]. intros y s' [= <- <-]. constructor.
  - destruct o as [it|].
    + cbn [frame] in F. destruct cs as [|c cs].
      * apply IRepT_nil in F as [-> _]. apply (IH path ((len, None) :: rest) (sizes [] + P)). now apply (KS_cons len None [] rest).
      * apply IRepT_cons in F as (r & it' & -> & Hr & Hi & _). destruct c as [p v ds].
        destruct (NRep_children_owned ids rd0 True (or_intror Logic.I) _ _ _ _ Hr) as (o & Eo & Ho).
        assert (frame ids rd0 o ds) as HF by (destruct o; auto).
        set (s' := KV (path ++ p) ((length p, o) :: (len, Some it') :: rest)).
        assert (KS (kv_stack s') (sizes ds + (sizes cs + P))) as HS.
        { cbn [s' kv_stack]. apply KS_cons; [exact HF|]. now apply KS_cons. }
        rewrite sizes_cons, size_T.
        assert (forall n B (k : kv_iter -> reader -> res B), dep n (k s') -> dep (2 + n) (fun rd =>
          p <- load_prefix rd (r_prefix r) ;; ch <- r_load_children_owned rd r ;;
          k (KV (path ++ p) ((length p, ch) :: (len, Some it') :: rest)) rd)) as A.
        { intros n B k Hk. apply (dep_bind_le _ _ 1 (1 + n)); [apply dep_prefix|lia|]. intros p' Ep.
          rewrite (NRep_prefix _ _ _ _ _ _ _ Hr) in Ep. injection Ep as <-.
          apply (dep_bind_le _ _ 1 n); [apply dep_children_owned|lia|]. intros o' Eo'. rewrite Eo in Eo'. injection Eo' as <-. exact Hk. }
        destruct (r_value_opt r) as [b|].
        -- exists 2, (sizes ds + (sizes cs + P)). split; [|split; [|lia]].
           ++ apply (A 0 _ (fun s _ => Ok (Some (kv_path s, b), s))). dc.
           ++ rewrite (NRep_prefix _ _ _ _ _ _ _ Hr). cbn [bind]. rewrite Eo. cbn [bind]. intros y s2 [= <- <-]. exact HS.
        -- destruct (IH (path ++ p) ((length p, o) :: (len, Some it') :: rest) _ HS) as (n & P' & D & K & L).
           exists (2 + n), P'. split; [|split; [|lia]].
           ++ apply (A n _ (fun s rd => kv_next0 rd fuel s)). exact D.
           ++ rewrite (NRep_prefix _ _ _ _ _ _ _ Hr). cbn [bind]. rewrite Eo. cbn [bind]. exact K.
    + cbn [frame] in F. subst cs. destruct (IH (key_pop path len) rest P H) as (n & P' & D & K & L).
      exists n, P'. split; [exact D|]. split; [exact K|]. cbn. lia.
Qed.
Lemma collect_dep : forall fuel path stack P, KS stack P -> dep (2 * P) (fun rd => collect (kv_next rd) fuel (KV path stack)).
Proof.
  induction fuel as [|fuel IH]; intros path stack P H; [dc|]. cbn [collect].
  destruct (kv_next0_dep fuel path stack P H) as (n & P' & D & K & L).
  apply (dep_bind_le _ _ n (2 * P')).
  - apply (dep_map n _ (fun x => match x with Ok (Some x, s') => Ok (YItem x, s') | Ok (None, s') => Ok (YDone, s')
      | Err => Ok (YError, KV path []) | Panic => Panic | Fuel => Fuel end) D).
  - exact L.
  - intros [[| |] s'] E; try dc. unfold kv_next in E. destruct (kv_next0 rd0 fuel (KV path stack)) as [[[x|] s2]| | |] eqn:En; try discriminate.
    injection E as -> ->. specialize (K _ _ eq_refl). destruct s' as [path' stack']. cbn [kv_stack] in K.
    apply (dep_bind_le _ _ (2 * P') 0); [apply IH; exact K|lia|]. intros; dc.
Qed.

(** ** Single steps of an iterator *)
Lemma kv_step_dep : forall fuel path stack es m N, St ids rd0 entries path stack es m ->
  match es with
  | [] => True
  | e :: _ => 2 * length (fst e) <= N \/
      match stack with
      | (_, Some it) :: _ => it_next it <> None /\ 2 * length (fst e) <= N + 2 * length path
      | _ => False
      end
  end -> dep N (fun rd => kv_next0 rd fuel (KV path stack)).
Proof.
  induction fuel as [|fuel IH]; intros path stack es m N HS L; [dc|].
  cbn [kv_next0 kv_stack kv_path]. destruct stack as [|[len [it|]] rest].
  - dc.
  - apply St_frame in HS as [(En & m' & HS & _)|(r & it' & c & es' & m' & En & Hr & Hc & -> & HS & _)].
    + rewrite En. apply (IH _ _ _ _ N HS). destruct es; [exact L|]. destruct L as [L|[L _]]; [now left|congruence].
    + rewrite En in *. pose proof (entries_nonempty c path Hc) as Ne. destruct (entries path c) as [|e el] eqn:Ee; [congruence|].
      cbn [app] in L. assert (2 * length (fst e) <= N + 2 * length path) as L' by (destruct L as [L|[_ L]]; lia).
      pose proof (entry_longer _ _ e Hc ltac:(rewrite Ee; now left)) as Le.
      destruct c as [p v cs]. destruct (NRep_children_owned ids rd0 True (or_intror Logic.I) _ _ _ _ Hr) as (o & Eo & Ho).
      assert (frame ids rd0 o cs) as HF by (destruct o; auto).
      inversion Hc as [? ? ? Np Hv _ C]; subst.
      pose proof (St_push ids rd0 entries path p o cs _ _ _ HF C HS) as HS'.
      apply (dep_bind_le _ N 1 (N - 1)); [apply dep_prefix|lia|]. intros p' Ep.
      rewrite (NRep_prefix _ _ _ _ _ _ _ Hr) in Ep. injection Ep as <-.
      apply (dep_bind_le _ _ 1 (N - 2)); [apply dep_children_owned|lia|]. intros o' Eo'. rewrite Eo in Eo'. injection Eo' as <-.
      cbn zeta. pose proof (NRep_value _ _ _ _ _ _ _ Hr) as HV. destruct v as [x|].
      * destruct HV as (b & -> & RV). dc.
      * rewrite HV. apply (IH _ _ _ _ (N - 2) HS').
        rewrite entries_T in Ee. cbn [app] in Ee. unfold entriesl in Ee. unfold El. rewrite Ee. cbn [app]. right.
        destruct o as [it2|].
        -- split; [|rewrite app_length; destruct p; [congruence|]; cbn [length] in *; lia].
           cbn [frame] in HF. destruct cs as [|d cs]; [discriminate|]. apply IRepT_cons in HF as (r2 & it3 & -> & _). discriminate.
        -- cbn in HF. subst cs. discriminate.
  - apply St_pop in HS as (m' & HS & _). apply (IH _ _ _ _ N HS). destruct es; [exact L|]. destruct L as [L|[]]. now left.
Qed.
Lemma kv_root_dep fuel path n t N : Rep ids rd0 n t -> croot t ->
  match entries path t with
  | [] => 2 <= N
  | e :: _ => 2 * length (fst e) + 2 <= N + 2 * length path
  end -> dep N (fun rd => kv_next0 rd fuel (KV path [(0, Some (IOwned [n]))])).
Proof.
  intros H Hc L. destruct t as [p v cs]. destruct fuel as [|fuel]; [dc|]. cbn [kv_next0 it_next kv_stack kv_path].
  pose proof (Rep_NRep _ _ True _ _ H) as Hr.
  destruct (NRep_children_owned ids rd0 True (or_intror Logic.I) _ _ _ _ Hr) as (o & Eo & Ho).
  assert (frame ids rd0 o cs) as HF by (destruct o; auto).
  destruct (croot_kids _ Hc) as [_ C]. cbn [tc] in C.
  assert (St ids rd0 entries path [(0, Some (IOwned []))] [] 2) as H0.
  { apply (St_cons ids rd0 entries path 0 (Some (IOwned [])) [] [] [] 0); [|constructor|constructor].
    split; [left; eauto|]. exists []. cbn. auto. }
  pose proof (St_push ids rd0 entries path p o cs _ _ _ HF C H0) as HS'. rewrite app_nil_r in HS'.
  rewrite entries_T in L.
  assert (2 <= N) as L2.
  { destruct v as [x|]; cbn [app] in L; [cbn [fst] in L; rewrite app_length in L; lia|].
    destruct (entriesl (path ++ p) cs) as [|e es] eqn:Ee; [exact L|]. unfold entriesl in Ee.
    assert (In e (flat_map (entries (path ++ p)) cs)) as Hi by (rewrite Ee; now left).
    apply in_flat_map in Hi as (c & Hc' & Hi). pose proof (entry_longer _ _ e (proj1 (Forall_forall _ _) C c Hc') Hi) as Le.
    rewrite app_length in Le. lia. }
  apply (dep_bind_le _ N 1 (N - 1)); [apply dep_prefix|lia|]. intros p' Ep.
  rewrite (NRep_prefix _ _ _ _ _ _ _ Hr) in Ep. injection Ep as <-.
  apply (dep_bind_le _ _ 1 (N - 2)); [apply dep_children_owned|lia|]. intros o' Eo'. rewrite Eo in Eo'. injection Eo' as <-.
  cbn zeta. pose proof (NRep_value _ _ _ _ _ _ _ Hr) as HV. destruct v as [x|].
  - destruct HV as (b & -> & RV). dc.
  - rewrite HV. apply (kv_step_dep _ _ _ _ _ (N - 2) HS'). unfold El. cbn [app] in L. unfold entriesl in L.
    destruct (flat_map (entries (path ++ p)) cs) as [|e es] eqn:Ee; [exact Logic.I|]. right. destruct o as [it2|].
    + split; [|rewrite app_length; lia].
      cbn [frame] in HF. destruct cs as [|d cs]; [discriminate|]. apply IRepT_cons in HF as (r2 & it3 & -> & _). discriminate.
    + cbn in HF. subst cs. discriminate.
Qed.
Lemma kv_next_dep n fuel s : dep n (fun rd => kv_next0 rd fuel s) -> dep n (fun rd => kv_next rd fuel s).
Proof.
  exact (dep_map n _ (fun x => match x with Ok (Some x, s') => Ok (YItem x, s') | Ok (None, s') => Ok (YDone, s')
      | Err => Ok (YError, KV (kv_path s) []) | Panic => Panic | Fuel => Fuel end)).
Qed.
Definition klen (es : list (bytes * bytes)) : nat := list_sum (map (fun e => length (fst e)) es).
Lemma klen_cons e es : klen (e :: es) = length (fst e) + klen es.
Proof. reflexivity. Qed.
Lemma take_dep fuel : forall j path stack es m, St ids rd0 entries path stack es m -> m < fuel ->
  dep (2 * klen (firstn j es)) (fun rd => take rd fuel j (KV path stack)).
Proof.
  induction j as [|j IH]; intros path stack es m HS Hf; [dc|]. cbn [take].
  pose proof (kv_next0_in ids rd0 fuel path stack es m HS Hf) as K. destruct es as [|e es].
  - cbn [firstn]. apply (dep_bind_le _ _ 0 0); [apply kv_next_dep; eapply kv_step_dep; [exact HS|exact Logic.I]|cbn; lia|].
    destruct K as (s & K). intros [y s'] E. unfold kv_next in E. rewrite K in E. injection E as <- <-. dc.
  - cbn [firstn]. rewrite klen_cons. apply (dep_bind_le _ _ (2 * length (fst e)) (2 * klen (firstn j es))); [apply kv_next_dep; eapply kv_step_dep; [exact HS|left; lia]|lia|].
    destruct K as (b & path' & stack' & m' & K & _ & HS' & Hm). intros [y s'] E. unfold kv_next in E. rewrite K in E. injection E as <- <-.
    apply (dep_bind_le _ _ (2 * klen (firstn j es)) 0); [apply (IH _ _ _ _ HS'); lia|lia|]. intros; dc.
Qed.
Lemma take_root_dep fuel j n t : Rep ids rd0 n t -> croot t -> 3 + 3 * size t < fuel ->
  dep (2 * klen (firstn j (entries [] t)) + 2) (fun rd => take rd fuel j (kv_new n)).
Proof.
  intros H Hc Hf. destruct j as [|j]; [dc|]. cbn [take]. unfold kv_new.
  pose proof (kv_next0_root ids rd0 fuel [] n t H Hc Hf) as K.
  pose proof (fun N => kv_root_dep fuel [] n t N H Hc) as D. destruct (entries [] t) as [|e es].
  - cbn [firstn]. apply (dep_bind_le _ _ 2 0); [apply kv_next_dep, D; lia|cbn; lia|].
    destruct K as (s & K). intros [y s'] E. unfold kv_next in E. rewrite K in E. injection E as <- <-. dc.
  - cbn [firstn]. rewrite klen_cons. apply (dep_bind_le _ _ (2 * length (fst e) + 2) (2 * klen (firstn j es))); [apply kv_next_dep, D; cbn [length]; lia|lia|].
    destruct K as (b & path' & stack' & m' & K & _ & HS' & Hm). intros [y s'] E. unfold kv_next in E. rewrite K in E. injection E as <- <-.
    apply (dep_bind_le _ _ (2 * klen (firstn j es)) 0); [apply (take_dep fuel j _ _ _ _ HS'); lia|lia|]. intros; dc.
Qed.
Lemma take_ok fuel : forall j path stack es m, St ids rd0 entries path stack es m -> m < fuel ->
  exists l, take rd0 fuel j (KV path stack) = Ok l /\ Forall2 (erel rd0) l (firstn j es).
Proof.
  induction j as [|j IH]; intros path stack es m HS Hf; [exists []; split; [reflexivity|constructor]|]. cbn [take]. unfold kv_next.
  pose proof (kv_next0_in ids rd0 fuel path stack es m HS Hf) as K. destruct es as [|e es].
  - destruct K as (s & ->). cbn [bind firstn]. exists []. auto.
  - destruct K as (b & path' & stack' & m' & -> & V & HS' & Hm). cbn [bind firstn].
    destruct (IH _ _ _ _ HS' ltac:(lia)) as (l & -> & F). cbn [bind]. eexists. split; [reflexivity|]. constructor; [split; auto|exact F].
Qed.
Lemma take_root_ok fuel j n t : Rep ids rd0 n t -> croot t -> 3 + 3 * size t < fuel ->
  exists l, take rd0 fuel j (kv_new n) = Ok l /\ Forall2 (erel rd0) l (firstn j (entries [] t)).
Proof.
  intros H Hc Hf. destruct j as [|j]; [exists []; split; [reflexivity|constructor]|]. cbn [take]. unfold kv_next, kv_new.
  pose proof (kv_next0_root ids rd0 fuel [] n t H Hc Hf) as K. destruct (entries [] t) as [|e es].
  - destruct K as (s & ->). cbn [bind firstn]. exists []. auto.
  - destruct K as (b & path' & stack' & m' & -> & V & HS' & Hm). cbn [bind firstn].
    destruct (take_ok fuel j _ _ _ _ HS' ltac:(lia)) as (l & -> & F). cbn [bind]. eexists. split; [reflexivity|]. constructor; [split; auto|exact F].
Qed.
Lemma entries_dep l : dep (length l) (fun rd => load_entries rd l).
Proof.
  induction l as [|[k b] l IH]; [dc|]. cbn [load_entries length].
  apply (dep_bind_le _ _ 1 (length l)); [apply dep_value|lia|]. intros x _. apply (dep_bind_le _ _ (length l) 0); [exact IH|lia|]. intros; dc.
Qed.
End LazyIter.
