(** Files that share a cache behave like files that have their own: proofs. *)
From Verif Require Import Base BaseLemmas Header Node Store U64 File Chunk ChunkProofs WebFile WebProofs WebPlans WebSpec WebTop
  WebFs WebFsSpec.
Local Open Scope N_scope.

Definition valid (f : bytes) : Prop := ~ In quest f.
Definition good (L : N) (c : chunk) : Prop := level c <= L /\ level c < u64_max /\ offset c + len c < u64_max.
Definition wfc (L : N) (m : jcache) : Prop :=
  Forall (fun e => exists g c, valid g /\ good L c /\ fst e = request_str g c) m.
(** The entries of file [f]. *)
Definition view (f : bytes) (m : jcache) : cache :=
  flat_map (fun e => match parse_and_filter (fst e) f with Ok (Some c) => [(c, snd e)] | _ => [] end) m.

Lemma good_u64 L c : good L c -> chunk_u64 c.
Proof. unfold good, chunk_u64. lia. Qed.
Lemma good_le L L' c : L <= L' -> good L c -> good L' c.
Proof. unfold good. lia. Qed.
Lemma wfc_le L L' m : L <= L' -> wfc L m -> wfc L' m.
Proof.
  intros H. apply Forall_impl. intros e (g & c & A & B & C). exists g, c. split; [exact A|]. split; [|exact C]. now apply (good_le L).
Qed.
Lemma beq_refl a : bytes_eqb a a = true. Proof. now apply bytes_eqb_spec. Qed.
Lemma beq_neq a b : a <> b -> bytes_eqb a b = false.
Proof. intros H. destruct (bytes_eqb a b) eqn:E; [|reflexivity]. apply bytes_eqb_spec in E. contradiction. Qed.
Lemma beq_dec (a b : bytes) : {a = b} + {a <> b}.
Proof. destruct (bytes_eqb a b) eqn:E; [left; now apply bytes_eqb_spec|right; intros ->; rewrite beq_refl in E; discriminate]. Qed.
Lemma beq_sym a b : bytes_eqb a b = bytes_eqb b a.
Proof. destruct (beq_dec a b) as [->|H]; [reflexivity|]. now rewrite !beq_neq by congruence. Qed.

Lemma view_cons f g L c d m : valid g -> good L c ->
  view f ((request_str g c, d) :: m) = if bytes_eqb g f then (c, d) :: view f m else view f m.
Proof.
  intros Hg Hc. unfold view. cbn [flat_map fst snd]. rewrite parse_request by (exact Hg || exact (good_u64 L c Hc)).
  now destruct (bytes_eqb g f).
Qed.
Lemma wfc_ind (P : jcache -> Prop) L : P [] ->
  (forall g c d m, valid g -> good L c -> wfc L m -> P m -> P ((request_str g c, d) :: m)) ->
  forall m, wfc L m -> P m.
Proof.
  intros H0 H1. induction m as [|[q d] m IH]; intros H; [exact H0|].
  inversion H as [|? ? (g & c & Hg & Hc & E) Hm]; subst. cbn [fst] in E. subst q. auto.
Qed.
Lemma req_eqb L f c g c' : valid f -> good L c -> valid g -> good L c' ->
  bytes_eqb (request_str f c) (request_str g c') = bytes_eqb g f && chunk_eqb c c'.
Proof.
  intros Hf Hc Hg Hc'. destruct (beq_dec (request_str f c) (request_str g c')) as [E|E].
  - rewrite E, beq_refl. apply (request_inj f g c c' Hf Hg (good_u64 _ _ Hc) (good_u64 _ _ Hc')) in E as [-> ->].
    now rewrite beq_refl, eqb_chunk_refl.
  - rewrite (beq_neq _ _ E). symmetry. apply andb_false_iff.
    destruct (beq_dec g f) as [->|]; [right|left; now apply beq_neq].
    apply neqb_chunk. congruence.
Qed.
Lemma view_match L f c m : valid f -> good L c -> wfc L m -> j_match (request_str f c) m = cache_match c (view f m).
Proof.
  intros Hf Hc. revert m. apply wfc_ind; [reflexivity|]. intros g c' d m Hg Hc' Hm IH.
  cbn [j_match]. rewrite (req_eqb L), (view_cons f g L) by assumption.
  destruct (bytes_eqb g f); cbn [andb cache_match]; [|exact IH]. now destruct (chunk_eqb c c').
Qed.
Lemma view_delete L f c m : valid f -> good L c -> wfc L m ->
  view f (j_delete (request_str f c) m) = cache_delete c (view f m).
Proof.
  intros Hf Hc. revert m. apply wfc_ind; [reflexivity|]. intros g c' d m Hg Hc' Hm IH.
  unfold j_delete. cbn [filter fst]. fold (j_delete (request_str f c) m).
  rewrite (req_eqb L), (view_cons f g L) by assumption.
  destruct (bytes_eqb g f) eqn:E; cbn [andb].
  - unfold cache_delete. cbn [filter fst]. fold (cache_delete c (view f m)). destruct (chunk_eqb c c'); cbn [negb]; [exact IH|].
    rewrite (view_cons f g L), E by assumption. now rewrite IH.
  - cbn [negb]. rewrite (view_cons f g L), E by assumption. exact IH.
Qed.
Lemma view_delete_other L f h c m : valid f -> good L c -> wfc L m -> h <> f ->
  view h (j_delete (request_str f c) m) = view h m.
Proof.
  intros Hf Hc Hm Hn. revert m Hm. apply wfc_ind; [reflexivity|]. intros g c' d m Hg Hc' Hm IH.
  unfold j_delete. cbn [filter fst]. fold (j_delete (request_str f c) m).
  rewrite (req_eqb L) by assumption. rewrite (view_cons h g L) by assumption.
  destruct (bytes_eqb g f) eqn:E; cbn [andb].
  - apply bytes_eqb_spec in E as ->. rewrite (beq_neq f h) by congruence.
    destruct (chunk_eqb c c'); cbn [negb]; [exact IH|].
    rewrite (view_cons h f L), (beq_neq f h) by (assumption || congruence). exact IH.
  - cbn [negb]. rewrite (view_cons h g L) by assumption. now rewrite IH.
Qed.
Lemma view_put L f c d m : valid f -> good L c -> wfc L m ->
  view f (j_put (request_str f c) d m) = cache_put c d (view f m).
Proof.
  intros Hf Hc Hm. unfold j_put, cache_put. rewrite (view_cons f f L), beq_refl by assumption.
  now rewrite (view_delete L) by assumption.
Qed.
Lemma view_put_other L f h c d m : valid f -> good L c -> wfc L m -> h <> f ->
  view h (j_put (request_str f c) d m) = view h m.
Proof.
  intros Hf Hc Hm Hn. unfold j_put. rewrite (view_cons h f L), (beq_neq f h) by (assumption || congruence).
  now apply (view_delete_other L).
Qed.
Lemma wfc_filter L p m : wfc L m -> wfc L (filter p m).
Proof. unfold wfc. rewrite !Forall_forall. intros H x Hx. apply filter_In in Hx as [Hx _]. auto. Qed.
Lemma wfc_put L f c d m : valid f -> good L c -> wfc L m -> wfc L (j_put (request_str f c) d m).
Proof. intros Hf Hc Hm. constructor; [exists f, c; cbn; auto|]. now apply wfc_filter. Qed.
Lemma view_size L f m : wfc L m -> cache_size (view f m) <= jcache_size m.
Proof.
  revert m. apply wfc_ind; [cbn; lia|]. intros g c d m Hg Hc Hm IH. rewrite (view_cons f g L) by assumption.
  unfold jcache_size. cbn [fold_right snd]. fold (jcache_size m).
  destruct (bytes_eqb g f); [unfold cache_size; cbn [fold_right snd]; fold (cache_size (view f m))|]; lia.
Qed.
Lemma view_keys L f m : wfc L m -> parse_keys f (map fst m) = Ok (fold_right set_insert [] (map fst (view f m))).
Proof.
  revert m. apply wfc_ind; [reflexivity|]. intros g c d m Hg Hc Hm IH. rewrite (view_cons f g L) by assumption.
  cbn [map fst parse_keys]. rewrite parse_request by (exact Hg || exact (good_u64 L c Hc)).
  destruct (bytes_eqb g f); rewrite IH; reflexivity.
Qed.
Lemma view_good L f m : wfc L m -> Forall (good L) (map fst (view f m)).
Proof.
  revert m. apply wfc_ind; [constructor|]. intros g c d m Hg Hc Hm IH. rewrite (view_cons f g L) by assumption.
  destruct (bytes_eqb g f); [now constructor|exact IH].
Qed.
(** Deleting by path. *)
Lemma same_path_req f g c : valid f -> valid g -> same_path (slash :: f) (request_str g c) = bytes_eqb f g.
Proof.
  intros Hf Hg. unfold same_path. rewrite request_cut by exact Hg.
  assert (forall h, valid h -> cut_query h = (h, None)) as cut_free.
  { induction h as [|b h IH]; intros Hh; cbn [cut_query]; [reflexivity|].
    rewrite (eqb_neq b quest) by (intros ->; apply Hh; now left).
    rewrite IH; [reflexivity|]. intros F. apply Hh. now right. }
  cbn [cut_query]. assert (Byte.eqb slash quest = false) as -> by reflexivity. rewrite cut_free by exact Hf.
  cbn [fst bytes_eqb]. now rewrite eqb_same.
Qed.
Lemma view_delete_path L f m : valid f -> wfc L m ->
  view f (filter (fun e => negb (same_path (slash :: f) (fst e))) m) = [].
Proof.
  intros Hf. revert m. apply wfc_ind; [reflexivity|]. intros g c d m Hg Hc Hm IH. cbn [filter fst].
  rewrite same_path_req by assumption. destruct (bytes_eqb f g) eqn:E; cbn [negb]; [exact IH|].
  rewrite (view_cons f g L), beq_sym, E by assumption. exact IH.
Qed.
Lemma view_delete_path_other L f h m : valid f -> wfc L m -> h <> f ->
  view h (filter (fun e => negb (same_path (slash :: f) (fst e))) m) = view h m.
Proof.
  intros Hf Hm Hn. revert m Hm. apply wfc_ind; [reflexivity|]. intros g c d m Hg Hc Hm IH. cbn [filter fst].
  rewrite same_path_req by assumption. destruct (bytes_eqb f g) eqn:E; cbn [negb].
  - apply bytes_eqb_spec in E as <-. rewrite (view_cons h f L), (beq_neq f h) by (assumption || congruence). exact IH.
  - rewrite !(view_cons h g L) by assumption. now rewrite IH.
Qed.
Lemma exists_path L f m : valid f -> wfc L m ->
  existsb (fun e => same_path (slash :: f) (fst e)) m = match view f m with [] => false | _ => true end.
Proof.
  intros Hf. revert m. apply wfc_ind; [reflexivity|]. intros g c d m Hg Hc Hm IH. cbn [existsb fst].
  rewrite same_path_req, (view_cons f g L), IH, (beq_sym f g) by assumption. destruct (bytes_eqb g f); reflexivity.
Qed.

(** ** Simulation *)
Definition sim {A} (L : N) (f : bytes) (m : wm jfile A) (w : wm wfile A) : Prop :=
  forall j r j', wfc L (j_cache j) -> Forall (good L) (j_chunks j) -> m j = (r, j') ->
  wfc L (j_cache j') /\ Forall (good L) (j_chunks j') /\
  (forall h, h <> f -> view h (j_cache j') = view h (j_cache j)) /\
  forall t2, exists t, w (WFile (j_chunks j) (view f (j_cache j)) t) = (r, WFile (j_chunks j') (view f (j_cache j')) t2).

Lemma sim_ret {A} L f (r : res A) : sim L f (wret r) (wret r).
Proof. intros j r' j' Hm Hc E. injection E as <- <-. repeat split; auto. intros t2. now exists t2. Qed.
Lemma sim_bind {A B} L f (m : wm jfile A) (w : wm wfile A) (k : A -> wm jfile B) (k' : A -> wm wfile B) :
  sim L f m w -> (forall a, sim L f (k a) (k' a)) -> sim L f (wbind m k) (wbind w k').
Proof.
  intros H1 H2 j r j' Hm Hc E. apply wbind_inv in E as (r1 & j1 & E1 & E).
  destruct (H1 _ _ _ Hm Hc E1) as (Hm1 & Hc1 & O1 & S1).
  assert (forall r2, r1 = r2 -> (r2 = Err \/ r2 = Panic \/ r2 = Fuel) -> j' = j1 ->
    (r2 = Err -> r = Err) -> (r2 = Panic -> r = Panic) -> (r2 = Fuel -> r = Fuel) ->
    wfc L (j_cache j') /\ Forall (good L) (j_chunks j') /\ (forall h, h <> f -> view h (j_cache j') = view h (j_cache j)) /\
    forall t2, exists t, wbind w k' (WFile (j_chunks j) (view f (j_cache j)) t) = (r, WFile (j_chunks j') (view f (j_cache j')) t2)) as K.
  { intros r2 -> Hr -> A1 A2 A3. repeat split; auto. intros t2. destruct (S1 t2) as (t & Et). exists t.
    unfold wbind. rewrite Et. destruct Hr as [->|[->| ->]]; [rewrite A1|rewrite A2|rewrite A3]; reflexivity. }
  destruct E as [(a & -> & E)|[(-> & -> & ->)| [(-> & -> & ->)|(-> & -> & ->)]]].
  - destruct (H2 a _ _ _ Hm1 Hc1 E) as (Hm2 & Hc2 & O2 & S2). repeat split; auto.
    + intros h Hh. now rewrite O2, O1.
    + intros t2. destruct (S2 t2) as (t1 & Et1). destruct (S1 t1) as (t & Et). exists t.
      unfold wbind. rewrite Et. exact Et1.
  - eapply K; eauto; congruence.
  - eapply K; eauto; congruence.
  - eapply K; eauto; congruence.
Qed.
Lemma sim_js {A} L f (m : wm jfile A) (w : wm wfile A) : sim L f m w -> sim L f (jjs m) (js w).
Proof.
  intros H j r j' Hm Hc E. unfold jjs in E. destruct (j_faults j) as [|[] t0] eqn:Ef; cbn [tl] in E.
  2:{ injection E as <- <-. cbn [j_cache j_chunks]. repeat split; auto. intros t2. exists (true :: t2). reflexivity. }
  all: apply H in E as (Hm' & Hc' & O & S); cbn [j_cache j_chunks] in *; auto; repeat split; auto;
    intros t2; destruct (S t2) as (t & Et); exists (false :: t); exact Et.
Qed.

Section File.
Context (L : N) (f : bytes) (Hf : valid f).
Notation sim := (sim L f).

Lemma sim_load_range c r : good L c -> sim (j_load_range f c r) (load_range c r).
Proof.
  intros Hc. unfold j_load_range, load_range. apply sim_js. intros j q j' Hm Hcs E. injection E as <- <-.
  repeat split; auto. intros t2. exists t2. cbn [w_cache]. now rewrite (view_match L) by assumption.
Qed.
Lemma sim_load_loop r : forall cs buf, Forall (good L) cs -> sim (j_load_loop f r cs buf) (load_loop r cs buf).
Proof.
  induction cs as [|c cs IH]; intros buf H; cbn [j_load_loop load_loop]; [apply sim_ret|].
  inversion H; subst. apply sim_bind; [apply sim_ret|]. intros x. apply sim_bind; [now apply sim_load_range|]. intros d.
  apply sim_bind; [apply sim_ret|]. intros b. now apply IH.
Qed.
Lemma sim_load_chunks r cs : Forall (good L) cs -> sim (j_load_chunks f r cs) (load_chunks r cs).
Proof. intros H. unfold j_load_chunks, load_chunks. apply sim_bind; [apply sim_ret|]. intros n. now apply sim_load_loop. Qed.
Lemma good_filter p cs : Forall (good L) cs -> Forall (good L) (filter p cs).
Proof. rewrite !Forall_forall. intros H x Hx. apply filter_In in Hx as [Hx _]. auto. Qed.
(** Calls that look at the chunks. *)
Lemma sim_chunks {A} (m : list chunk -> wm jfile A) (w : list chunk -> wm wfile A) :
  (forall cs, Forall (good L) cs -> sim (m cs) (w cs)) -> sim (fun j => m (j_chunks j) j) (fun w0 => w (w_chunks w0) w0).
Proof. intros H j r j' Hm Hc E. destruct (H _ Hc j r j' Hm Hc E) as (A1 & A2 & A3 & A4). repeat split; auto. Qed.
Lemma sim_read_raw r : sim (j_read_raw f r) (read_raw r).
Proof.
  apply (sim_chunks (fun cs => j_load_chunks f r (intersecting cs r)) (fun cs => load_chunks r (intersecting cs r))).
  intros cs H. apply sim_load_chunks. now apply good_filter.
Qed.
Lemma sim_read r : sim (j_read f r) (wf_read r).
Proof.
  apply (sim_chunks (fun cs => _ <~ wret (to_usize (snd r - fst r)) ;;
     _ <~ wret (if snd r <=? snd (crange (prev cs)) then Ok tt else Err) ;; j_read_raw f r)
   (fun cs => _ <~ wret (to_usize (snd r - fst r)) ;;
     _ <~ wret (if snd r <=? snd (crange (prev cs)) then Ok tt else Err) ;; read_raw r)).
  intros cs H. apply sim_bind; [apply sim_ret|]. intros _. apply sim_bind; [apply sim_ret|]. intros _. apply sim_read_raw.
Qed.
Lemma sim_load_lp o : sim (j_load_lp f o) (wf_load_lp o).
Proof.
  pose (e := fun cs => match intersecting cs (o, o + 4) with
           | [] => o
           | c :: r => fold_left (fun m c => N.max m (snd (crange c))) r (snd (crange c))
           end).
  apply (sim_chunks (fun cs => _ <~ wret (sum_ok o 4) ;;
     b <~ j_load_chunks f (o, e cs) (intersecting cs (o, o + 4)) ;; h <~ wret (slice_to 4 b) ;;
     wret (if of_be h + 4 <=? N.of_nat (length b) then Ok (firstn (N.to_nat (of_be h)) (skipn 4 b)) else Err))
   (fun cs => _ <~ wret (sum_ok o 4) ;;
     b <~ load_chunks (o, e cs) (intersecting cs (o, o + 4)) ;; h <~ wret (slice_to 4 b) ;;
     wret (if of_be h + 4 <=? N.of_nat (length b) then Ok (firstn (N.to_nat (of_be h)) (skipn 4 b)) else Err))).
  intros cs H. apply sim_bind; [apply sim_ret|]. intros _. apply sim_bind; [apply sim_load_chunks; now apply good_filter|].
  intros b. apply sim_bind; [apply sim_ret|]. intros h. apply sim_ret.
Qed.

Lemma good_insert c cs : good L c -> Forall (good L) cs -> Forall (good L) (set_insert c cs).
Proof. rewrite !Forall_forall. intros Hc H x Hx. apply set_insert_in in Hx as [->|Hx]; auto. Qed.
Lemma sim_write_chunk c d : good L c -> sim (j_write_chunk f c d) (write_chunk c d).
Proof.
  intros Hc j r j' Hm Hcs E. unfold j_write_chunk, jjs in E.
  assert (forall t0, (if j_other j + jcache_size (j_cache j) + N.of_nat (length d) <? quota
    then (Ok tt, JFile (set_insert c (j_chunks j)) (j_put (request_str f c) d (j_cache j)) (j_other j) t0)
    else (Err, JFile (j_chunks j) (j_cache j) (j_other j) t0)) = (r, j') ->
    wfc L (j_cache j') /\ Forall (good L) (j_chunks j') /\ (forall h, h <> f -> view h (j_cache j') = view h (j_cache j)) /\
    forall t2, exists t, write_chunk c d (WFile (j_chunks j) (view f (j_cache j)) t) = (r, WFile (j_chunks j') (view f (j_cache j')) t2)) as K.
  { intros t0 E'. destruct (N.ltb_spec (j_other j + jcache_size (j_cache j) + N.of_nat (length d)) quota) as [Q|Q];
      injection E' as <- <-; cbn [j_cache j_chunks].
    - split; [now apply wfc_put|]. split; [now apply good_insert|]. split.
      + intros h Hh. now apply (view_put_other L).
      + intros t2. exists (false :: t2). unfold write_chunk, js. cbn [w_faults tl w_chunks w_cache].
        pose proof (view_size L f _ Hm).
        assert (cache_size (view f (j_cache j)) + N.of_nat (length d) <? quota = true) as -> by (apply N.ltb_lt; lia).
        now rewrite (view_put L) by assumption.
    - repeat split; auto. intros t2. exists (true :: t2). reflexivity. }
  destruct (j_faults j) as [|[] t0]; cbn [tl j_other j_cache j_chunks j_faults] in E.
  - exact (K _ E).
  - injection E as <- <-. repeat split; auto. intros t2. exists (true :: t2). reflexivity.
  - exact (K _ E).
Qed.
Definition op_good (o : wop) : Prop :=
  match o with WRewrite c | WDelete c | WWrite c _ => good L c end.
Lemma sim_exec_op o : op_good o -> sim (j_exec_op f o) (exec_op o).
Proof.
  intros Ho. destruct o as [c|c|c d]; cbn [j_exec_op exec_op op_good] in *.
  - apply sim_bind; [apply sim_read_raw|]. intros d. now apply sim_write_chunk.
  - apply sim_js. intros j r j' Hm Hcs E. injection E as <- <-. cbn [j_cache j_chunks].
    split; [now apply wfc_filter|]. split; [now apply good_filter|]. split.
    + intros h Hh. now apply (view_delete_other L).
    + intros t2. exists t2. cbn [w_chunks w_cache w_faults]. now rewrite (view_delete L) by assumption.
  - now apply sim_write_chunk.
Qed.
Lemma sim_execute p : Forall op_good p -> sim (j_execute f p) (execute_plan p).
Proof.
  induction 1 as [|o p Ho Hp IH]; cbn [j_execute execute_plan]; [apply sim_ret|].
  apply sim_bind; [now apply sim_exec_op|]. intros _. exact IH.
Qed.
End File.

(** ** The plans *)
Lemma next_level_le L cs : Forall (good L) cs -> next_level cs <= L + 1.
Proof.
  intros H. unfold next_level. destruct cs as [|c cs]; [lia|].
  assert (forall l m, Forall (good L) l -> m <= L -> fold_left (fun m c => N.max m (level c)) l m <= L) as K.
  { induction l as [|a l IH]; intros m Hl Hm; cbn [fold_left]; [exact Hm|]. inversion Hl as [|? ? Ha Hl']; subst.
    apply IH; [exact Hl'|]. destruct Ha. lia. }
  pose proof (K (c :: cs) 0 H ltac:(lia)). lia.
Qed.
Lemma add_good L cs o d : Forall (good L) cs -> o + N.of_nat (length d) < u64_max ->
  next_level (intersecting cs (o, o + N.of_nat (length d))) < u64_max -> Forall (op_good (L + 1)) (add cs o d).
Proof.
  intros H Ho Hl. unfold add. cbv zeta. fold (intersecting cs (o, o + N.of_nat (length d))).
  set (rel := intersecting cs (o, o + N.of_nat (length d))) in *.
  assert (Forall (good L) rel) as Hr by (now apply good_filter).
  pose proof (next_level_le _ _ Hr) as Hn. set (l := next_level rel) in *.
  constructor; [unfold op_good, good, chunk_new; cbn [level offset len fst snd]; lia|].
  apply Forall_app. rewrite Forall_forall in Hr. split.
  - apply Forall_forall. intros x Hx. apply in_map_iff in Hx as (c & <- & Hc). apply filter_In in Hc as [Hc _].
    apply (good_le L); [lia|auto].
  - apply Forall_forall. intros x Hx. apply in_flat_map in Hx as (c & Hc & Hx). apply filter_In in Hc as [Hc _].
    specialize (Hr _ Hc). destruct Hr as (G1 & G2 & G3). unfold rewrite_ops in Hx. cbn [fst snd crange] in Hx.
    apply in_app_or in Hx as [Hx|Hx]; [|apply in_app_or in Hx as [Hx|Hx]].
    + destruct (N.ltb_spec (offset c) o); [|contradiction]. destruct Hx as [<-|[]].
      unfold op_good, good, chunk_new; cbn [level offset len fst snd]. lia.
    + destruct (N.ltb_spec (o + N.of_nat (length d)) (offset c + len c)); [|contradiction]. destruct Hx as [<-|[]].
      unfold op_good, good, chunk_new; cbn [level offset len fst snd]. lia.
    + destruct Hx as [<-|[]]. unfold op_good, good. lia.
Qed.
Lemma truncate_good L cs o : Forall (good L) cs ->
  next_level (filter (fun c => o <? snd (crange c)) cs) < u64_max -> Forall (op_good (L + 1)) (truncate cs o).
Proof.
  intros H Hl. unfold truncate. cbv zeta.
  set (rel := filter (fun c => o <? snd (crange c)) cs) in *.
  assert (Forall (good L) rel) as Hr by (now apply good_filter).
  assert (forall c, In c rel -> o < offset c + len c) as Ho.
  { intros c Hc. apply filter_In in Hc as [_ Hc]. now apply N.ltb_lt in Hc. }
  pose proof (next_level_le _ _ Hr) as Hn. set (l := next_level rel) in *. clearbody rel l.
  rewrite Forall_forall in Hr. apply Forall_app. split.
  - destruct rel as [|c r]; [constructor|]. set (st := fold_left _ r _). destruct (N.ltb_spec st o); [|constructor].
    constructor; [|constructor]. destruct (Hr c ltac:(now left)) as (G1 & G2 & G3). specialize (Ho c ltac:(now left)).
    unfold op_good, good, chunk_new; cbn [level offset len fst snd]. lia.
  - apply Forall_forall. intros x Hx. apply in_map_iff in Hx as (c & <- & Hc).
    apply (good_le L); [lia|auto].
Qed.

(** ** The calls that change a file *)
Definition jcall (f : bytes) (k : call) : wm jfile (option N) :=
  match k with
  | CWrite o d => _ <~ j_write f o d ;; wret (Ok None)
  | CAppend d => o <~ j_append f d ;; wret (Ok (Some o))
  | CTruncate n => _ <~ j_truncate f n ;; wret (Ok None)
  | COpen => wret Err
  end.
Definition jfile_to (f : bytes) (j : jfile) : wfile := WFile (j_chunks j) (view f (j_cache j)) [].

Lemma wbind_ret {X A B} (r : res A) (k : A -> wm X B) s : wbind (wret r) k s =
  match r with Ok a => k a s | Err => (Err, s) | Panic => (Panic, s) | Fuel => (Fuel, s) end.
Proof. reflexivity. Qed.

Lemma good_up L cs : Forall (good L) cs -> Forall (good (L + 1)) cs.
Proof. apply Forall_impl. intros c. apply good_le. lia. Qed.

Lemma jwrite_level L f o d j q j' : valid f -> wfc L (j_cache j) -> Forall (good L) (j_chunks j) ->
  j_write f o d j = (q, j') ->
  q = Panic /\ u64_max <= next_level (intersecting (j_chunks j) (o, o + N.of_nat (length d))) /\ j' = j \/
  wfc (L + 1) (j_cache j') /\ Forall (good (L + 1)) (j_chunks j') /\
  (forall h, h <> f -> view h (j_cache j') = view h (j_cache j)) /\
  exists t, wf_write o d (WFile (j_chunks j) (view f (j_cache j)) t) = (q, jfile_to f j').
Proof.
  intros Hf Hm Hc. pose proof (wfc_le L (L + 1) _ ltac:(lia) Hm) as Hm1. pose proof (good_up _ _ Hc) as Hc1.
  unfold j_write, wf_write. cbn [w_chunks]. rewrite wbind_ret.
  destruct (sum_ok_cases o (N.of_nat (length d))) as [Es|[Es _]].
  { rewrite Es, wbind_ret. unfold sum_ok in Es. destruct (N.ltb_spec (o + N.of_nat (length d)) u64_max) as [Ho|]; [|discriminate].
  unfold level_ok.
  destruct (N.ltb_spec (next_level (intersecting (j_chunks j) (o, o + N.of_nat (length d)))) u64_max) as [Hl|Hl]; intros Eq.
  - right. destruct (sim_execute (L + 1) f Hf _ (add_good L _ _ _ Hc Ho Hl) _ _ _ Hm1 Hc1 Eq) as (A1 & A2 & A3 & A4).
    repeat split; auto. destruct (A4 []) as (t & Et). exists t. rewrite wbind_ret. exact Et.
  - left. injection Eq as <- <-. auto. }
  rewrite Es. intros E'. right. injection E' as <- <-. repeat split; auto. exists []. reflexivity.
Qed.
Lemma jwrite_sim L f o d j q j' : valid f -> wfc L (j_cache j) -> Forall (good L) (j_chunks j) ->
  j_write f o d j = (q, j') ->
  q = Panic /\ u64_max <= L + 1 /\ j' = j \/
  wfc (L + 1) (j_cache j') /\ Forall (good (L + 1)) (j_chunks j') /\
  (forall h, h <> f -> view h (j_cache j') = view h (j_cache j)) /\
  exists t, wf_write o d (WFile (j_chunks j) (view f (j_cache j)) t) = (q, jfile_to f j').
Proof.
  intros Hf Hm Hc E. destruct (jwrite_level L f o d j q j' Hf Hm Hc E) as [(-> & Hl & ->)|A]; [left|now right].
  pose proof (next_level_le L _ (good_filter L (fun c => overlap (crange c) (o, o + N.of_nat (length d))) _ Hc)).
  unfold intersecting in Hl. repeat split; auto. lia.
Qed.
Lemma jtruncate_sim L f n j q j' : valid f -> wfc L (j_cache j) -> Forall (good L) (j_chunks j) ->
  j_truncate f n j = (q, j') ->
  q = Panic /\ u64_max <= L + 1 /\ j' = j \/
  wfc (L + 1) (j_cache j') /\ Forall (good (L + 1)) (j_chunks j') /\
  (forall h, h <> f -> view h (j_cache j') = view h (j_cache j)) /\
  exists t, wf_truncate n (WFile (j_chunks j) (view f (j_cache j)) t) = (q, jfile_to f j').
Proof.
  intros Hf Hm Hc. pose proof (wfc_le L (L + 1) _ ltac:(lia) Hm) as Hm1. pose proof (good_up _ _ Hc) as Hc1.
  unfold j_truncate, wf_truncate. cbn [w_chunks]. rewrite wbind_ret. unfold level_ok.
  destruct (N.ltb_spec (next_level (filter (fun c => n <? snd (crange c)) (j_chunks j))) u64_max) as [Hl|Hl]; intros Eq.
  - right. destruct (sim_execute (L + 1) f Hf _ (truncate_good L _ _ Hc Hl) _ _ _ Hm1 Hc1 Eq) as (A1 & A2 & A3 & A4).
    repeat split; auto. destruct (A4 []) as (t & Et). exists t. exact Et.
  - left. injection Eq as <- <-.
    pose proof (next_level_le L _ (good_filter L (fun c => n <? snd (crange c)) _ Hc)). repeat split; auto. lia.
Qed.
Lemma step_bind {A B} (m : wm wfile A) (g : A -> res B) s r s' : m s = (r, s') ->
  (x <~ m ;; wret (g x)) s = (bind r g, s').
Proof. intros E. unfold wbind. rewrite E. destruct r; reflexivity. Qed.
Lemma jstep_bind {A B} (m : wm jfile A) (g : A -> res B) s r s' : (x <~ m ;; wret (g x)) s = (r, s') ->
  exists q, m s = (q, s') /\ r = bind q g.
Proof.
  intros E. apply wbind_inv in E as (q & s1 & E1 & [(a & -> & E)|[(-> & -> & ->)| [(-> & -> & ->)|(-> & -> & ->)]]]);
    [|eexists; split; [eassumption|reflexivity]..].
  injection E as <- <-. eexists. split; [eassumption|reflexivity].
Qed.
Lemma wf_append_write d w : wf_append d w = (_ <~ wf_write (snd (crange (prev (w_chunks w)))) d ;;
  wret (Ok (snd (crange (prev (w_chunks w)))))) w.
Proof.
  unfold wf_append, wf_write. cbv zeta. unfold wbind, wret. destruct (sum_ok _ _); reflexivity.
Qed.

Lemma jcall_sim L f k j r j' : valid f -> wfc L (j_cache j) -> Forall (good L) (j_chunks j) -> k <> COpen ->
  jcall f k j = (r, j') ->
  r = Panic /\ u64_max <= L + 1 /\ j' = j \/
  wfc (L + 1) (j_cache j') /\ Forall (good (L + 1)) (j_chunks j') /\
  (forall h, h <> f -> view h (j_cache j') = view h (j_cache j)) /\
  exists t, step (k, t) (jfile_to f j) = (r, jfile_to f j').
Proof.
  intros Hf Hm Hc Hk E. destruct k as [o d|d|n|]; [| | |congruence]; cbn [jcall] in E.
  - apply jstep_bind in E as (q & E & ->).
    destruct (jwrite_sim L f o d j q j' Hf Hm Hc E) as [(-> & A & ->)|(A1 & A2 & A3 & t & Et)]; [left; auto|].
    right. repeat split; auto. exists t. unfold step. cbn [fst snd with_faults jfile_to w_chunks w_cache].
    apply (step_bind _ (fun _ => Ok None)). exact Et.
  - unfold j_append in E. apply jstep_bind in E as (q & E & ->). apply jstep_bind in E as (q' & E & ->).
    destruct (jwrite_sim L f _ d j q' j' Hf Hm Hc E) as [(-> & A & ->)|(A1 & A2 & A3 & t & Et)]; [left; auto|].
    right. repeat split; auto. exists t. unfold step. cbn [fst snd with_faults jfile_to w_chunks w_cache].
    apply (step_bind _ (fun o => Ok (Some o))). rewrite wf_append_write. cbn [w_chunks].
    apply (step_bind _ (fun _ => Ok _)). exact Et.
  - apply jstep_bind in E as (q & E & ->).
    destruct (jtruncate_sim L f n j q j' Hf Hm Hc E) as [(-> & A & ->)|(A1 & A2 & A3 & t & Et)]; [left; auto|].
    right. repeat split; auto. exists t. unfold step. cbn [fst snd with_faults jfile_to w_chunks w_cache].
    apply (step_bind _ (fun _ => Ok None)). exact Et.
Qed.
