(** Blobs in a file of the file system: proofs. *)
From Coq Require Import ZArith.
From Verif Require Import FileProofs Base BaseLemmas Header Node Store StoreSpec U64 File Chunk ChunkProofs WebFile WebProofs WebPlans
  WebSpec WebTop WebStore WebAppend WebFs WebFsSpec WebFsSim WebFsProofs WebSyncProofs WebFsStaleSpec WebFsStale WebFsLike WebFsBlob.
Local Open Scope N_scope.

(** ** What one command does to one file *)
Definition fview (s : fs) (d f : bytes) : cache := view f (obj s d).
Lemma like_view d f s s1 : like d s s1 -> fview s1 d f = fview s d f.
Proof. intros H. unfold fview. now rewrite (like_obj _ _ _ H). Qed.

Lemma on_view s W d o files f m' fs' : Inv s W -> get d (fs_dirs s) = Some (o, files) ->
  (forall h, h <> f -> view h m' = view h (nth o (fs_objs s) [])) -> (forall h, h <> f -> get h fs' = get h files) ->
  let s' := Fs (replace o m' (fs_objs s)) (fs_names s) (set d (o, fs') (fs_dirs s)) (fs_up s) in
  open_chunks s' d f = get f fs' /\ fview s' d f = view f m' /\
  forall d' f', d' <> d \/ f' <> f -> open_chunks s' d' f' = open_chunks s d' f' /\ fview s' d' f' = fview s d' f'.
Proof.
  intros I Hd Hv Hg s'.
  pose proof (i_dirs _ _ I _ _ _ Hd) as Hn. pose proof (i_names _ _ I _ _ Hn) as Hlt.
  unfold fview, obj, open_chunks. cbn [s' fs_objs fs_names fs_dirs]. rewrite get_set_same, Hn, nth_replace, Nat.eqb_refl by exact Hlt.
  split; [reflexivity|]. split; [reflexivity|]. intros d' f' H. destruct (beq_dec d' d) as [->|Hdd].
  - rewrite get_set_same, Hn, nth_replace, Nat.eqb_refl, Hd by exact Hlt.
    destruct H as [H|H]; [congruence|]. split; [now apply Hg|now apply Hv].
  - rewrite get_set_ne by exact Hdd. split; [reflexivity|].
    destruct (get d' (fs_names s)) as [o'|] eqn:E; [|reflexivity]. rewrite nth_replace by exact Hlt.
    destruct (Nat.eqb_spec o o') as [->|]; [|reflexivity]. exfalso. apply Hdd. eapply i_inj; eassumption.
Qed.

(** The blob that a command adds. *)
Definition added (d f : bytes) (c : cmd) (r : res reply) : list (N * bytes) :=
  match c, r with
  | KAppend d' f' b, Ok (RNum n) => if bytes_eqb d' d && bytes_eqb f' f then [(n, b)] else []
  | _, _ => []
  end.

(** The file stays as it is, is opened, or is changed by one call. *)
Inductive file_step (d f : bytes) (c : cmd) (r : res reply) (s s' : fs) : Prop :=
| FS_same : open_chunks s' d f = open_chunks s d f -> fview s' d f = fview s d f -> added d f c r = [] -> file_step d f c r s s'
| FS_open : c = KOpenFile d f -> open_chunks s d f = None ->
    open_chunks s' d f = Some (fold_right set_insert [] (map fst (fview s d f))) -> fview s' d f = fview s d f ->
    file_step d f c r s s'
| FS_change k w t cs cs' q : change c d f k w -> open_chunks s d f = Some cs -> open_chunks s' d f = Some cs' ->
    step (k, t) (WFile cs (fview s d f) []) = (q, WFile cs' (fview s' d f) []) -> r = (x <- q ;; Ok (w x)) ->
    file_step d f c r s s'.

Definition not_deleted (d f : bytes) (c : cmd) : Prop := c <> KDeleteDir d /\ c <> KDeleteFile d f.

(** Commands on an open file. *)
Lemma ro_file {A} s W d0 f0 o files cs (m : wm jfile A) (w : wm wfile A) t q j' c r d f : Inv s W -> valid f0 ->
  get d0 (fs_dirs s) = Some (o, files) -> get f0 files = Some cs ->
  sim (changes W) f0 m w ->
  (forall t' r g, w (WFile cs (view f0 (nth o (fs_objs s) [])) t') = (r, g) -> same (WFile cs (view f0 (nth o (fs_objs s) [])) t') g) ->
  m (jfile_of s o cs t) = (q, j') -> added d f c r = [] ->
  file_step d f c r s (Fs (replace o (j_cache j') (fs_objs s)) (fs_names s) (set d0 (o, set f0 (j_chunks j') files) (fs_dirs s)) (fs_up s)).
Proof.
  intros I Hf Hd Hg HS Hw E Ha. destruct (open_inv _ _ _ _ _ _ _ I Hf Hd Hg) as (Ho & Hm & Hc & R).
  destruct (HS (jfile_of s o cs t) _ _ Hm Hc E) as (A1 & A2 & A3 & A4). destruct (A4 []) as (t' & Et). cbn [jfile_of j_chunks j_cache] in *.
  pose proof (Hw _ _ _ Et) as [S1 S2]. cbn [w_chunks w_cache] in S1, S2.
  destruct (on_view s W d0 o files f0 (j_cache j') (set f0 (j_chunks j') files) I Hd A3) as (B1 & B2 & B3);
    [intros h Hh; now apply get_set_ne|].
  assert (obj s d0 = nth o (fs_objs s) []) as Eo by (unfold obj; now rewrite (i_dirs _ _ I _ _ _ Hd)).
  destruct (beq_dec d d0) as [->|Hdd]; [destruct (beq_dec f f0) as [->|Hff]|].
  - apply FS_same.
    + rewrite B1, get_set_same. unfold open_chunks. now rewrite Hd, Hg, S1.
    + rewrite B2. unfold fview. now rewrite Eo, S2.
    + exact Ha.
  - destruct (B3 d0 f) as [C1 C2]; [now right|]. now apply FS_same.
  - destruct (B3 d f) as [C1 C2]; [now left|]. now apply FS_same.
Qed.
Lemma rw_file s W d0 f0 o files cs k w t q j' c d f : Inv s W -> valid f0 ->
  get d0 (fs_dirs s) = Some (o, files) -> get f0 files = Some cs ->
  change c d0 f0 k w -> k <> COpen -> jcall f0 k (jfile_of s o cs t) = (q, j') ->
  file_step d f c (x <- q ;; Ok (w x)) s (Fs (replace o (j_cache j') (fs_objs s)) (fs_names s) (set d0 (o, set f0 (j_chunks j') files) (fs_dirs s)) (fs_up s)).
Proof.
  intros I Hf Hd Hg Hch Hk E. destruct (open_inv _ _ _ _ _ _ _ I Hf Hd Hg) as (Ho & Hm & Hc & R).
  assert ((forall h, h <> f0 -> view h (j_cache j') = view h (nth o (fs_objs s) [])) /\
    (q = Panic /\ j_chunks j' = cs /\ j_cache j' = nth o (fs_objs s) [] \/
     exists t', step (k, t') (WFile cs (view f0 (nth o (fs_objs s) [])) []) = (q, WFile (j_chunks j') (view f0 (j_cache j')) []))) as (A3 & A4).
  { destruct (jcall_sim (changes W) f0 k (jfile_of s o cs t) q j' Hf Hm Hc Hk E) as [(-> & Hu & ->)|(A1 & A2 & A3 & t' & Et)].
    - split; [reflexivity|left; repeat split; reflexivity].
    - split; [exact A3|right; exists t'; exact Et]. }
  destruct (on_view s W d0 o files f0 (j_cache j') (set f0 (j_chunks j') files) I Hd A3) as (B1 & B2 & B3);
    [intros h Hh; now apply get_set_ne|].
  assert (obj s d0 = nth o (fs_objs s) []) as Eo by (unfold obj; now rewrite (i_dirs _ _ I _ _ _ Hd)).
  assert (d <> d0 \/ f <> f0 -> added d f c (x <- q ;; Ok (w x)) = []) as Ha.
  { intros Hne. destruct c; try reflexivity. inversion Hch; subst. cbn [added].
    destruct (x <- q ;; Ok _) as [[]| | |]; try reflexivity.
    destruct Hne as [Hne|Hne]; [rewrite (beq_neq d0 d) by congruence|rewrite (beq_neq f0 f) by congruence; rewrite andb_false_r]; reflexivity. }
  destruct (beq_dec d d0) as [->|Hdd]; [destruct (beq_dec f f0) as [->|Hff]|].
  - destruct A4 as [(Hq & C1 & C2)|(t' & Et)].
    + apply FS_same.
      * rewrite B1, get_set_same. unfold open_chunks. now rewrite Hd, Hg, C1.
      * rewrite B2. unfold fview. now rewrite Eo, C2.
      * subst q. now destruct c.
    + eapply (FS_change _ _ _ _ _ _ k w t' cs (j_chunks j') q); auto.
      * unfold open_chunks. now rewrite Hd, Hg.
      * now rewrite B1, get_set_same.
      * rewrite B2. unfold fview at 1. rewrite Eo. exact Et.
  - destruct (B3 d0 f) as [C1 C2]; [now right|]. apply FS_same; auto.
  - destruct (B3 d f) as [C1 C2]; [now left|]. apply FS_same; auto.
Qed.

Lemma file_step_down d f c r s s' b : file_step d f c r s s' -> file_step d f c r s (Fs (fs_objs s') (fs_names s') (fs_dirs s') b).
Proof.
  intros [A1 A2 A2'|A1 A2 A3 A4|k w t cs cs' q A1 A2 A3 A4 A5].
  - now apply FS_same.
  - now apply FS_open.
  - now apply (FS_change _ _ _ _ _ _ k w t cs cs' q).
Qed.

Lemma on_file_map' {A B} d f (m : wm jfile A) (g : A -> B) (k : B -> reply) (k' : A -> reply) t s :
  (forall x, k' x = k (g x)) -> on_file d f m k' t s = on_file d f (x <~ m ;; wret (Ok (g x))) k t s.
Proof.
  intros H. unfold on_file. destruct (get d (fs_dirs s)) as [[o files]|]; [|reflexivity]. destruct (get f files) as [cs|]; [|reflexivity].
  unfold wbind, wret. destruct (m (jfile_of s o cs t)) as [[x| | |] j]; cbn [bind]; rewrite ?H; reflexivity.
Qed.

Lemma call_file s W c t r s' d f : Inv s W -> event_ok (Call c t) ->
  (forall d, c = KDeleteDir d -> get d (fs_dirs s) = None) -> valid f -> not_deleted d f c ->
  fs_call c t s = (r, s') -> file_step d f c r s s'.
Proof.
  intros I Hok Hdel Hf [N1 N2] E. unfold fs_call in E. destruct (fs_up s) eqn:Hup.
  2:{ injection E as <- <-. apply FS_same; auto. now destruct c. }
  destruct (fs_exec c t s) as [r1 s1] eqn:Ex. injection E as <- <-.
  cut (file_step d f c r1 s s1); [destruct r1; auto; apply file_step_down|].
  assert (forall d0 f0 k w, valid f0 -> change c d0 f0 k w -> k <> COpen -> on_file d0 f0 (jcall f0 k) w t s = (r1, s1) ->
    file_step d f c r1 s s1) as RW.
  { intros d0 f0 k w Hf0 Hch Hk Eq. apply on_file_inv in Eq as [(A & -> & ->)|(o & files & cs & q & j' & Hd & Hg & E & -> & ->)].
    - apply FS_same; auto. now destruct c.
    - eapply rw_file; eassumption. }
  destruct c as [d0|d0|d0 f0|d0 f0|d0 f0|d0 f0|d0 f0 o b|d0 f0 a e|d0 f0|d0 f0 n|d0 f0 b|d0 f0 o|]; cbn [fs_exec event_ok] in Ex, Hok.
  - destruct (get d0 (fs_dirs s)) as [v|] eqn:Hd; [injection Ex as <- <-; now apply FS_same|].
    destruct t as [|[] t]; cbn [fs_js] in Ex; try (injection Ex as <- <-; now apply FS_same).
    all: destruct (get d0 (fs_names s)) as [o|] eqn:Hn; injection Ex as <- <-.
    all: assert (forall ob nm o', open_chunks (Fs ob nm (set d0 (o', []) (fs_dirs s)) (fs_up s)) d f = open_chunks s d f) as Ho
      by (intros ob nm o'; unfold open_chunks; cbn [fs_dirs]; rewrite get_set; destruct (beq_dec d0 d) as [<-|Hdd];
          [now rewrite beq_refl, Hd|now rewrite beq_neq by exact Hdd]).
    all: apply FS_same; [apply Ho| |reflexivity].
    all: try reflexivity.
    all: pose proof (inv_create _ _ _ I Hn) as IC; unfold fview, obj; cbn [fs_objs fs_names]; rewrite get_set.
    all: assert (forall o, nth o (fs_objs s ++ [[]]) [] = nth o (fs_objs s) []) as En
      by (intros o; destruct (Nat.lt_ge_cases o (length (fs_objs s))) as [H|H];
          [now apply app_nth1|rewrite app_nth2 by exact H; rewrite (nth_overflow (fs_objs s)) by exact H;
            destruct (o - length (fs_objs s))%nat as [|[|]]; reflexivity]).
    all: destruct (beq_dec d0 d) as [<-|Hdd]; [rewrite beq_refl, Hn, En, nth_overflow by lia; reflexivity|].
    all: rewrite beq_neq by exact Hdd; destruct (get d (fs_names s)); [now rewrite En|reflexivity].
  - destruct t as [|[] t]; cbn [fs_js] in Ex; injection Ex as <- <-; try now apply FS_same.
    all: apply FS_same; [reflexivity| |reflexivity]; unfold fview, obj; cbn [fs_objs fs_names]; rewrite get_del, beq_neq by congruence; reflexivity.
  - destruct (get d0 (fs_dirs s)) as [[o files]|] eqn:Hd; [|injection Ex as <- <-; now apply FS_same].
    destruct (get f0 files) as [cs|] eqn:Hg; [injection Ex as <- <-; now apply FS_same|].
    destruct (j_find f0 (jfile_of s o [] t)) as [q j'] eqn:Ef. cbn [fst] in Ex.
    destruct q as [cs| | |]; injection Ex as <- <-; try now apply FS_same.
    assert (obj s d0 = nth o (fs_objs s) []) as Eo by (unfold obj; now rewrite (i_dirs _ _ I _ _ _ Hd)).
    destruct (on_view s W d0 o files f0 (nth o (fs_objs s) []) (set f0 cs files) I Hd ltac:(reflexivity)) as (B1 & B2 & B3);
      [intros h Hh; now apply get_set_ne|]. rewrite replace_self in B1, B2, B3.
    destruct (beq_dec d d0) as [->|Hdd]; [destruct (beq_dec f f0) as [->|Hff]|].
    + apply FS_open; auto.
      * unfold open_chunks. now rewrite Hd, Hg.
      * rewrite B1, get_set_same. f_equal. unfold fview. rewrite Eo. unfold j_find, jjs in Ef. cbn [jfile_of j_faults] in Ef.
        destruct t as [|[] t]; cbn in Ef; rewrite ?(view_keys (changes W) f0 _ (i_wfc _ _ I o)) in Ef; congruence.
    + destruct (B3 d0 f) as [C1 C2]; [now right|]. now apply FS_same.
    + destruct (B3 d f) as [C1 C2]; [now left|]. now apply FS_same.
  - destruct (get d0 (fs_dirs s)) as [[o files]|]; [|injection Ex as <- <-; now apply FS_same].
    destruct (get f0 files); injection Ex as <- <-; now apply FS_same.
  - destruct (get d0 (fs_dirs s)) as [[o files]|] eqn:Hd; [|injection Ex as <- <-; now apply FS_same].
    destruct t as [|[] t]; cbn [fs_js] in Ex; try (injection Ex as <- <-; now apply FS_same).
    all: cbv zeta in Ex; injection Ex as <- <-.
    all: pose proof (i_wfc _ _ I o) as Hm.
    all: destruct (on_view s W d0 o files f0 (filter (fun e => negb (same_path (slash :: f0) (fst e))) (nth o (fs_objs s) []))
      (del f0 files) I Hd) as (B1 & B2 & B3);
      [intros h Hh; now apply (view_delete_path_other (changes W))|intros h Hh; rewrite get_del, beq_neq by congruence; reflexivity|].
    all: destruct (B3 d f) as [C1 C2]; [|now apply FS_same].
    all: destruct (beq_dec d d0) as [->|]; [right; intros ->; now apply N2|now left].
  - apply on_file_inv in Ex as [(A & -> & ->)|(o & files & cs & q & j' & Hd & Hg & E & -> & ->)]; [now apply FS_same|].
    eapply ro_file; try eassumption; [apply sim_ret| |reflexivity]. intros t' r g X. injection X as _ <-. apply same_refl.
  - destruct Hok as [Hf0 _]. rewrite (on_file_map' d0 f0 _ (fun _ => @None N) (fun _ => RUnit)) in Ex by reflexivity.
    apply (RW d0 f0 (CWrite o b) (fun _ => RUnit)); auto; [constructor|discriminate].
  - apply on_file_inv in Ex as [(A & -> & ->)|(o & files & cs & q & j' & Hd & Hg & E & -> & ->)]; [now apply FS_same|].
    destruct (open_inv _ _ _ _ _ _ _ I Hok Hd Hg) as (_ & _ & _ & R).
    eapply ro_file; try eassumption; [now apply (sim_read _ _ Hok)| |reflexivity].
    intros t' r g X. now apply (rep_read _ _ _ _ _ _ (rep_faults t' _ _ R)) in X.
  - apply on_file_inv in Ex as [(A & -> & ->)|(o & files & cs & q & j' & Hd & Hg & E & -> & ->)]; [now apply FS_same|].
    eapply ro_file; try eassumption; [apply sim_length| |reflexivity]. intros t' r g X. injection X as _ <-. apply same_refl.
  - rewrite (on_file_map' d0 f0 _ (fun _ => @None N) (fun _ => RUnit)) in Ex by reflexivity.
    apply (RW d0 f0 (CTruncate n) (fun _ => RUnit)); auto; [constructor|discriminate].
  - destruct Hok as [Hf0 Hb]. unfold j_append_lp in Ex. apply N.ltb_lt in Hb as Hb'. rewrite Hb' in Ex.
    rewrite (on_file_map' d0 f0 (j_append f0 (to_be 4 (N.of_nat (length b)) ++ b)) Some
      (fun o => match o with Some n => RNum n | None => RUnit end)) in Ex by reflexivity.
    eapply (RW d0 f0); [exact Hf0|apply Ch_append, Hb|discriminate|exact Ex].
  - apply on_file_inv in Ex as [(A & -> & ->)|(o' & files & cs & q & j' & Hd & Hg & E & -> & ->)]; [now apply FS_same|].
    eapply ro_file; try eassumption; [now apply (sim_load_lp _ _ Hok)| |reflexivity].
    intros t' r g X. now apply load_lp_same in X.
  - injection Ex as <- <-. now apply FS_same.
Qed.

(** ** Reading without faults *)
Section Read.
Context (L : N) (f : bytes) (Hf : valid f).
Definition sim0 {A} (m : wm jfile A) (w : wm wfile A) : Prop :=
  forall j, wfc L (j_cache j) -> Forall (good L) (j_chunks j) -> j_faults j = [] ->
  exists r, m j = (r, j) /\ w (WFile (j_chunks j) (view f (j_cache j)) []) = (r, WFile (j_chunks j) (view f (j_cache j)) []).
Lemma sim0_ret {A} (r : res A) : sim0 (wret r) (wret r).
Proof. intros j _ _ _. now exists r. Qed.
Lemma sim0_bind {A B} (m : wm jfile A) (w : wm wfile A) (k : A -> wm jfile B) (k' : A -> wm wfile B) :
  sim0 m w -> (forall a, sim0 (k a) (k' a)) -> sim0 (wbind m k) (wbind w k').
Proof.
  intros H1 H2 j Hm Hc Ht. destruct (H1 j Hm Hc Ht) as (r & E1 & E2). unfold wbind. rewrite E1, E2.
  destruct r as [a| | |]; [now apply H2| | |]; eexists; split; reflexivity.
Qed.
Lemma sim0_load_range c r : good L c -> sim0 (j_load_range f c r) (load_range c r).
Proof.
  intros Hc j Hm Hcs Ht. destruct j as [cs m ot t]. cbn in Ht. subst t. unfold j_load_range, load_range, jjs, js. cbn.
  cbn in Hm. rewrite (view_match L) by assumption. eexists. split; reflexivity.
Qed.
Lemma sim0_load_loop r : forall cs buf, Forall (good L) cs -> sim0 (j_load_loop f r cs buf) (load_loop r cs buf).
Proof.
  induction cs as [|c cs IH]; intros buf H; cbn [j_load_loop load_loop]; [apply sim0_ret|].
  inversion H; subst. apply sim0_bind; [apply sim0_ret|]. intros x. apply sim0_bind; [now apply sim0_load_range|]. intros d.
  apply sim0_bind; [apply sim0_ret|]. intros b. now apply IH.
Qed.
Lemma sim0_load_chunks r cs : Forall (good L) cs -> sim0 (j_load_chunks f r cs) (load_chunks r cs).
Proof. intros H. unfold j_load_chunks, load_chunks. apply sim0_bind; [apply sim0_ret|]. intros n. now apply sim0_load_loop. Qed.
Lemma sim0_load_lp o : sim0 (j_load_lp f o) (wf_load_lp o).
Proof.
  intros j Hm Hc Ht. unfold j_load_lp, wf_load_lp. cbv zeta. cbn [w_chunks].
  set (cs := intersecting (j_chunks j) (o, o + 4)). assert (Forall (good L) cs) as Hcs by now apply good_filter.
  clearbody cs. revert j Hm Hc Ht. apply sim0_bind; [apply sim0_ret|]. intros _.
  apply sim0_bind; [now apply sim0_load_chunks|].
  intros b. apply sim0_bind; [apply sim0_ret|]. intros h. apply sim0_ret.
Qed.
End Read.

(** ** The blobs of a file *)
Definition blob_at (f : wfile) (e : N * bytes) : Prop :=
  In (Chunk 0 (fst e) (4 + N.of_nat (length (snd e)))) (w_chunks f) /\
  cache_match (Chunk 0 (fst e) (4 + N.of_nat (length (snd e)))) (w_cache f) =
    Some (to_be 4 (N.of_nat (length (snd e))) ++ snd e).
Definition linked (s : fs) (d f : bytes) (bs : list (N * bytes)) : Prop := exists cs b,
  (open_chunks s d f = None \/ open_chunks s d f = Some cs) /\ lin b (WFile cs (fview s d f) []) /\
  Forall (blob_at (WFile cs (fview s d f) [])) bs.

Lemma blob_stays f g e : stays f g -> blob_at f e -> blob_at g e.
Proof. intros S (B & C). destruct (S _ B) as [S1 S2]. unfold blob_at. rewrite S2. auto. Qed.

Lemma linked_new d f : linked new_fs d f [].
Proof. exists [], []. split; [now left|]. split; [apply lin_new|constructor]. Qed.
Lemma linked_eq s s' d f bs : open_chunks s' d f = open_chunks s d f -> fview s' d f = fview s d f ->
  linked s d f bs -> linked s' d f bs.
Proof. unfold linked. intros -> ->. auto. Qed.
Lemma linked_restart s d f bs : linked s d f bs -> linked (fs_restart s) d f bs.
Proof. intros (cs & b & _ & H). exists cs, b. split; [now left|exact H]. Qed.

Lemma append_call b d t f r g : lin b f -> step (CAppend d, t) f = (r, g) ->
  lin (b ++ got (CAppend d, t) r) g /\ stays f g /\
  ((r = Err \/ r = Panic /\ u64_max <= N.of_nat (length b) + N.of_nat (length d)) \/ r = Ok (Some (N.of_nat (length b))) /\
    In (Chunk 0 (N.of_nat (length b)) (N.of_nat (length d))) (w_chunks g) /\
    cache_match (Chunk 0 (N.of_nat (length b)) (N.of_nat (length d))) (w_cache g) = Some d).
Proof.
  intros L E. destruct (step_lin _ (CAppend d, t) _ _ _ L Logic.I E) as (A1 & A2 & _). split; [exact A1|]. split; [exact A2|].
  unfold step in E. cbn [fst snd] in E. apply wbind_inv in E as (q1 & g1 & E1 & E).
  assert (same f (with_faults t f)) as S0 by now split.
  apply (append_step _ _ _ _ _ (lin_same _ _ _ S0 L)) in E1 as [[Hq S]|(-> & L' & St & B1 & B2)].
  - left. destruct Hq as [->|[-> Hq]], E as [(? & ? & _)|[(? & -> & ->)|[(? & -> & ->)|(? & _)]]]; try discriminate; auto.
  - right. destruct E as [(o & E0 & E)|[(? & _)|[(? & _)|(? & _)]]]; try discriminate. injection E0 as <-.
    apply wret_inv in E as [-> ->]. auto.
Qed.

Lemma lin_chunks b f cs : lin b f -> cs = fold_right set_insert [] (map fst (w_cache f)) -> cs = w_chunks f.
Proof.
  intros L ->. destruct (wf_open (with_faults [] f)) as [q g] eqn:E. assert (same f (with_faults [] f)) as S0 by now split.
  pose proof E as E'. apply open_same in E' as [[S _] _]; [|apply (lin_same _ _ _ S0 L)].
  unfold wf_open, js in E. cbn in E. injection E as _ <-. cbn in S. now symmetry.
Qed.

(** One command keeps the blobs; a successful append adds one. *)
Lemma step_linked d f c t r s s' bs : ~ rewrites d f (Call c t) -> file_step d f c r s s' -> linked s d f bs ->
  linked s' d f (bs ++ added d f c r).
Proof.
  intros K H HL. destruct H as [A1 A2 A3|Hc A1 A2 A3|k w t' cs cs' q Hch A1 A2 Est Hr].
  - rewrite A3, app_nil_r. now apply (linked_eq s).
  - subst c. destruct HL as (cs & b & _ & L & HB). cbn [added]. rewrite app_nil_r.
    assert (fold_right set_insert [] (map fst (fview s d f)) = cs) as E by now apply (lin_chunks b _ _ L).
    exists cs, b. rewrite A3. split; [right; now rewrite A2, E|]. split; assumption.
  - subst r. destruct HL as (cs0 & b & Ho & L & HB). rewrite A1 in Ho. assert (cs0 = cs) as -> by (destruct Ho; congruence).
    destruct Hch as [d f o x|d f x Hx|d f n]; try (exfalso; now apply K).
    destruct (append_call _ _ _ _ _ _ L Est) as (L' & St & R).
    exists cs', (b ++ got (CAppend (to_be 4 (N.of_nat (length x)) ++ x), t') q). split; [now right|]. split; [exact L'|].
    apply Forall_app. split; [revert HB; apply Forall_impl; intros e; now apply blob_stays|].
    destruct R as [[->|[-> _]]|(-> & R1 & R2)]; [constructor|constructor|].
    cbn [bind added]. rewrite !beq_refl. cbn [andb]. constructor; [|constructor].
    unfold blob_at. cbn [fst snd]. rewrite app_length, to_be_length in R1, R2.
    replace (N.of_nat (4 + length x)) with (4 + N.of_nat (length x)) in R1, R2 by lia. auto.
Qed.

(** Whole histories. *)
Fixpoint adds (d f : bytes) (l : list event) (rs : list (res reply)) : list (N * bytes) :=
  match l, rs with
  | Call c _ :: l, r :: rs => added d f c r ++ adds d f l rs
  | Restart :: l, _ :: rs => adds d f l rs
  | _, _ => []
  end.
Lemma linked_like d f s s1 bs : like d s s1 -> linked s d f bs <-> linked s1 d f bs.
Proof. intros H. unfold linked. now rewrite (like_chunks _ f _ _ H), (like_view _ f _ _ H). Qed.
Lemma run_linked d f l : forall s W rs s' bs, Inv_but d s W -> Forall event_ok l ->
  valid f -> Forall (fun e => ~ rewrites d f e) l -> linked s d f bs ->
  fs_run l s = (rs, s') -> exists W', Inv_but d s' W' /\ linked s' d f (bs ++ adds d f l rs).
Proof.
  induction l as [|e l IH]; intros s W rs s' bs IB Hok Hf Hn HL E.
  { injection E as <- <-. exists W. cbn [adds]. rewrite app_nil_r. auto. }
  inversion Hok as [|? ? He Hl]; subst. inversion Hn as [|? ? Hne Hnl]; subst.
  destruct e as [c t|]; cbn [fs_run] in E.
  - destruct (fs_call c t s) as [r s1] eqn:Ec. destruct (fs_run l s1) as [rs1 s2] eqn:Er. injection E as <- <-.
    assert (exists W1, Inv_but d s1 W1 /\ linked s1 d f (bs ++ added d f c r)) as (W1 & I1 & HL1).
    { assert ((exists d', c = KDeleteDir d') \/ forall d', c = KDeleteDir d' -> False) as [[d' ->]|Hc]
        by (destruct c; try (right; discriminate); left; eauto).
      - destruct (but_delete d d' t s W r s1 IB Hne Ec) as (W1 & I1 & _ & B1 & B2). exists W1. split; [exact I1|].
        cbn [added]. rewrite app_nil_r. revert HL. apply linked_eq; [apply B1|]. unfold fview. now rewrite B2.
      - destruct IB as (q & I & LK).
        destruct (like_call d c t s q r s1 LK Ec) as (q1 & Eq & LK1); [intros d' X; destruct (Hc d' X)|].
        assert (forall d', c = KDeleteDir d' -> get d' (fs_dirs q) = None) as Hdel by (intros d' X; destruct (Hc d' X)).
        destruct (call_effect q W c t r q1 I He Hdel Eq) as (W1 & HE & I1).
        assert (not_deleted d f c) as Hnd by (split; intros ->; apply Hne; cbn; auto).
        pose proof (call_file q W c t r q1 d f I He Hdel Hf Hnd Eq) as FS. apply (linked_like _ _ _ _ _ LK) in HL.
        exists W1. split; [now exists q1|]. apply (linked_like _ _ _ _ _ LK1). exact (step_linked d f c t r q q1 bs Hne FS HL). }
    destruct (IH s1 W1 rs1 s2 _ I1 Hl Hf Hnl HL1 Er) as (W2 & I2 & HL2).
    exists W2. split; [exact I2|]. cbn [adds]. now rewrite app_assoc.
  - destruct (fs_run l (fs_restart s)) as [rs1 s2] eqn:Er. injection E as <- <-.
    destruct (but_restart d s W IB) as (W1 & I1 & _).
    exact (IH _ _ rs1 s2 bs I1 Hl Hf Hnl (linked_restart _ _ _ _ HL) Er).
Qed.
Lemma but_new d : Inv_but d new_fs new_world.
Proof.
  exists new_fs. split; [exact inv_new|]. exists (fun _ => false), []. split; [|split; reflexivity].
  constructor; auto; discriminate.
Qed.
Lemma new_linked d f l rs s : Forall event_ok l -> valid f -> Forall (fun e => ~ rewrites d f e) l ->
  fs_run l new_fs = (rs, s) -> exists W, Inv_but d s W /\ linked s d f (adds d f l rs).
Proof.
  intros Hok Hf Hn E. exact (run_linked d f l new_fs new_world rs s [] (but_new d) Hok Hf Hn (linked_new d f) E).
Qed.
Lemma adds_in d f b t : forall l1 l2 rs n, nth (length l1) rs Err = Ok (RNum n) ->
  In (n, b) (adds d f (l1 ++ Call (KAppend d f b) t :: l2) rs).
Proof.
  induction l1 as [|e l1 IH]; intros l2 [|r rs] n H; cbn [length nth] in H; try discriminate; cbn [app adds].
  - subst r. cbn [added]. rewrite !beq_refl. cbn. now left.
  - destruct e as [c t'|]; [apply in_or_app; right|]; now apply IH.
Qed.

(** ** Reading blobs back *)
Lemma load_linked s W d f cs bs n b : Inv s W -> valid f -> fs_up s = true -> open_chunks s d f = Some cs ->
  linked s d f bs -> In (n, b) bs -> 4 + N.of_nat (length b) < i32_lim ->
  fst (fs_call (KLoad d f n) [] s) = Ok (RBytes b).
Proof.
  intros I Hf Hup Ho (cs0 & x & Ho' & L & HB) Hin Hb. rewrite Ho in Ho'. assert (cs0 = cs) as -> by (destruct Ho'; congruence).
  rewrite Forall_forall in HB. apply HB in Hin as [H1 H2]. cbn [fst snd] in H1, H2.
  pose proof (load_lp _ _ _ _ L H1 H2 Hb eq_refl) as EL.
  unfold open_chunks in Ho. destruct (get d (fs_dirs s)) as [[o files]|] eqn:Hd; [|discriminate].
  destruct (open_inv _ _ _ _ _ _ _ I Hf Hd Ho) as (_ & Hm & Hc & R).
  destruct (sim0_load_lp (changes W) f Hf n (jfile_of s o cs []) Hm Hc eq_refl) as (r & E1 & E2).
  cbn [jfile_of j_chunks j_cache] in E2.
  assert (fview s d f = view f (nth o (fs_objs s) [])) as Ev by (unfold fview, obj; now rewrite (i_dirs _ _ I _ _ _ Hd)).
  rewrite Ev in EL. rewrite EL in E2. apply (f_equal fst) in E2. cbn [fst] in E2. subst r.
  unfold fs_call. rewrite Hup. cbn [fs_exec]. unfold on_file. rewrite Hd, Ho, E1. reflexivity.
Qed.
Lemma like_up d s s1 : like d s s1 -> fs_up s1 = fs_up s.
Proof. intros (D & l & A & _). apply (al_up _ _ _ A). Qed.
Lemma load_but s W d f cs bs n b : Inv_but d s W -> valid f -> fs_up s = true -> open_chunks s d f = Some cs ->
  linked s d f bs -> In (n, b) bs -> 4 + N.of_nat (length b) < i32_lim ->
  fst (fs_call (KLoad d f n) [] s) = Ok (RBytes b).
Proof.
  intros (s1 & I & LK) Hf Hup Ho HL Hin Hb. destruct (fs_call (KLoad d f n) [] s) as [r s'] eqn:E.
  destruct (like_call d _ _ _ _ _ _ LK E ltac:(discriminate)) as (s1' & E1 & _).
  apply (linked_like _ _ _ _ _ LK) in HL. rewrite <- (like_chunks _ f _ _ LK) in Ho. rewrite <- (like_up _ _ _ LK) in Hup.
  pose proof (load_linked s1 W d f cs bs n b I Hf Hup Ho HL Hin Hb) as X. now rewrite E1 in X.
Qed.
Lemma flushed s d f : fst (fs_call (KFlush d f) [] s) = Ok RUnit -> fs_up s = true /\ exists cs, open_chunks s d f = Some cs.
Proof.
  unfold fs_call. destruct (fs_up s); [|discriminate]. cbn [fs_exec]. unfold on_file, open_chunks.
  destruct (get d (fs_dirs s)) as [[o files]|]; [|discriminate]. destruct (get f files) as [cs|]; [|discriminate]. eauto.
Qed.
Theorem fs_blob_kept d f b t l1 l2 rs s n : let l := l1 ++ Call (KAppend d f b) t :: l2 in
  ~ In quest f -> Forall event_ok l -> Forall (fun e => ~ rewrites d f e) l ->
  4 + N.of_nat (length b) < i32_lim ->
  fs_run l new_fs = (rs, s) -> nth (length l1) rs Err = Ok (RNum n) ->
  fst (fs_call (KFlush d f) [] s) = Ok RUnit ->
  fst (fs_call (KLoad d f n) [] s) = Ok (RBytes b).
Proof.
  intros l Hf Hok Hn Hb E Hr Hfl. destruct (new_linked d f l rs s Hok Hf Hn E) as (W & I & HL).
  destruct (flushed _ _ _ Hfl) as (Hup & cs & Ho). eapply load_but; eauto. now apply adds_in.
Qed.

(** ** Appending never panics *)
Lemma append_result s W d f b t bs r s' : Inv s W -> valid f -> linked s d f bs -> 4 + N.of_nat (length b) < i32_lim ->
  fs_call (KAppend d f b) t s = (r, s') -> r = Err \/ exists n, r = Ok (RNum n) /\ n < quota.
Proof.
  intros I Hf (cs0 & x & Ho & L & _) Hb E. unfold fs_call in E. destruct (fs_up s); [|injection E as <- _; now left].
  cbn [fs_exec] in E. destruct (on_file d f (j_append_lp f b) RNum t s) as [r1 s1] eqn:Ex. injection E as <- _.
  apply on_file_inv in Ex as [(A & -> & _)|(o & files & cs & q & j' & Hd & Hg & Eq & -> & _)]; [now left|].
  assert (cs0 = cs) as -> by (unfold open_chunks in Ho; rewrite Hd, Hg in Ho; destruct Ho; congruence).
  destruct (open_inv _ _ _ _ _ _ _ I Hf Hd Hg) as (_ & Hm & Hc & _).
  assert (fview s d f = view f (nth o (fs_objs s) [])) as Ev by (unfold fview, obj; now rewrite (i_dirs _ _ I _ _ _ Hd)).
  rewrite Ev in L. unfold j_append_lp in Eq.
  assert (Hlim : i32_lim < usize_lim /\ quota + i32_lim < u64_max /\ 1 < u64_max) by (repeat split; reflexivity).
  assert (N.of_nat (length b) <? usize_lim = true) as Hu by (apply N.ltb_lt; lia). rewrite Hu in Eq.
  set (dd := to_be 4 (N.of_nat (length b)) ++ b) in *.
  assert (N.of_nat (length dd) = 4 + N.of_nat (length b)) as Hdd by (unfold dd; rewrite app_length, to_be_length; lia).
  unfold j_append in Eq. cbn [jfile_of j_chunks] in Eq.
  apply wbind_inv in Eq as (q1 & j1 & E1 & E2).
  set (e := snd (crange (prev cs))) in *.
  assert (e = N.of_nat (length x)) as He by exact (lin_end _ _ L). pose proof (lin_size _ _ L) as HQ.
  destruct (jwrite_level (changes W) f e dd (jfile_of s o cs t) q1 j1 Hf Hm Hc E1) as [(_ & Hl & _)|(_ & _ & _ & t' & Et)].
  - exfalso. cbn [jfile_of j_chunks] in Hl.
    assert (next_level (intersecting cs (e, e + N.of_nat (length dd))) <= 0 + 1); [|lia].
    apply next_level_le. apply Forall_forall. intros c Hin. apply filter_In in Hin as [Hin _].
    pose proof (lin_level _ _ L c Hin) as H0. rewrite Forall_forall in Hc. destruct (Hc c Hin) as (_ & G1 & G2).
    split; [lia|]. split; assumption.
  - cbn [jfile_of j_chunks j_cache] in Et.
    assert (step (CAppend dd, t') (WFile cs (view f (nth o (fs_objs s) [])) []) =
      (match q1 with Ok _ => Ok (Some e) | Err => Err | Panic => Panic | Fuel => Fuel end, jfile_to f j1)) as Est.
    { unfold step, with_faults. cbn [fst snd w_chunks w_cache]. unfold wbind. rewrite wf_append_write. cbn [w_chunks]. fold e.
      unfold wbind. rewrite Et. now destruct q1. }
    destruct (append_call _ _ _ _ _ _ L Est) as (_ & _ & R).
    destruct R as [[Hr|[_ Hr]]|(Hr & _)]; [| |].
    + destruct q1; try discriminate. destruct E2 as [(? & ? & _)|[(_ & -> & _)|[(? & _)|(? & _)]]]; try discriminate. now left.
    + lia.
    + destruct q1 as [u| | |]; try discriminate. destruct E2 as [(u' & Eu & E2)|[(? & _)|[(? & _)|(? & _)]]]; try discriminate.
      apply wret_inv in E2 as [-> _]. right. exists e. cbn [bind]. split; [reflexivity|]. lia.
Qed.

Lemma append_but s W d f b t bs r s' : Inv_but d s W -> valid f -> linked s d f bs -> 4 + N.of_nat (length b) < i32_lim ->
  fs_call (KAppend d f b) t s = (r, s') -> r = Err \/ exists n, r = Ok (RNum n) /\ n < quota.
Proof.
  intros (s1 & I & LK) Hf HL Hb E. destruct (like_call d _ _ _ _ _ _ LK E ltac:(discriminate)) as (s1' & E1 & _).
  apply (linked_like _ _ _ _ _ LK) in HL. exact (append_result _ _ _ _ _ _ _ _ _ I Hf HL Hb E1).
Qed.

(** ** The store *)
Lemma reopened_ok s W d f bs : Inv s W -> valid f -> linked s d f bs ->
  exists W' cs, let s' := reopened d f s in Inv s' W' /\ fs_up s' = true /\ open_chunks s' d f = Some cs /\ linked s' d f bs.
Proof.
  intros I Hf HL. unfold reopened.
  assert (exists W1, let s1 := if fs_up s then s else fs_restart s in Inv s1 W1 /\ fs_up s1 = true /\ linked s1 d f bs) as (W1 & I1 & U1 & L1).
  { destruct (fs_up s) eqn:U; [exists W; auto|]. eexists. split; [apply inv_restart, I|]. split; [reflexivity|now apply linked_restart]. }
  set (s1 := if fs_up s then s else fs_restart s) in *. clearbody s1. cbn [fs_run].
  destruct (fs_call (KOpenDir d) [] s1) as [r2 s2] eqn:E2.
  destruct (fs_call (KOpenFile d f) [] s2) as [r3 s3] eqn:E3. cbn [snd].
  assert (forall d', KOpenDir d = KDeleteDir d' -> get d' (fs_dirs s1) = None) as X1 by discriminate.
  assert (forall d', KOpenFile d f = KDeleteDir d' -> get d' (fs_dirs s2) = None) as X2 by discriminate.
  destruct (call_effect s1 W1 (KOpenDir d) [] _ _ I1 Logic.I X1 E2) as (W2 & _ & I2).
  destruct (call_effect s2 W2 (KOpenFile d f) [] _ _ I2 Hf X2 E3) as (W3 & _ & I3).
  assert (not_deleted d f (KOpenDir d) /\ not_deleted d f (KOpenFile d f)) as [N1 N2] by (repeat split; discriminate).
  pose proof (call_file s1 W1 (KOpenDir d) [] _ _ d f I1 Logic.I X1 Hf N1 E2) as F2.
  apply (step_linked _ _ _ [] _ _ _ bs) in F2; [|intros []|exact L1]. cbn [added] in F2. rewrite app_nil_r in F2.
  pose proof (call_file s2 W2 (KOpenFile d f) [] _ _ d f I2 Hf X2 Hf N2 E3) as F3.
  apply (step_linked _ _ _ [] _ _ _ bs) in F3; [|intros []|exact F2]. cbn [added] in F3. rewrite app_nil_r in F3.
  assert (fs_up s2 = true /\ get d (fs_dirs s2) <> None) as [U2 D2].
  { unfold fs_call in E2. rewrite U1 in E2. cbn [fs_exec fs_js] in E2.
    destruct (get d (fs_dirs s1)) eqn:G; [injection E2 as _ <-; split; congruence|].
    destruct (get d (fs_names s1)); injection E2 as _ <-; cbn [fs_up fs_dirs]; rewrite get_set_same; split; congruence. }
  unfold fs_call in E3. rewrite U2 in E3. cbn [fs_exec] in E3.
  destruct (get d (fs_dirs s2)) as [[o files]|] eqn:G2; [|congruence].
  destruct (get f files) as [cs|] eqn:G3.
  - injection E3 as _ <-. exists W3, cs. split; [exact I3|]. split; [exact U2|]. split; [|exact F3].
    unfold open_chunks. now rewrite G2.
  - unfold j_find, jjs in E3. cbn [jfile_of j_faults j_cache tl] in E3.
    rewrite (view_keys (changes W2) f _ (i_wfc _ _ I2 o)) in E3. cbn [fst] in E3. injection E3 as _ <-.
    eexists W3, _. split; [exact I3|]. split; [exact U2|]. split; [|exact F3].
    unfold open_chunks. cbn [fs_dirs]. now rewrite get_set_same, get_set_same.
Qed.

Lemma reopened_but s W d f bs : Inv_but d s W -> valid f -> linked s d f bs ->
  exists W' cs, let s' := reopened d f s in Inv_but d s' W' /\ fs_up s' = true /\ open_chunks s' d f = Some cs /\ linked s' d f bs.
Proof.
  intros IB Hf HL. unfold reopened.
  assert (exists W1, let s1 := if fs_up s then s else fs_restart s in Inv_but d s1 W1 /\ fs_up s1 = true /\ linked s1 d f bs) as (W1 & I1 & U1 & L1).
  { destruct (fs_up s) eqn:U; [exists W; auto|]. destruct (but_restart d s W IB) as (W' & IB' & _). exists W'.
    split; [exact IB'|]. split; [reflexivity|now apply linked_restart]. }
  set (s1 := if fs_up s then s else fs_restart s) in *. clearbody s1. cbn [fs_run].
  destruct (fs_call (KOpenDir d) [] s1) as [r2 s2] eqn:E2. destruct (fs_call (KOpenFile d f) [] s2) as [r3 s3] eqn:E3. cbn [snd].
  destruct I1 as (q1 & I1 & K1). destruct (like_call d _ _ _ _ _ _ K1 E2 ltac:(discriminate)) as (q2 & Q2 & K2).
  destruct (like_call d _ _ _ _ _ _ K2 E3 ltac:(discriminate)) as (q3 & Q3 & K3).
  apply (linked_like _ _ _ _ _ K1) in L1. destruct (reopened_ok q1 W1 d f bs I1 Hf L1) as (W' & cs & A1 & A2 & A3 & A4).
  assert (reopened d f q1 = q3) as EQ.
  { unfold reopened. rewrite (like_up _ _ _ K1), U1. cbn [fs_run]. rewrite Q2, Q3. reflexivity. }
  rewrite EQ in *. exists W', cs. split; [now exists q3|]. split; [now rewrite <- (like_up _ _ _ K3)|].
  split; [now rewrite <- (like_chunks _ f _ _ K3)|]. now apply (linked_like _ _ _ _ _ K3).
Qed.

Lemma beside_ok d f l : Forall (beside d f) l -> Forall event_ok l.
Proof. apply Forall_impl. intros e H. apply H. Qed.
Lemma beside_keeps d f l : Forall (beside d f) l -> Forall (fun e => ~ rewrites d f e) l.
Proof. apply Forall_impl. intros e H. apply H. Qed.
Lemma beside_linked d f l rs s : valid f -> Forall (beside d f) l -> fs_run l new_fs = (rs, s) ->
  exists W, Inv_but d s W /\ linked s d f (adds d f l rs).
Proof.
  intros Hf H E. apply (new_linked d f l rs s); auto; [eapply beside_ok|eapply beside_keeps]; exact H.
Qed.

Lemma store_write d f s b r s' : fs_inv d f s -> st_write (fs_store d f) s b = (r, s') ->
  fs_inv d f s' /\ exists l, Forall (beside d f) l /\ snd (fs_run l (fst s)) = fst s' /\
  (r = Err \/ exists n t l0 rs, 4 + N.of_nat (length b) < i32_lim /\ n < quota /\ r = Ok (to_be 8 n) /\
     l = l0 ++ [Call (KAppend d f b) t] /\ fs_run l (fst s) = (rs, fst s') /\ nth (length l0) rs Err = Ok (RNum n)).
Proof.
  intros (Hf & (l & rs & Hl & El) & HE) E. destruct s as [s todo]. cbn [fst snd] in *. cbn [st_write fs_store fst snd] in E.
  destruct (N.leb_spec i32_lim (4 + N.of_nat (length b))) as [A|A].
  { injection E as <- <-. split; [split; [exact Hf|split; [now exists l, rs|exact HE]]|].
    exists []. split; [constructor|]. split; [reflexivity|now left]. }
  cbv zeta in E. set (e := hd ([], []) todo) in *.
  assert (Forall (beside d f) (fst e)) as He by (unfold e; destruct HE; cbn; [constructor|assumption]).
  assert (Forall (fun e => Forall (beside d f) (fst e)) (tl todo)) as HT by (destruct HE; cbn; [constructor|assumption]).
  destruct (fs_run (fst e) s) as [rs1 s1] eqn:E1. cbn [snd] in E.
  destruct (fs_call (KAppend d f b) (snd e) s1) as [r2 s2] eqn:E2. injection E as <- <-. cbn [fst snd].
  assert (beside d f (Call (KAppend d f b) (snd e))) as HA.
  { split; [|intros []]. cbn [event_ok]. split; [exact Hf|].
    assert (i32_lim < usize_lim) by reflexivity. lia. }
  set (l1 := fst e ++ [Call (KAppend d f b) (snd e)]).
  assert (Forall (beside d f) l1) as Hl1 by (apply Forall_app; split; [exact He|constructor; [exact HA|constructor]]).
  assert (fs_run l1 s = (rs1 ++ [r2], s2)) as El1.
  { unfold l1. rewrite fs_run_app, E1. cbn [fst snd fs_run]. now rewrite E2. }
  split.
  { split; [exact Hf|]. split; [|exact HT]. exists (l ++ l1), (rs ++ rs1 ++ [r2]). split; [now apply Forall_app|].
    rewrite fs_run_app, El. cbn [fst snd]. now rewrite El1. }
  exists l1. split; [exact Hl1|]. split; [now rewrite El1|].
  assert (fs_run (l ++ fst e) new_fs = (rs ++ rs1, s1)) as El0 by (rewrite fs_run_app, El; cbn [fst snd]; now rewrite E1).
  destruct (beside_linked d f (l ++ fst e) _ _ Hf ltac:(now apply Forall_app) El0) as (W & I & HL).
  destruct (append_but _ _ _ _ _ _ _ _ _ I Hf HL A E2) as [->|(n & -> & Hn)]; [now left|right].
  exists n, (snd e), (fst e), (rs1 ++ [Ok (RNum n)]). repeat split; auto.
  pose proof (run_length (fst e) s) as HL1. rewrite E1 in HL1. cbn [fst] in HL1.
  rewrite app_nth2 by lia. rewrite <- HL1, Nat.sub_diag. reflexivity.
Qed.
Lemma store_after d f ds : forall s, fs_inv d f s -> fs_inv d f (after (fs_store d f) s ds) /\
  exists l, Forall (beside d f) l /\ snd (fs_run l (fst s)) = fst (after (fs_store d f) s ds).
Proof.
  induction ds as [|b ds IH]; intros s HI; cbn [after].
  - split; [exact HI|]. exists []. split; [constructor|reflexivity].
  - destruct (st_write (fs_store d f) s b) as [r s'] eqn:E. cbn [snd].
    destruct (store_write _ _ _ _ _ _ HI E) as (HI' & l & Hl & El & _). destruct (IH _ HI') as (HI2 & l2 & Hl2 & El2).
    split; [exact HI2|]. exists (l ++ l2). split; [now apply Forall_app|].
    rewrite fs_run_app. cbn [snd]. now rewrite El.
Qed.
Lemma fs_read_later d f s b id s' ds l3 rs3 s3 : fs_inv d f s -> st_write (fs_store d f) s b = (Ok id, s') ->
  Forall (beside d f) l3 -> fs_run l3 (fst (after (fs_store d f) s' ds)) = (rs3, s3) ->
  forall todo, st_read (fs_store d f) (s3, todo) id = Ok b.
Proof.
  intros HI E Hl3 E3 todo. pose proof HI as (Hf & (l & rs & Hl & El) & _).
  destruct (store_write _ _ _ _ _ _ HI E) as (HI' & l1 & Hl1 & _ & [F|(n & t & l0 & rs1 & Hb & Hn & Eid & -> & El1 & Hnth)]); [discriminate|].
  assert (id = to_be 8 n) as -> by congruence. destruct (store_after d f ds s' HI') as (HI2 & l2 & Hl2 & El2).
  set (s2 := after (fs_store d f) s' ds) in *. clearbody s2.
  destruct (fs_run l2 (fst s')) as [rs2 s2'] eqn:E2. cbn [snd] in El2. subst s2'.
  set (all := l ++ (l0 ++ [Call (KAppend d f b) t]) ++ l2 ++ l3).
  assert (fs_run all new_fs = (rs ++ rs1 ++ rs2 ++ rs3, s3)) as EA.
  { unfold all. rewrite fs_run_app, El; cbn [fst snd]; rewrite fs_run_app, El1; cbn [fst snd]; rewrite fs_run_app, E2; cbn [fst snd].
    now rewrite E3. }
  assert (Forall (beside d f) all) as HA by (unfold all; rewrite !Forall_app in *; auto).
  destruct (beside_linked d f all _ _ Hf HA EA) as (W & I & HL).
  destruct (reopened_but _ _ _ _ _ I Hf HL) as (W' & cs & I' & U' & O' & L'). cbv zeta in *.
  cbn [st_read fs_store fst]. rewrite to_be_length. cbn [Nat.eqb].
  rewrite of_to_be by (rewrite u64_pow; assert (quota < u64_max) by reflexivity; lia).
  rewrite (load_but _ _ _ _ _ _ n b I' Hf U' O' L'); [reflexivity| |exact Hb].
  unfold all. rewrite <- app_assoc, app_assoc. cbn [app]. apply adds_in.
  pose proof (run_length l new_fs) as Q1. rewrite El in Q1. cbn [fst] in Q1.
  pose proof (run_length (l0 ++ [Call (KAppend d f b) t]) (fst s)) as Q2. rewrite El1, app_length in Q2. cbn [fst length] in Q2.
  rewrite app_length, app_nth2 by lia. rewrite Q1. replace (length l + length l0 - length l)%nat with (length l0) by lia.
  rewrite app_nth1 by lia. exact Hnth.
Qed.
Theorem fs_lawful d f : lawful (fs_store d f) (fs_inv d f).
Proof.
  constructor.
  - intros s b r s' HI E. destruct (store_write _ _ _ _ _ _ HI E) as (HI' & l & _ & _ & H). split; [exact HI'|].
    destruct H as [->|(n & t & l0 & rs & _ & _ & -> & _)]; [now left|right]. eexists. split; [reflexivity|]. rewrite to_be_length. lia.
  - intros s b id s' ds HI E. rewrite (surjective_pairing (after (fs_store d f) s' ds)).
    exact (fs_read_later d f s b id s' ds [] [] _ HI E (Forall_nil _) eq_refl _).
Qed.
