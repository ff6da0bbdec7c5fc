(** Calls to the file system in the browser cache succeed when the browser works: proofs. *)
From Verif Require Import FileProofs Base BaseLemmas Header Node Store U64 File Chunk ChunkProofs WebFile WebProofs WebPlans WebSpec WebTop
  WebAccept WebFs WebFsSpec WebFsSim WebFsProofs WebFsStaleSpec WebFsStale.
Local Open Scope N_scope.

(** What succeeds on a file with its own cache succeeds on a file that shares one, if
    there is room for [K] more bytes. *)
Definition asim {A} (L : N) (f : bytes) (K : N) (m : wm jfile A) (w : wm wfile A) : Prop :=
  forall j a w', wfc L (j_cache j) -> Forall (good L) (j_chunks j) -> j_faults j = [] ->
  j_other j + jcache_size (j_cache j) + K < quota -> w (jfile_to f j) = (Ok a, w') ->
  exists j', m j = (Ok a, j') /\ wfc L (j_cache j') /\ Forall (good L) (j_chunks j') /\ j_faults j' = [] /\
    j_other j' = j_other j /\ jcache_size (j_cache j') <= jcache_size (j_cache j) + K /\ w' = jfile_to f j'.

Lemma asim_ret {A} L f (r : res A) : asim L f 0 (wret r) (wret r).
Proof.
  intros j a w' Hm Hc Hf Hq E. injection E as -> <-. exists j. repeat split; auto. lia.
Qed.
Lemma asim_bind {A B} L f K1 K2 (m : wm jfile A) (w : wm wfile A) (k : A -> wm jfile B) (k' : A -> wm wfile B) :
  asim L f K1 m w -> (forall a h g, w h = (Ok a, g) -> asim L f K2 (k a) (k' a)) -> asim L f (K1 + K2) (wbind m k) (wbind w k').
Proof.
  intros H1 H2 j b w' Hm Hc Hf Hq E.
  apply wbind_inv in E as (r1 & w1 & E1 & [(a & -> & E)|[(_ & F & _)|[(_ & F & _)|(_ & F & _)]]]); try discriminate.
  destruct (H1 j a w1) as (j1 & M1 & A1 & A2 & A3 & A4 & A5 & ->); auto; [lia|].
  destruct (H2 a _ _ E1 j1 b w') as (j2 & M2 & B1 & B2 & B3 & B4 & B5 & ->); auto; [lia|].
  exists j2. unfold wbind. rewrite M1. repeat split; auto; [congruence|lia].
Qed.
Lemma asim_js {A} L f K (m : wm jfile A) (w : wm wfile A) : asim L f K m w -> asim L f K (jjs m) (js w).
Proof.
  intros H j a w' Hm Hc Hf Hq E. unfold jjs. unfold js in E. cbn [jfile_to w_faults tl w_chunks w_cache] in E. rewrite Hf. cbn [tl].
  apply (H (JFile (j_chunks j) (j_cache j) (j_other j) [])); auto.
Qed.

Lemma j_put_size q d m : jcache_size (j_put q d m) <= jcache_size m + N.of_nat (length d).
Proof.
  assert (jcache_size (j_delete q m) <= jcache_size m).
  { unfold jcache_size, j_delete. induction m as [|e m IH]; cbn [filter fold_right]; [reflexivity|].
    destruct (negb _); cbn [fold_right]; lia. }
  unfold j_put. cbn [jcache_size fold_right snd]. fold (jcache_size (j_delete q m)). lia.
Qed.
Lemma j_delete_size q m : jcache_size (j_delete q m) <= jcache_size m.
Proof.
  unfold jcache_size, j_delete. induction m as [|e m IH]; cbn [filter fold_right]; [reflexivity|].
  destruct (negb _); cbn [fold_right]; lia.
Qed.

Lemma load_loop_length r : forall cs buf h d g, load_loop r cs buf h = (Ok d, g) -> length d = length buf.
Proof.
  induction cs as [|c cs IH]; intros buf h d g E; cbn [load_loop] in E; [injection E as <- _; reflexivity|].
  apply wbind_inv in E as (r1 & h1 & _ & [(x & -> & E)|[(_ & F & _)|[(_ & F & _)|(_ & F & _)]]]); try discriminate.
  apply wbind_inv in E as (r2 & h2 & _ & [(b & -> & E)|[(_ & F & _)|[(_ & F & _)|(_ & F & _)]]]); try discriminate.
  apply wbind_inv in E as (r3 & h3 & E3 & [(buf' & -> & E)|[(_ & F & _)|[(_ & F & _)|(_ & F & _)]]]); try discriminate.
  apply IH in E. rewrite E. unfold wret in E3. injection E3 as E3 _. unfold copy_to in E3.
  destruct (_ && _ && _) eqn:C; [|discriminate]. injection E3 as <-.
  apply andb_prop in C as [C C3]. apply andb_prop in C as [C1 C2]. apply N.leb_le in C1, C2. apply N.eqb_eq in C3.
  rewrite !app_length, firstn_length, skipn_length. lia.
Qed.
Lemma read_raw_length r h d g : read_raw r h = (Ok d, g) -> N.of_nat (length d) = snd r - fst r.
Proof.
  unfold read_raw, load_chunks. intros E.
  apply wbind_inv in E as (r1 & h1 & E1 & [(n & -> & E)|[(_ & F & _)|[(_ & F & _)|(_ & F & _)]]]); try discriminate.
  apply load_loop_length in E. rewrite E, repeat_length. unfold wret, to_usize in E1.
  destruct (_ <? usize_lim); [|discriminate]. injection E1 as <- _. lia.
Qed.

Section File.
Context (L : N) (f : bytes) (Hf : valid f).
Notation asim := (asim L f).

Lemma asim_load_range c r : good L c -> asim 0 (j_load_range f c r) (load_range c r).
Proof.
  intros Hc. unfold j_load_range, load_range. apply asim_js. intros j a w' Hm Hcs Hj Hq E. injection E as E <-.
  exists j. rewrite (view_match L) by assumption. rewrite E. repeat split; auto. lia.
Qed.
Lemma asim_load_loop r : forall cs buf, Forall (good L) cs -> asim 0 (j_load_loop f r cs buf) (load_loop r cs buf).
Proof.
  induction cs as [|c cs IH]; intros buf H; cbn [j_load_loop load_loop]; [apply asim_ret|].
  inversion H; subst. apply (asim_bind L f 0 0); [apply asim_ret|]. intros x _ _ _.
  apply (asim_bind L f 0 0); [now apply asim_load_range|]. intros d _ _ _.
  apply (asim_bind L f 0 0); [apply asim_ret|]. intros b _ _ _. now apply IH.
Qed.
Lemma asim_load_chunks r cs : Forall (good L) cs -> asim 0 (j_load_chunks f r cs) (load_chunks r cs).
Proof.
  intros H. unfold j_load_chunks, load_chunks. apply (asim_bind L f 0 0); [apply asim_ret|]. intros n _ _ _.
  now apply asim_load_loop.
Qed.
Lemma asim_chunks {A} K (m : list chunk -> wm jfile A) (w : list chunk -> wm wfile A) :
  (forall cs, Forall (good L) cs -> asim K (m cs) (w cs)) -> asim K (fun j => m (j_chunks j) j) (fun w0 => w (w_chunks w0) w0).
Proof. intros H j a w' Hm Hc Hj Hq E. exact (H _ Hc j a w' Hm Hc Hj Hq E). Qed.
Lemma asim_read_raw r : asim 0 (j_read_raw f r) (read_raw r).
Proof.
  apply (asim_chunks 0 (fun cs => j_load_chunks f r (intersecting cs r)) (fun cs => load_chunks r (intersecting cs r))).
  intros cs H. apply asim_load_chunks. now apply good_filter.
Qed.
Lemma asim_read r : asim 0 (j_read f r) (wf_read r).
Proof.
  apply (asim_chunks 0 (fun cs => _ <~ wret (to_usize (snd r - fst r)) ;;
     _ <~ wret (if snd r <=? snd (crange (prev cs)) then Ok tt else Err) ;; j_read_raw f r)
   (fun cs => _ <~ wret (to_usize (snd r - fst r)) ;;
     _ <~ wret (if snd r <=? snd (crange (prev cs)) then Ok tt else Err) ;; read_raw r)).
  intros cs H. apply (asim_bind L f 0 0); [apply asim_ret|]. intros _ _ _ _.
  apply (asim_bind L f 0 0); [apply asim_ret|]. intros _ _ _ _. apply asim_read_raw.
Qed.
Lemma asim_write_chunk c d : good L c -> asim (N.of_nat (length d)) (j_write_chunk f c d) (write_chunk c d).
Proof.
  intros Hc. unfold j_write_chunk, write_chunk. apply asim_js. intros j a w' Hm Hcs Hj Hq E.
  cbn [jfile_to w_cache w_chunks w_faults] in E. apply N.ltb_lt in Hq as Q. rewrite Q.
  destruct (_ <? quota) in E; [|discriminate]. injection E as <- <-. eexists. split; [reflexivity|].
  cbn [j_cache j_chunks j_faults j_other]. split; [now apply wfc_put|]. split; [now apply good_insert|].
  split; [exact Hj|]. split; [reflexivity|]. split; [apply j_put_size|].
  unfold jfile_to. cbn [j_chunks j_cache]. now rewrite (view_put L) by assumption.
Qed.
Lemma asim_exec_op o : op_good L o -> asim (opw o) (j_exec_op f o) (exec_op o).
Proof.
  intros Ho. destruct o as [c|c|c d]; cbn [j_exec_op exec_op op_good opw] in *.
  - change (len c) with (0 + len c). apply asim_bind; [apply asim_read_raw|]. intros d h g E.
    apply read_raw_length in E. cbn [crange fst snd] in E. assert (len c = N.of_nat (length d)) as -> by lia.
    now apply asim_write_chunk.
  - apply asim_js. intros j a w' Hm Hcs Hj Hq E. cbn [jfile_to w_cache w_chunks w_faults] in E. injection E as <- <-.
    eexists. split; [reflexivity|]. cbn [j_cache j_chunks j_faults j_other].
    split; [now apply wfc_filter|]. split; [now apply good_filter|]. split; [exact Hj|]. split; [reflexivity|].
    split; [pose proof (j_delete_size (request_str f c) (j_cache j)); lia|].
    unfold jfile_to. cbn [j_chunks j_cache]. now rewrite (view_delete L) by assumption.
  - now apply asim_write_chunk.
Qed.
Lemma asim_execute p : Forall (op_good L) p -> asim (weight p) (j_execute f p) (execute_plan p).
Proof.
  induction 1 as [|o p Ho Hp IH]; cbn [j_execute execute_plan]; [apply asim_ret|].
  rewrite weight_cons. apply asim_bind; [now apply asim_exec_op|]. intros _ _ _ _. exact IH.
Qed.
End File.

(** ** The calls *)
Definition room (s : fs) : Prop := total (fs_objs s) < 2305843009213693952.

Lemma total_replace o : forall l, (o < length l)%nat -> total l = jcache_size (nth o l []) + total (replace o [] l).
Proof.
  induction o as [|o IH]; intros [|x l] H; cbn [length] in H; try lia; cbn [replace nth total fold_right].
  - fold (total l). cbn. reflexivity.
  - fold (total l) (total (replace o [] l)). rewrite IH by lia. lia.
Qed.

Section State.
Context (s : fs) (W : world) (I : Inv s W) (U : running W = true) (Rm : room s).

Lemma up : fs_up s = true. Proof. now rewrite <- (i_run _ _ I). Qed.
Lemma open_dir_of d : dir_open W d = true -> exists o files, get d (fs_dirs s) = Some (o, files).
Proof. rewrite (i_dir _ _ I). destruct (get d (fs_dirs s)) as [[o fl]|]; [eauto|discriminate]. Qed.
Lemma open_file_of d f : file_open W d f = true -> exists o files cs, get d (fs_dirs s) = Some (o, files) /\ get f files = Some cs.
Proof.
  rewrite (i_file _ _ I). unfold open_chunks. destruct (get d (fs_dirs s)) as [[o fl]|]; [|discriminate].
  destruct (get f fl) as [cs|] eqn:E; [eauto|discriminate].
Qed.
Lemma call_exec c r s' : fs_exec c [] s = (r, s') -> fst (fs_call c [] s) = r.
Proof. intros E. unfold fs_call. rewrite up, E. reflexivity. Qed.

Lemma acc_open_dir d : fst (fs_call (KOpenDir d) [] s) = Ok RUnit.
Proof.
  unfold fs_call. rewrite up. cbn [fs_exec fs_js]. destruct (get d (fs_dirs s)); [reflexivity|].
  destruct (get d (fs_names s)); reflexivity.
Qed.
Lemma acc_delete_dir d : exists b, fst (fs_call (KDeleteDir d) [] s) = Ok (RBool b).
Proof. unfold fs_call. rewrite up. cbn [fs_exec fs_js]. eexists. reflexivity. Qed.
Lemma find_accepts f o : j_find f (jfile_of s o [] []) = (Ok (fold_right set_insert [] (map fst (view f (nth o (fs_objs s) [])))), jfile_of s o [] []).
Proof.
  unfold j_find, jjs. cbn [jfile_of j_faults tl j_cache j_chunks j_other].
  now rewrite (view_keys (changes W) f _ (i_wfc _ _ I o)).
Qed.
Lemma acc_open_file d f : dir_open W d = true -> fst (fs_call (KOpenFile d f) [] s) = Ok RUnit.
Proof.
  intros Hd. destruct (open_dir_of d Hd) as (o & files & Eo). unfold fs_call. rewrite up. cbn [fs_exec]. rewrite Eo.
  destruct (get f files); [reflexivity|]. rewrite find_accepts. reflexivity.
Qed.
Lemma acc_exists d f : dir_open W d = true -> exists b, fst (fs_call (KFileExists d f) [] s) = Ok (RBool b).
Proof.
  intros Hd. destruct (open_dir_of d Hd) as (o & files & Eo). unfold fs_call. rewrite up. cbn [fs_exec]. rewrite Eo.
  destruct (get f files); [eexists; reflexivity|]. rewrite find_accepts. eexists. reflexivity.
Qed.
Lemma acc_delete_file d f : dir_open W d = true -> exists b, fst (fs_call (KDeleteFile d f) [] s) = Ok (RBool b).
Proof.
  intros Hd. destruct (open_dir_of d Hd) as (o & files & Eo). unfold fs_call. rewrite up. cbn [fs_exec fs_js]. rewrite Eo.
  eexists. reflexivity.
Qed.

Lemma obj_room d o files : get d (fs_dirs s) = Some (o, files) ->
  total (replace o [] (fs_objs s)) + jcache_size (nth o (fs_objs s) []) < 2305843009213693952.
Proof.
  intros E. pose proof (i_names _ _ I _ _ (i_dirs _ _ I _ _ _ E)) as Ho.
  pose proof (total_replace o (fs_objs s) Ho). unfold room in Rm. lia.
Qed.

(** Something that succeeds on the file with its own cache. *)
Lemma on_file_accepts {A} d f o files cs L K (m : wm jfile A) (w : wm wfile A) (k : A -> reply) a w' : valid f ->
  get d (fs_dirs s) = Some (o, files) -> get f files = Some cs -> changes W <= L ->
  asim L f K m w -> K < 4611686018427387904 -> w (WFile cs (view f (nth o (fs_objs s) [])) []) = (Ok a, w') ->
  exists s', on_file d f m k [] s = (Ok (k a), s').
Proof.
  intros Hf Hd Hg HL HS HK E. destruct (open_inv _ _ _ _ _ _ _ I Hf Hd Hg) as (_ & Hm & Hc & _).
  unfold on_file. rewrite Hd, Hg.
  destruct (HS (jfile_of s o cs []) a w') as (j' & M & _); cbn [jfile_of j_cache j_chunks j_faults j_other]; auto.
  - now apply (wfc_le (changes W)).
  - eapply Forall_impl; [|exact Hc]. intros c. now apply good_le.
  - pose proof (obj_room _ _ _ Hd). unfold quota. lia.
  - unfold jfile_of in M. unfold jfile_of. rewrite M. eexists. reflexivity.
Qed.

Lemma on_file_ext {A B} d f o files cs (m : wm jfile A) (m' : wm jfile B) k k' : get d (fs_dirs s) = Some (o, files) -> get f files = Some cs ->
  (exists g, m (jfile_of s o cs []) = (let (r, j) := m' (jfile_of s o cs []) in (x <- r ;; Ok (g x), j)) /\ forall x, k (g x) = k' x) ->
  on_file d f m k [] s = on_file d f m' k' [] s.
Proof.
  intros Hd Hg (g & E & Hk). unfold on_file. rewrite Hd, Hg, E. destruct (m' (jfile_of s o cs [])) as [[x| | |] j]; cbn [bind]; [now rewrite Hk|reflexivity..].
Qed.
Lemma level_fine cs p : Forall (good (changes W)) cs -> changes W + 1 < u64_max -> next_level (filter p cs) < u64_max.
Proof. intros H Hl. pose proof (next_level_le _ _ (good_filter (changes W) p cs H)). lia. Qed.

Section OpenFile.
Context (d f : bytes) (Hf : valid f) (Ho : file_open W d f = true) (HL : f_len (contents W d f) < i32_lim).

Lemma acc_flush : fst (fs_call (KFlush d f) [] s) = Ok RUnit.
Proof.
  destruct (open_file_of d f Ho) as (o & files & cs & Ed & Eg).
  destruct (on_file_accepts d f o files cs (changes W) 0 (wret (Ok tt)) (wret (Ok tt)) (fun _ => RUnit) tt _ Hf Ed Eg ltac:(lia)
    (asim_ret _ _ _) ltac:(lia) eq_refl) as (s' & E).
  exact (call_exec (KFlush d f) _ _ E).
Qed.
Lemma asim_length L : asim L f 0 j_length wf_length.
Proof. intros j a w' Hm Hc Hj Hq E. unfold wf_length in E. exists j. cbn [jfile_to w_chunks] in E. unfold j_length.
  assert (Ok (snd (crange (prev (j_chunks j)))) = Ok a /\ jfile_to f j = w') as [E1 <-] by (split; congruence).
  rewrite E1. repeat split; auto. lia.
Qed.
Lemma write_plan o files cs x b : get d (fs_dirs s) = Some (o, files) -> get f files = Some cs ->
  x + N.of_nat (length b) < i32_lim -> changes W + 1 < u64_max ->
  exists s', forall k, on_file d f (j_execute f (add cs x b)) k [] s = (Ok (k tt), s').
Proof.
  intros Ed Eg Hb Hch. destruct (open_inv _ _ _ _ _ _ _ I Hf Ed Eg) as (_ & Hm & Hc & R).
  set (w := WFile cs (view f (nth o (fs_objs s) [])) []) in *.
  pose proof (view_size _ f _ Hm) as V. pose proof (obj_room _ _ _ Ed) as Q.
  destruct (add_accepts w _ R HL ltac:(unfold w; cbn [w_cache]; lia) x b Hb) as (g & E & _).
  assert (weight (add cs x b) < 4611686018427387904) as K.
  { pose proof (add_weight cs x b). destruct R as (Ww & _). pose proof (wf_lens w Ww) as Hl. unfold w in Hl. cbn [w_chunks w_cache] in Hl.
    unfold i32_lim in *. lia. }
  assert (Hlim : i32_lim < u64_max) by reflexivity.
  assert (Forall (op_good (changes W + 1)) (add cs x b)) as G.
  { apply add_good; auto; [lia|]. now apply level_fine. }
  destruct (on_file_accepts d f o files cs (changes W + 1) _ (j_execute f (add cs x b)) (execute_plan (add cs x b)) (fun _ => RUnit) tt g Hf Ed Eg
    ltac:(lia) (asim_execute (changes W + 1) f Hf _ G) K E) as (s' & E').
  exists s'. intros k. unfold on_file in *. rewrite Ed, Eg in *. destruct (j_execute f (add cs x b) (jfile_of s o cs [])) as [q j].
  injection E' as E1 <-. destruct q as [[]| | |]; try discriminate. reflexivity.
Qed.
Lemma write_is_plan o cs x b : Forall (good (changes W)) cs -> x + N.of_nat (length b) < i32_lim -> changes W + 1 < u64_max ->
  j_write f x b (jfile_of s o cs []) = j_execute f (add cs x b) (jfile_of s o cs []).
Proof.
  intros Hc Hb Hch. unfold j_write. rewrite sum_fine by exact Hb. rewrite wbind_ret. unfold level_ok.
  cbn [jfile_of j_chunks]. pose proof (level_fine cs (fun c => overlap (crange c) (x, x + N.of_nat (length b))) Hc Hch) as Hl.
  apply N.ltb_lt in Hl. unfold intersecting. rewrite Hl. reflexivity.
Qed.
Lemma acc_write x b : x + N.of_nat (length b) < i32_lim -> changes W + 1 < u64_max ->
  fst (fs_call (KWrite d f x b) [] s) = Ok RUnit.
Proof.
  intros Hb Hch. destruct (open_file_of d f Ho) as (o & files & cs & Ed & Eg).
  destruct (open_inv _ _ _ _ _ _ _ I Hf Ed Eg) as (_ & Hm & Hc & R).
  destruct (write_plan o files cs x b Ed Eg Hb Hch) as (s' & E).
  apply (call_exec (KWrite d f x b) _ s'). cbn [fs_exec]. rewrite <- (E (fun _ => RUnit)).
  apply (on_file_ext d f o files cs); auto. exists (fun x => x). split; [|reflexivity].
  rewrite write_is_plan by auto. destruct (j_execute _ _ _) as [[] j]; reflexivity.
Qed.
Lemma acc_truncate n : changes W + 1 < u64_max -> fst (fs_call (KTruncate d f n) [] s) = Ok RUnit.
Proof.
  intros Hch. destruct (open_file_of d f Ho) as (o & files & cs & Ed & Eg).
  destruct (open_inv _ _ _ _ _ _ _ I Hf Ed Eg) as (_ & Hm & Hc & R).
  set (w := WFile cs (view f (nth o (fs_objs s) [])) []) in *.
  pose proof (view_size _ f _ Hm) as V. pose proof (obj_room _ _ _ Ed) as Q.
  assert (exists g, execute_plan (truncate cs n) w = (Ok tt, g)) as (g & E).
  { pose proof (truncate_accepted w _ R HL ltac:(unfold w; cbn [w_cache]; lia) n) as T. unfold step in T. cbn [fst snd] in T.
    unfold wbind, wf_truncate, with_faults in T. unfold w in *. cbn [w_chunks w_cache] in T.
    destruct (execute_plan (truncate cs n) _) as [[[]| | |] g]; try discriminate. eauto. }
  assert (weight (truncate cs n) < 4611686018427387904) as K.
  { destruct R as (_ & _ & HB). pose proof (proj2 (truncate_plan _ w n HB)) as Hw. unfold w in Hw. cbn [w_chunks] in Hw.
    unfold i32_lim in *. lia. }
  pose proof (level_fine cs (fun c => n <? snd (crange c)) Hc Hch) as Hl.
  destruct (on_file_accepts d f o files cs (changes W + 1) _ (j_execute f (truncate cs n)) (execute_plan (truncate cs n)) (fun _ => RUnit) tt g Hf Ed Eg
    ltac:(lia) (asim_execute (changes W + 1) f Hf _ (truncate_good _ _ _ Hc Hl)) K E) as (s' & E').
  apply (call_exec (KTruncate d f n) _ s'). cbn [fs_exec]. rewrite <- E'.
  apply (on_file_ext d f o files cs); auto. exists (fun x => x). split; [|reflexivity].
  unfold j_truncate. cbn [jfile_of j_chunks]. unfold level_ok. apply N.ltb_lt in Hl. rewrite Hl, wbind_ret.
  destruct (j_execute _ _ _) as [[] j]; reflexivity.
Qed.
Lemma acc_length : exists n, fst (fs_call (KLength d f) [] s) = Ok (RNum n) /\ n <= f_len (contents W d f) /\
  (forall a e, a <= e -> e <= n ->
     fst (fs_call (KRead d f a e) [] s) = Ok (RBytes (f_read (contents W d f) a (N.to_nat (e - a))))) /\
  (forall b, n + 4 + N.of_nat (length b) < i32_lim -> changes W + 1 < u64_max -> fst (fs_call (KAppend d f b) [] s) = Ok (RNum n)).
Proof.
  destruct (open_file_of d f Ho) as (o & files & cs & Ed & Eg).
  destruct (open_inv _ _ _ _ _ _ _ I Hf Ed Eg) as (_ & Hm & Hc & R).
  set (w := WFile cs (view f (nth o (fs_objs s) [])) []) in *.
  destruct (proj2 (rep_shows _ _ R)) as (n & En & Hn).
  assert (wf_length w = (Ok n, w)) as El by (unfold length_now in En; unfold wf_length in *; cbn [fst] in En; congruence).
  exists n. split; [|split; [exact Hn|split]].
  - destruct (on_file_accepts d f o files cs (changes W) 0 j_length wf_length RNum n w Hf Ed Eg ltac:(lia) (asim_length _) ltac:(lia) El) as (s' & E).
    exact (call_exec (KLength d f) _ _ E).
  - intros a e Hae He. assert (read_now w [] a e = Ok (f_read (contents W d f) a (N.to_nat (e - a)))) as Er
      by (apply read_accepts; auto; right; eauto).
    unfold read_now in Er. destruct (wf_read (a, e) (with_faults [] w)) as [q g] eqn:Ew. cbn [fst] in Er. subst q.
    destruct (on_file_accepts d f o files cs (changes W) 0 (j_read f (a, e)) (wf_read (a, e)) RBytes _ g Hf Ed Eg ltac:(lia)
      (asim_read (changes W) f Hf _) ltac:(lia) Ew) as (s' & E).
    exact (call_exec (KRead d f a e) _ _ E).
  - intros b Hb Hch. assert (Hlim : i32_lim < usize_lim) by reflexivity.
    destruct (write_plan o files cs n (to_be 4 (N.of_nat (length b)) ++ b) Ed Eg) as (s' & E).
    { rewrite app_length, to_be_length. lia. }
    { exact Hch. }
    apply (call_exec (KAppend d f b) _ s'). cbn [fs_exec]. rewrite <- (E (fun _ => RNum n)).
    apply (on_file_ext d f o files cs); auto.
    exists (fun _ => n). split; [|reflexivity]. unfold j_append_lp.
    assert (N.of_nat (length b) <? usize_lim = true) as -> by (apply N.ltb_lt; lia).
    unfold j_append, wbind. cbv zeta. change (j_chunks (jfile_of s o cs [])) with cs.
    assert (snd (crange (prev cs)) = n) as -> by (unfold length_now, wf_length in En; cbn [fst] in En; unfold w in En; cbn [w_chunks] in En; congruence).
    rewrite (write_is_plan o cs n) by (auto; rewrite app_length, to_be_length; lia).
    destruct (j_execute _ _ _) as [[] j]; reflexivity.
Qed.
End OpenFile.
End State.

(** ** After any history *)
Lemma state_accepts s W : Inv s W ->
  (running W = true -> total (fs_objs s) < 2305843009213693952 ->
   (forall d, fst (fs_call (KOpenDir d) [] s) = Ok RUnit /\ exists b, fst (fs_call (KDeleteDir d) [] s) = Ok (RBool b)) /\
   (forall d f, dir_open W d = true -> ~ In quest f ->
      fst (fs_call (KOpenFile d f) [] s) = Ok RUnit /\
      (exists b, fst (fs_call (KFileExists d f) [] s) = Ok (RBool b)) /\
      (exists b, fst (fs_call (KDeleteFile d f) [] s) = Ok (RBool b))) /\
   (forall d f, file_open W d f = true -> ~ In quest f -> f_len (contents W d f) < i32_lim ->
      fst (fs_call (KFlush d f) [] s) = Ok RUnit /\
      exists n, fst (fs_call (KLength d f) [] s) = Ok (RNum n) /\ n <= f_len (contents W d f) /\
        (forall a e, a <= e -> e <= n ->
           fst (fs_call (KRead d f a e) [] s) = Ok (RBytes (f_read (contents W d f) a (N.to_nat (e - a))))) /\
        (changes W + 1 < u64_max ->
           (forall o b, o + N.of_nat (length b) < i32_lim -> fst (fs_call (KWrite d f o b) [] s) = Ok RUnit) /\
           (forall b, n + 4 + N.of_nat (length b) < i32_lim -> fst (fs_call (KAppend d f b) [] s) = Ok (RNum n)) /\
           (forall m, fst (fs_call (KTruncate d f m) [] s) = Ok RUnit)))).
Proof.
  intros I. intros U Rm. split; [|split].
  - intros d. split; [eapply acc_open_dir|eapply acc_delete_dir]; eauto.
  - intros d f Hd Hf. repeat split; [eapply acc_open_file|eapply acc_exists|eapply acc_delete_file]; eauto.
  - intros d f Ho Hf HL. split; [eapply acc_flush; eauto|].
    destruct (acc_length s W I U Rm d f Hf Ho HL) as (n & E1 & E2 & E3 & E4). exists n. repeat split; auto.
    + intros o b Hb. eapply acc_write; eauto.
    + intros m. eapply acc_truncate; eauto.
Qed.
Theorem fs_accepts l rs s : Forall event_ok l -> fs_run l new_fs = (rs, s) ->
  exists W D, fs_effects_any l rs (new_world, fun _ => false) (W, D) /\
  (running W = true -> total (fs_objs s) < 2305843009213693952 ->
   (forall d, fst (fs_call (KOpenDir d) [] s) = Ok RUnit /\ exists b, fst (fs_call (KDeleteDir d) [] s) = Ok (RBool b)) /\
   (forall d f, dir_open W d = true -> ~ In quest f ->
      fst (fs_call (KOpenFile d f) [] s) = Ok RUnit /\
      (exists b, fst (fs_call (KFileExists d f) [] s) = Ok (RBool b)) /\
      (exists b, fst (fs_call (KDeleteFile d f) [] s) = Ok (RBool b))) /\
   (forall d f, file_open W d f = true -> ~ In quest f -> f_len (contents W d f) < i32_lim ->
      fst (fs_call (KFlush d f) [] s) = Ok RUnit /\
      exists n, fst (fs_call (KLength d f) [] s) = Ok (RNum n) /\ n <= f_len (contents W d f) /\
        (forall a e, a <= e -> e <= n ->
           fst (fs_call (KRead d f a e) [] s) = Ok (RBytes (f_read (contents W d f) a (N.to_nat (e - a))))) /\
        (changes W + 1 < u64_max ->
           (forall o b, o + N.of_nat (length b) < i32_lim -> fst (fs_call (KWrite d f o b) [] s) = Ok RUnit) /\
           (forall b, n + 4 + N.of_nat (length b) < i32_lim -> fst (fs_call (KAppend d f b) [] s) = Ok (RNum n)) /\
           (forall m, fst (fs_call (KTruncate d f m) [] s) = Ok RUnit)))).
Proof.
  intros Hok E. destruct (any_effects l _ _ rs s any_new Hok E) as ([W D] & HE & q & lD & I & A & _). cbn [fst snd] in I, A.
  exists W, D. split; [exact HE|]. intros U Rm. rewrite <- (al_objs _ _ _ A) in Rm. destruct (state_accepts q W I U Rm) as (A1 & A2 & A3).
  assert (forall c, (forall d, c <> KDeleteDir d) -> fst (fs_call c [] s) = fst (fs_call c [] q)) as T.
  { intros c Hc. destruct (fs_call c [] s) as [r s'] eqn:Ec.
    destruct (call_alike D c [] s q r s' A Ec) as (q' & Eq & _); [intros d X; destruct (Hc d X)|]. now rewrite Eq. }
  split; [|split].
  - intros d. rewrite T by discriminate. split; [apply A1|].
    assert (fs_up s = true) as Hup by now rewrite <- (al_up _ _ _ A), <- (i_run _ _ I).
    unfold fs_call. rewrite Hup. cbn. eauto.
  - intros d f Hd Hf. rewrite !T by discriminate. now apply A2.
  - intros d f Ho Hf HL. destruct (A3 d f Ho Hf HL) as (B1 & n & B2 & B3 & B4 & B5). rewrite !T by discriminate. split; [exact B1|].
    exists n. split; [exact B2|]. split; [exact B3|]. split; [intros a e X Y; rewrite T by discriminate; now apply B4|].
    intros HC. destruct (B5 HC) as (C1 & C2 & C3). repeat split; intros; rewrite T by discriminate; auto.
Qed.

(** ** What is open is determined by the results *)
Definition flags (W : world) := (running W, dir_open W, file_open W).
Definition flags_after (e : event) (r : res reply) (x : bool * (bytes -> bool) * (bytes -> bytes -> bool)) :=
  let '(u, ds, fl) := x in
  match e, r with
  | Restart, _ => (true, fun _ => false, fun _ _ => false)
  | Call _ _, Panic => (false, ds, fl)
  | Call KShutdown _, Ok _ => (false, ds, fl)
  | Call (KOpenDir d) _, Ok _ => (u, upd1 ds d true, fl)
  | Call (KOpenFile d f) _, Ok _ => (u, ds, upd2 fl d f true)
  | Call (KDeleteFile d f) _, Ok _ => (u, ds, upd2 fl d f false)
  | _, _ => x
  end.
Lemma effect_flags e r W W' : fs_effect e r W W' -> flags W' = flags_after e r (flags W).
Proof.
  intros H. destruct H; cbn [flags_after flags running dir_open file_open with_contents]; auto.
  - destruct c; reflexivity.
  - match goal with H : change _ _ _ _ _ |- _ => destruct H end;
      match goal with |- context [bind ?r _] => destruct r end; cbn [bind]; try reflexivity; congruence.
  - match goal with H : _ \/ _ \/ _ |- _ => destruct H as [(? & ? & ->)|[(? & ->)|(? & ->)]] end; reflexivity.
  - match goal with H : _ \/ _ |- _ => destruct H as [(? & ? & ->)|(? & ->)] end; reflexivity.
  - match goal with H : _ \/ _ |- _ => destruct H as [-> | ->] end; reflexivity.
  - destruct c; reflexivity.
Qed.
Definition agree (x y : bool * (bytes -> bool) * (bytes -> bytes -> bool)) : Prop :=
  fst (fst x) = fst (fst y) /\ (forall d, snd (fst x) d = snd (fst y) d) /\ forall d f, snd x d f = snd y d f.
Lemma agree_after e r x y : agree x y -> agree (flags_after e r x) (flags_after e r y).
Proof.
  destruct x as [[u ds] fl], y as [[u' ds'] fl']. intros (A1 & A2 & A3). cbn [fst snd] in *. subst u'.
  destruct e as [c t|]; [|repeat split]. unfold flags_after.
  destruct c, r as [v| | |]; (split; [reflexivity|split]); cbn [fst snd]; auto; intros; unfold upd2, upd1;
    repeat match goal with |- context [if ?b then _ else _] => destruct b end; auto.
Qed.
Lemma any_flags e r W W' : fs_effect_any e r W W' -> agree (flags (fst W')) (flags_after e r (flags (fst W))).
Proof.
  intros H. destruct H as [W D c t r W' _ HE|W D d t _|W D d t _|W D W' _ _ H3 H4 H5 _]; cbn [fst].
  - rewrite (effect_flags _ _ _ _ HE). repeat split.
  - repeat split.
  - repeat split.
  - cbn [flags_after flags]. repeat split; auto.
Qed.
Lemma agree_sym x y : agree x y -> agree y x.
Proof. intros (A1 & A2 & A3). repeat split; intros; symmetry; auto. Qed.
Lemma agree_trans x y z : agree x y -> agree y z -> agree x z.
Proof. intros (A1 & A2 & A3) (B1 & B2 & B3). repeat split; intros; [congruence|now rewrite A2|now rewrite A3]. Qed.
Lemma effects_flags l rs W W1 : fs_effects_any l rs W W1 -> forall V V1, fs_effects_any l rs V V1 ->
  agree (flags (fst W)) (flags (fst V)) -> agree (flags (fst W1)) (flags (fst V1)).
Proof.
  induction 1 as [W|e l r rs W W' W'' HE HS IH]; intros V V1 H E; inversion H; subst; [exact E|].
  eapply IH; [eassumption|]. eapply agree_trans; [exact (any_flags _ _ _ _ HE)|]. eapply agree_trans; [apply agree_after, E|].
  apply agree_sym, any_flags. eassumption.
Qed.
Lemma open_determined l rs W DW V DV : fs_effects_any l rs (new_world, fun _ => false) (W, DW) ->
  fs_effects_any l rs (new_world, fun _ => false) (V, DV) ->
  running W = running V /\ (forall d, dir_open W d = dir_open V d) /\ forall d f, file_open W d f = file_open V d f.
Proof.
  intros H1 H2. apply (effects_flags _ _ _ _ H1 _ _ H2). repeat split.
Qed.
