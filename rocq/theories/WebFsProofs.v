(** The file system in the browser cache: proofs. *)
From Coq Require Import ZArith.
From Verif Require Import FileProofs Base BaseLemmas Header Node Store U64 File Chunk ChunkProofs WebFile WebProofs WebPlans WebSpec WebTop
  WebFs WebFsSpec WebFsSim.
Local Open Scope N_scope.

(** ** Maps *)
Section Map.
Context {A : Type}.
Lemma get_del k k' (m : list (bytes * A)) : get k' (del k m) = if bytes_eqb k k' then None else get k' m.
Proof.
  induction m as [|[q a] m IH]; cbn [del filter get]; [now destruct (bytes_eqb k k')|]. fold (del k m). cbn [fst].
  destruct (bytes_eqb k q) eqn:E; cbn [negb].
  - rewrite IH. apply bytes_eqb_spec in E as ->. rewrite (beq_sym k' q). destruct (bytes_eqb q k'); reflexivity.
  - cbn [get]. rewrite IH. destruct (bytes_eqb k' q) eqn:E2; [|reflexivity].
    apply bytes_eqb_spec in E2 as ->. now rewrite E.
Qed.
Lemma get_set k k' a (m : list (bytes * A)) : get k' (set k a m) = if bytes_eqb k k' then Some a else get k' m.
Proof.
  unfold set. cbn [get]. rewrite get_del, beq_sym. destruct (bytes_eqb k k'); reflexivity.
Qed.
End Map.
Lemma replace_length o m : forall l, length (replace o m l) = length l.
Proof. induction o as [|o IH]; intros [|x l]; cbn; auto. Qed.
Lemma nth_replace o m : forall l o', (o < length l)%nat -> nth o' (replace o m l) [] = if Nat.eqb o o' then m else nth o' l [].
Proof.
  induction o as [|o IH]; intros [|x l] o' H; cbn [replace length] in *; try lia.
  - destruct o'; reflexivity.
  - destruct o'; [reflexivity|]. cbn [nth]. rewrite IH by lia. reflexivity.
Qed.

(** ** Reads *)
Lemma load_range_same c r h q g : load_range c r h = (q, g) -> same h g /\ (q = Err \/ exists d, q = Ok d).
Proof. intros E. apply load_range_spec in E as (A & B & _). auto. Qed.
Lemma load_loop_same r : forall cs buf h q g, load_loop r cs buf h = (q, g) -> same h g /\ q <> Fuel.
Proof.
  induction cs as [|c cs IH]; intros buf h q g E; cbn [load_loop] in E.
  - injection E as <- <-. split; [apply same_refl|discriminate].
  - apply wbind_inv in E as (q1 & g1 & E1 & E). apply wret_inv in E1 as [-> ->].
    destruct (ranges_total (crange c) r) as [Er|[x Er]]; rewrite Er in E.
    { destruct E as [(a & F & _)|[(_ & -> & ->)|[(F & _)|(F & _)]]]; try discriminate. split; [apply same_refl|discriminate]. }
    destruct E as [(a & F & E)|[(F & _)|[(F & _)|(F & _)]]]; try discriminate. injection F as <-.
    apply wbind_inv in E as (q2 & g2 & E2 & E). apply load_range_same in E2 as [S2 G2].
    destruct E as [(d & -> & E)|[(-> & -> & ->)|[(-> & _)|(-> & _)]]].
    + apply wbind_inv in E as (q3 & g3 & E3 & E). apply wret_inv in E3 as [-> ->].
      unfold copy_to in E. destruct ((fst (snd x) <=? snd (snd x)) && (snd (snd x) <=? N.of_nat (length buf)) &&
        (N.of_nat (length d) =? snd (snd x) - fst (snd x))).
      * destruct E as [(a & F & E)|[(F & _)|[(F & _)|(F & _)]]]; try discriminate.
        apply IH in E as [S3 G3]. split; [|exact G3]. exact (same_trans _ _ _ S2 S3).
      * destruct E as [(a & F & E)|[(F & _)|[(_ & -> & ->)|(F & _)]]]; try discriminate. split; [exact S2|discriminate].
    + split; [exact S2|discriminate].
    + destruct G2 as [F|[? F]]; discriminate.
    + destruct G2 as [F|[? F]]; discriminate.
Qed.
Lemma load_chunks_same r cs h q g : load_chunks r cs h = (q, g) -> same h g /\ q <> Fuel.
Proof.
  unfold load_chunks. rewrite wbind_ret. unfold to_usize. destruct (snd r - fst r <? usize_lim).
  - apply load_loop_same.
  - intros E. injection E as <- <-. split; [apply same_refl|discriminate].
Qed.
Lemma load_lp_same o h q g : wf_load_lp o h = (q, g) -> same h g /\ q <> Fuel.
Proof.
  unfold wf_load_lp. cbv zeta. rewrite wbind_ret. unfold sum_ok. destruct (o + 4 <? u64_max).
  2:{ intros E. injection E as <- <-. split; [apply same_refl|discriminate]. }
  intros E. apply wbind_inv in E as (q1 & g1 & E1 & E). apply load_chunks_same in E1 as [S1 G1].
  destruct E as [(b & -> & E)|[(-> & -> & ->)|[(-> & -> & ->)|(-> & _)]]];
    [|split; [exact S1|discriminate]..|congruence].
  rewrite wbind_ret in E. unfold slice_to in E.
  destruct (4 <=? length b)%nat; [|injection E as <- <-; split; [exact S1|discriminate]].
  apply wret_inv in E as [-> ->]. split; [exact S1|]. destruct (_ <=? _); discriminate.
Qed.

(** A read with a reversed range. *)
Lemma ranges_rev c s e r : overlap (crange c) (s, e) = true -> e < s -> ranges (crange c) (s, e) = Ok r ->
  snd (fst r) <= fst (fst r) /\ snd r = (0, 0).
Proof.
  intros O Hse E. apply overlap_iff in O as [O1 O2]. cbn [fst snd crange] in *.
  unfold ranges in E. cbn [fst snd] in E. unfold to_i64, z_to_usize in E.
  repeat match type of E with
  | context [bind (if ?b then _ else _) _] => destruct b eqn:?; cbn [bind] in E; try discriminate
  end.
  injection E as <-. cbn [fst snd].
  repeat match goal with H : (_ <? _)%Z = false |- _ => apply Z.ltb_ge in H end.
  split; [rewrite !N2Z.id; lia|]. f_equal; lia.
Qed.
Lemma load_loop_rev s e : e < s -> forall cs h q g, (forall c, In c cs -> overlap (crange c) (s, e) = true) ->
  load_loop (s, e) cs [] h = (q, g) -> q = Err \/ q = Ok [].
Proof.
  intros Hse. induction cs as [|c cs IH]; intros h q g H E; cbn [load_loop] in E.
  - injection E as <- <-. now right.
  - apply wbind_inv in E as (q1 & g1 & E1 & E). apply wret_inv in E1 as [-> ->].
    destruct (ranges_total (crange c) (s, e)) as [Er|[x Er]]; rewrite Er in E.
    { destruct E as [(a & F & _)|[(_ & -> & ->)|[(F & _)|(F & _)]]]; try discriminate. now left. }
    destruct (ranges_rev c s e x (H c ltac:(now left)) Hse Er) as [R1 R2].
    destruct E as [(a & F & E)|[(F & _)|[(F & _)|(F & _)]]]; try discriminate. injection F as <-.
    apply wbind_inv in E as (q2 & g2 & E2 & E). apply load_range_spec in E2 as (_ & G2 & D2).
    destruct E as [(d & -> & E)|[(-> & -> & ->)|[(-> & _)|(-> & _)]]];
      [|now left|destruct G2 as [F|[? F]]; discriminate..].
    destruct (D2 d eq_refl) as (d0 & _ & ->).
    assert (js_slice d0 (fst (fst x)) (snd (fst x)) = []) as Ej.
    { unfold js_slice. assert (snd (fst x) - fst (fst x) = 0) as -> by lia. reflexivity. }
    rewrite Ej, R2 in E. rewrite wbind_ret in E. cbn in E.
    apply (IH g2 q g); [|exact E]. intros c' Hc. apply H. now right.
Qed.
Lemma read_rev f s e q g : e < s -> wf_read (s, e) f = (q, g) ->
  same f g /\ (q = Err \/ q = Ok [] /\ e <= snd (crange (prev (w_chunks f)))).
Proof.
  intros Hse. unfold wf_read. cbn [fst snd]. rewrite wbind_ret. assert (e - s = 0) as -> by lia. unfold to_usize.
  assert (0 <? usize_lim = true) as -> by reflexivity. rewrite wbind_ret.
  destruct (N.leb_spec e (snd (crange (prev (w_chunks f))))) as [Hp|Hp].
  2:{ intros E. injection E as <- <-. split; [apply same_refl|now left]. }
  intros E. unfold read_raw in E. split; [now apply load_chunks_same in E|].
  unfold load_chunks in E. rewrite wbind_ret in E. cbn [fst snd] in E. assert (e - s = 0) as Hz by lia. rewrite Hz in E.
  unfold to_usize in E. assert (0 <? usize_lim = true) as Hu by reflexivity. rewrite Hu in E.
  cbn [N.to_nat repeat] in E. apply load_loop_rev in E; [|exact Hse|].
  - destruct E as [->| ->]; [now left|right; auto].
  - intros c Hc. unfold intersecting in Hc. now apply filter_In in Hc.
Qed.
Lemma rep_read f F s e q g : rep f F -> wf_read (s, e) f = (q, g) ->
  same f g /\ (q = Err \/ q = Ok (f_read F s (N.to_nat (e - s))) /\ e <= f_len F).
Proof.
  intros R E. destruct (N.le_gt_cases s e) as [Hse|Hse].
  - split; [now apply (read_spec (WebTop.view F) (f_len F)) in E|].
    destruct (proj1 (rep_shows f F R) (w_faults f) s e Hse) as [A|[A B]]; unfold read_now in *;
      assert (with_faults (w_faults f) f = f) as Ef by (now destruct f); rewrite Ef, E in A; cbn [fst] in A; auto.
  - apply read_rev in E as [S E]; [|exact Hse]. split; [exact S|]. destruct E as [->|[-> E]]; [now left|right].
    destruct (proj2 (rep_shows f F R)) as (n & En & Hn). unfold length_now, wf_length in En. cbn [fst] in En.
    assert (snd (crange (prev (w_chunks f))) = n) as Hx by congruence. rewrite Hx in E.
    split; [|lia]. assert (e - s = 0) as -> by lia. reflexivity.
Qed.

(** ** The invariant *)
Definition is_some {A} (o : option A) : bool := match o with Some _ => true | None => false end.
Definition obj (s : fs) (d : bytes) : jcache :=
  match get d (fs_names s) with Some o => nth o (fs_objs s) [] | None => [] end.
Definition open_chunks (s : fs) (d f : bytes) : option (list chunk) :=
  match get d (fs_dirs s) with Some (_, files) => get f files | None => None end.
Definition file_rep (L : N) (s : fs) (W : world) (d f : bytes) : Prop :=
  match open_chunks s d f with
  | Some cs => Forall (good L) cs /\ rep (WFile cs (view f (obj s d)) []) (contents W d f)
  | None => exists cs, rep (WFile cs (view f (obj s d)) []) (contents W d f)
  end.
Record Inv (s : fs) (W : world) : Prop := {
  i_wfc : forall o, wfc (changes W) (nth o (fs_objs s) []);
  i_names : forall d o, get d (fs_names s) = Some o -> (o < length (fs_objs s))%nat;
  i_inj : forall d d' o, get d (fs_names s) = Some o -> get d' (fs_names s) = Some o -> d = d';
  i_dirs : forall d o fl, get d (fs_dirs s) = Some (o, fl) -> get d (fs_names s) = Some o;
  i_rep : forall d f, valid f -> file_rep (changes W) s W d f;
  i_touched : forall d f, valid f -> touched W d f = false -> view f (obj s d) = [];
  i_gone : forall d f, get d (fs_names s) = None -> touched W d f = false;
  i_dir : forall d, dir_open W d = is_some (get d (fs_dirs s));
  i_file : forall d f, file_open W d f = is_some (open_chunks s d f);
  i_run : running W = fs_up s
}.

Lemma wfc_nil L : wfc L []. Proof. constructor. Qed.
Lemma inv_new : Inv new_fs new_world.
Proof.
  constructor; cbn; try discriminate; auto; try (intros; reflexivity).
  - intros [|o]; apply wfc_nil.
  - intros d f _. exists []. exact rep_new.
Qed.
Lemma rep_nil cs F : rep (WFile cs [] []) F -> blank F.
Proof.
  intros (W & V & _) x Hx. specialize (V x). unfold WebTop.view in V. apply N.ltb_lt in Hx. rewrite Hx in V. rewrite <- V.
  apply vis_none. intros c Hc. apply (wf_keys _ W) in Hc. cbn in Hc. congruence.
Qed.

(** What a call on a file leaves. *)
Lemma inv_gen s W d f o files m' files' W' : Inv s W -> valid f ->
  get d (fs_dirs s) = Some (o, files) ->
  changes W <= changes W' -> wfc (changes W') m' ->
  (forall h, h <> f -> view h m' = view h (nth o (fs_objs s) []) /\ get h files' = get h files) ->
  match get f files' with
  | Some cs => Forall (good (changes W')) cs /\ rep (WFile cs (view f m') []) (contents W' d f)
  | None => exists cs, rep (WFile cs (view f m') []) (contents W' d f)
  end ->
  (touched W' d f = false -> view f m' = []) ->
  (forall d' f', d' <> d \/ f' <> f -> contents W' d' f' = contents W d' f' /\ touched W' d' f' = touched W d' f' /\
     file_open W' d' f' = file_open W d' f') ->
  (forall d', dir_open W' d' = dir_open W d') -> file_open W' d f = is_some (get f files') ->
  running W' = running W ->
  Inv (Fs (replace o m' (fs_objs s)) (fs_names s) (set d (o, files') (fs_dirs s)) (fs_up s)) W'.
Proof.
  intros I Hf Hd HL Hm Ho Hr Ht Hs Hdo Hfo Hru.
  pose proof (i_dirs _ _ I _ _ _ Hd) as Hn. pose proof (i_names _ _ I _ _ Hn) as Hlt.
  set (s' := Fs (replace o m' (fs_objs s)) (fs_names s) (set d (o, files') (fs_dirs s)) (fs_up s)).
  assert (forall d', obj s' d' = if bytes_eqb d d' then m' else obj s d') as Eo.
  { intros d'. unfold obj. cbn [s' fs_names fs_objs]. destruct (beq_dec d d') as [<-|Hdd].
    - rewrite beq_refl, Hn, nth_replace, Nat.eqb_refl by exact Hlt. reflexivity.
    - rewrite (beq_neq _ _ Hdd). destruct (get d' (fs_names s)) as [o'|] eqn:E; [|reflexivity].
      rewrite nth_replace by exact Hlt. destruct (Nat.eqb_spec o o') as [->|]; [|reflexivity].
      exfalso. apply Hdd. eapply i_inj; eassumption. }
  assert (forall d' f', open_chunks s' d' f' = if bytes_eqb d d' then get f' files' else open_chunks s d' f') as Ec.
  { intros d' f'. unfold open_chunks. cbn [s' fs_dirs]. rewrite get_set. destruct (bytes_eqb d d'); reflexivity. }
  assert (forall f', open_chunks s d f' = get f' files) as Ec0 by (intros f'; unfold open_chunks; now rewrite Hd).
  assert (obj s d = nth o (fs_objs s) []) as Eod by (unfold obj; now rewrite Hn).
  assert (forall cs, Forall (good (changes W)) cs -> Forall (good (changes W')) cs) as Gle.
  { intros cs. apply Forall_impl. intros c. now apply good_le. }
  constructor.
  - intros o'. cbn [s' fs_objs]. rewrite nth_replace by exact Hlt. destruct (Nat.eqb o o'); [exact Hm|].
    apply (wfc_le (changes W)); [exact HL|apply I].
  - intros d' o'. cbn [s' fs_names fs_objs]. rewrite replace_length. apply I.
  - apply I.
  - intros d' o' fl. cbn [s' fs_names fs_dirs]. rewrite get_set. destruct (beq_dec d d') as [<-|Hdd].
    + rewrite beq_refl. intros E. injection E as <- <-. exact Hn.
    + rewrite (beq_neq _ _ Hdd). apply I.
  - intros d' f' Hf'. unfold file_rep. rewrite Eo, Ec. destruct (beq_dec d d') as [<-|Hdd].
    + rewrite beq_refl. destruct (beq_dec f f') as [<-|Hff]; [exact Hr|].
      destruct (Ho f') as [-> ->]; [congruence|]. destruct (Hs d f') as [-> _]; [right; congruence|].
      pose proof (i_rep _ _ I d f' Hf') as R. unfold file_rep in R. rewrite Eod, Ec0 in R.
      destruct (get f' files) as [cs'|]; [|exact R]. destruct R as [R1 R2]. split; auto.
    + rewrite (beq_neq _ _ Hdd). destruct (Hs d' f') as [-> _]; [left; congruence|].
      pose proof (i_rep _ _ I d' f' Hf') as R. unfold file_rep in R.
      destruct (open_chunks s d' f') as [cs'|]; [|exact R]. destruct R as [R1 R2]. split; auto.
  - intros d' f' Hf' T. rewrite Eo. destruct (beq_dec d d') as [<-|Hdd].
    + rewrite beq_refl. destruct (beq_dec f f') as [<-|Hff]; [now apply Ht|].
      destruct (Ho f') as [-> _]; [congruence|]. rewrite <- Eod. apply (i_touched _ _ I); [exact Hf'|].
      destruct (Hs d f') as (_ & <- & _); [right; congruence|exact T].
    + rewrite (beq_neq _ _ Hdd). apply (i_touched _ _ I); [exact Hf'|].
      destruct (Hs d' f') as (_ & <- & _); [left; congruence|exact T].
  - intros d' f' Hno. cbn [s' fs_names] in Hno. destruct (beq_dec d d') as [<-|Hdd]; [congruence|].
    destruct (Hs d' f') as (_ & -> & _); [left; congruence|]. now apply (i_gone _ _ I).
  - intros d'. cbn [s' fs_dirs]. rewrite get_set, Hdo, (i_dir _ _ I). destruct (beq_dec d d') as [<-|Hdd].
    + now rewrite beq_refl, Hd.
    + now rewrite (beq_neq _ _ Hdd).
  - intros d' f'. rewrite Ec. destruct (beq_dec d d') as [<-|Hdd].
    + rewrite beq_refl. destruct (beq_dec f f') as [<-|Hff]; [exact Hfo|].
      destruct (Hs d f') as (_ & _ & ->); [right; congruence|]. rewrite (i_file _ _ I), Ec0.
      destruct (Ho f') as [_ ->]; [congruence|reflexivity].
    + rewrite (beq_neq _ _ Hdd). destruct (Hs d' f') as (_ & _ & ->); [left; congruence|]. apply I.
  - rewrite Hru. apply I.
Qed.

Lemma replace_self o : forall l, replace o (nth o l []) l = l.
Proof. induction o as [|o IH]; intros [|x l]; cbn; auto. now rewrite IH. Qed.
Lemma upd2_eq {A} (m : bytes -> bytes -> A) d f a : upd2 m d f a d f = a.
Proof. unfold upd2, upd1. now rewrite !beq_refl. Qed.
Lemma upd2_ne {A} (m : bytes -> bytes -> A) d f a d' f' : d' <> d \/ f' <> f -> upd2 m d f a d' f' = m d' f'.
Proof.
  intros H. unfold upd2, upd1. destruct (beq_dec d d') as [<-|Hd].
  - rewrite beq_refl. destruct H as [H|H]; [congruence|]. now rewrite beq_neq by congruence.
  - now rewrite beq_neq.
Qed.

(** Calls on files. *)
Lemma on_file_inv {A} d f (m : wm jfile A) k t s r s' : on_file d f m k t s = (r, s') ->
  open_chunks s d f = None /\ r = Err /\ s' = s \/
  exists o files cs q j', get d (fs_dirs s) = Some (o, files) /\ get f files = Some cs /\
    m (jfile_of s o cs t) = (q, j') /\ r = (x <- q ;; Ok (k x)) /\
    s' = Fs (replace o (j_cache j') (fs_objs s)) (fs_names s) (set d (o, set f (j_chunks j') files) (fs_dirs s)) (fs_up s).
Proof.
  unfold on_file, open_chunks. destruct (get d (fs_dirs s)) as [[o files]|]; [|intros E; injection E as <- <-; now left].
  destruct (get f files) as [cs|] eqn:Ef; [|intros E; injection E as <- <-; now left].
  destruct (m (jfile_of s o cs t)) as [q j'] eqn:Em. intros E. injection E as <- <-. right.
  exists o, files, cs, q, j'. auto.
Qed.
Lemma get_set_same {A} f (a : A) m : get f (set f a m) = Some a.
Proof. now rewrite get_set, beq_refl. Qed.
Lemma get_set_ne {A} f h (a : A) m : h <> f -> get h (set f a m) = get h m.
Proof. intros H. rewrite get_set, beq_neq by congruence. reflexivity. Qed.

Lemma open_inv s W d f o files cs : Inv s W -> valid f -> get d (fs_dirs s) = Some (o, files) -> get f files = Some cs ->
  file_open W d f = true /\ wfc (changes W) (nth o (fs_objs s) []) /\ Forall (good (changes W)) cs /\
  rep (WFile cs (view f (nth o (fs_objs s) [])) []) (contents W d f).
Proof.
  intros I Hf Hd Hg. pose proof (i_rep _ _ I d f Hf) as R. unfold file_rep, open_chunks in R. rewrite Hd, Hg in R.
  unfold obj in R. rewrite (i_dirs _ _ I _ _ _ Hd) in R. rewrite (i_file _ _ I). unfold open_chunks. rewrite Hd, Hg.
  split; [reflexivity|]. split; [apply I|]. exact R.
Qed.
Lemma closed_inv s W d f : Inv s W -> open_chunks s d f = None -> file_open W d f = false.
Proof. intros I H. now rewrite (i_file _ _ I), H. Qed.

(** Calls that do not change a file. *)
Lemma inv_ro {A} s W d f o files cs (m : wm jfile A) (w : wm wfile A) t q j' : Inv s W -> valid f ->
  get d (fs_dirs s) = Some (o, files) -> get f files = Some cs ->
  sim (changes W) f m w -> (forall t' r g, w (WFile cs (view f (nth o (fs_objs s) [])) t') = (r, g) -> same (WFile cs (view f (nth o (fs_objs s) [])) t') g) ->
  m (jfile_of s o cs t) = (q, j') ->
  Inv (Fs (replace o (j_cache j') (fs_objs s)) (fs_names s) (set d (o, set f (j_chunks j') files) (fs_dirs s)) (fs_up s)) W /\
  exists t', w (WFile cs (view f (nth o (fs_objs s) [])) t') = (q, WFile cs (view f (nth o (fs_objs s) [])) []).
Proof.
  intros I Hf Hd Hg HS Hw E. destruct (open_inv _ _ _ _ _ _ _ I Hf Hd Hg) as (Ho & Hm & Hc & R).
  destruct (HS (jfile_of s o cs t) _ _ Hm Hc E) as (A1 & A2 & A3 & A4). destruct (A4 []) as (t' & Et). cbn [jfile_of j_chunks j_cache] in *.
  pose proof (Hw _ _ _ Et) as [S1 S2]. cbn [w_chunks w_cache] in S1, S2. rewrite <- S1, <- S2 in Et.
  split; [|now exists t'].
  apply (inv_gen s W d f o files); auto; try lia.
  - intros h Hh. split; [now apply A3|now apply get_set_ne].
  - rewrite get_set_same. split; [exact A2|]. rewrite <- S1, <- S2. exact R.
  - intros T. rewrite <- S2. pose proof (i_touched _ _ I d f Hf T) as V. unfold obj in V.
    now rewrite (i_dirs _ _ I _ _ _ Hd) in V.
  - now rewrite get_set_same.
Qed.

Lemma inv_down s W : Inv s W -> Inv (Fs (fs_objs s) (fs_names s) (fs_dirs s) false)
  (World (contents W) (touched W) (dir_open W) (file_open W) false (changes W)).
Proof. intros I. constructor; cbn; try apply I. reflexivity. Qed.
Lemma inv_restart s W : Inv s W -> Inv (fs_restart s)
  (World (contents W) (touched W) (fun _ => false) (fun _ _ => false) true (changes W)).
Proof.
  intros I. constructor; cbn; try apply I; try discriminate; try reflexivity.
  intros d f Hf. pose proof (i_rep _ _ I d f Hf) as R. unfold file_rep in *.
  change (open_chunks (fs_restart s) d f) with (@None (list chunk)). cbv iota.
  destruct (open_chunks s d f) as [cs|]; [exists cs; apply R|exact R].
Qed.

(** Calls that change a file. *)
Lemma change_effect s W c d f k w t (m : wm jfile (option N)) r s' : Inv s W -> valid f -> fs_up s = true ->
  change c d f k w -> k <> COpen -> jcall f k = m ->
  on_file d f m w t s = (r, s') ->
  (open_chunks s d f = None -> fs_effect (Call c t) Err W W) ->
  exists W', fs_effect (Call c t) r W W' /\
    Inv (match r with Panic => Fs (fs_objs s') (fs_names s') (fs_dirs s') false | _ => s' end) W'.
Proof.
  intros I Hf Hup Hch Hk <- E Hcl. apply on_file_inv in E as [(A & -> & ->)|(o & files & cs & q & j' & Hd & Hg & E & -> & ->)].
  { exists W. auto. }
  destruct (open_inv _ _ _ _ _ _ _ I Hf Hd Hg) as (Ho & Hm & Hc & R).
  destruct (jcall_sim (changes W) f k (jfile_of s o cs t) q j' Hf Hm Hc Hk E) as [(-> & Hu & ->)|(A1 & A2 & A3 & t' & Et)].
  - eexists. split; [eapply F_panic; eauto|]. cbn [bind fs_objs fs_names fs_dirs fs_up].
    cbn [jfile_of j_cache j_chunks]. rewrite replace_self.
    assert (Inv (Fs (fs_objs s) (fs_names s) (set d (o, set f cs files) (fs_dirs s)) (fs_up s))
      (World (contents W) (upd2 (touched W) d f true) (dir_open W) (file_open W) (running W) (changes W + 1))) as K.
    { rewrite <- (replace_self o (fs_objs s)) at 1.
      apply (inv_gen s W d f o files); cbn [changes contents touched dir_open file_open running]; auto; try lia.
      - apply (wfc_le (changes W)); [lia|exact Hm].
      - intros h Hh. split; [reflexivity|now apply get_set_ne].
      - rewrite get_set_same. split; [now apply good_up|exact R].
      - rewrite upd2_eq. discriminate.
      - intros d' f' H. now rewrite upd2_ne.
      - now rewrite get_set_same. }
    apply inv_down in K. exact K.
  - cbn [jfile_of j_cache j_chunks] in *.
    destruct (step_effect _ _ _ _ _ R Et) as (F' & HE & R'). cbn [fst] in HE.
    assert (Inv (Fs (replace o (j_cache j') (fs_objs s)) (fs_names s) (set d (o, set f (j_chunks j') files) (fs_dirs s)) (fs_up s))
      (with_contents W d f F')) as K.
    { apply (inv_gen s W d f o files); cbn [with_contents changes contents touched dir_open file_open running]; auto; try lia.
      - intros h Hh. split; [now apply A3|now apply get_set_ne].
      - rewrite get_set_same, upd2_eq. split; [exact A2|exact R'].
      - rewrite upd2_eq. discriminate.
      - intros d' f' H. now rewrite !upd2_ne.
      - now rewrite get_set_same, Ho. }
    destruct q as [x| | |] eqn:Eq.
    + eexists. split; [exact (F_change W c d f t k w (Ok x) F' Hch Ho HE ltac:(discriminate))|exact K].
    + eexists. split; [exact (F_change W c d f t k w Err F' Hch Ho HE ltac:(discriminate))|exact K].
    + assert (F' = contents W d f) as ->.
      { inversion HE; subst; try reflexivity. }
      eexists. split; [eapply F_panic; eauto|]. apply inv_down in K. cbn [bind].
      constructor; try apply K.
      intros d' f' Hf'. pose proof (i_rep _ _ K d' f' Hf') as Q. unfold file_rep in *. cbn [changes contents with_contents] in Q |- *.
      assert (upd2 (contents W) d f (contents W d f) d' f' = contents W d' f') as Eu.
      { destruct (beq_dec d' d) as [->|]; [destruct (beq_dec f' f) as [->|]; [apply upd2_eq|]|]; apply upd2_ne; auto. }
      rewrite Eu in Q. exact Q.
    + inversion HE; subst; match goal with H : Fuel = Ok None \/ Fuel = Err |- _ => destruct H; discriminate end.
Qed.

Lemma on_file_map {A B} d f (m : wm jfile A) (g : A -> B) (k : B -> reply) t s :
  on_file d f m (fun x => k (g x)) t s = on_file d f (x <~ m ;; wret (Ok (g x))) k t s.
Proof.
  unfold on_file. destruct (get d (fs_dirs s)) as [[o files]|]; [|reflexivity]. destruct (get f files) as [cs|]; [|reflexivity].
  unfold wbind, wret. destruct (m (jfile_of s o cs t)) as [[x| | |] j]; reflexivity.
Qed.
Lemma sim_length L f : sim L f j_length wf_length.
Proof.
  intros j r j' Hm Hc E. unfold j_length in E. cbv beta in E. assert (r = Ok (snd (crange (prev (j_chunks j)))) /\ j' = j) as [-> ->] by (split; congruence).
  repeat split; auto. intros t2. exists t2. reflexivity.
Qed.

(** Operations on the cache outside of files. *)
Lemma good_fold L l : Forall (good L) l -> Forall (good L) (fold_right set_insert [] l).
Proof. intros G. induction G as [|c l Hc _ IH]; [constructor|]. cbn [fold_right]. now apply good_insert. Qed.
Lemma find_open s W d f o files t q j' : Inv s W -> valid f -> get d (fs_dirs s) = Some (o, files) -> get f files = None ->
  j_find f (jfile_of s o [] t) = (q, j') ->
  q = Err \/ exists cs, q = Ok cs /\ Forall (good (changes W)) cs /\
    rep (WFile cs (view f (nth o (fs_objs s) [])) []) (contents W d f) /\
    (cs = [] -> view f (nth o (fs_objs s) []) = []) /\ (view f (nth o (fs_objs s) []) = [] -> cs = []).
Proof.
  intros I Hf Hd Hg E. unfold j_find, jjs in E. cbn [jfile_of j_faults] in E.
  assert (q = Err \/ q = Ok (fold_right set_insert [] (map fst (view f (nth o (fs_objs s) []))))) as [->| ->].
  { destruct t as [|[] t]; cbn in E; rewrite ?(view_keys (changes W) f _ (i_wfc _ _ I o)) in E; assert (q = q) by reflexivity;
      injection E as <- _; auto. }
  - now left.
  - right. eexists. split; [reflexivity|].
    pose proof (i_rep _ _ I d f Hf) as R. unfold file_rep, open_chunks, obj in R. rewrite Hd, Hg, (i_dirs _ _ I _ _ _ Hd) in R.
    destruct R as (cs0 & R). split; [|split; [|split]].
    + apply good_fold, view_good, I.
    + assert (step (COpen, []) (WFile cs0 (view f (nth o (fs_objs s) [])) []) =
        (Ok None, WFile (fold_right set_insert [] (map fst (view f (nth o (fs_objs s) [])))) (view f (nth o (fs_objs s) [])) [])) as Es
        by reflexivity.
      destruct (step_effect _ _ _ _ _ R Es) as (F' & HE & R'). inversion HE; subst; exact R'.
    + destruct (view f (nth o (fs_objs s) [])) as [|[c b] v]; [reflexivity|]. cbn [map fst fold_right]. intros X. exfalso.
      assert (In c (set_insert c (fold_right set_insert [] (map fst v)))) as Y by (apply set_insert_in; now left).
      rewrite X in Y. exact Y.
    + intros ->. reflexivity.
Qed.

Lemma wfc_filter L p m : wfc L m -> wfc L (filter p m).
Proof.
  unfold wfc. rewrite !Forall_forall. intros H x Hx. apply filter_In in Hx as [Hx _]. auto.
Qed.
Lemma inv_delete_dir s W d : Inv s W -> get d (fs_dirs s) = None ->
  Inv (Fs (fs_objs s) (del d (fs_names s)) (fs_dirs s) (fs_up s))
    (World (upd1 (contents W) d (fun _ => empty_file)) (upd1 (touched W) d (fun _ => false))
       (dir_open W) (file_open W) (running W) (changes W)).
Proof.
  intros I Hd. constructor; cbn [fs_objs fs_names fs_dirs fs_up contents touched dir_open file_open running changes].
  - apply I.
  - intros d' o. rewrite get_del. destruct (bytes_eqb d d'); [discriminate|apply I].
  - intros d1 d2 o. rewrite !get_del. destruct (bytes_eqb d d1); [discriminate|]. destruct (bytes_eqb d d2); [discriminate|].
    apply I.
  - intros d' o fl H. rewrite get_del. destruct (beq_dec d d') as [<-|Hdd]; [congruence|]. rewrite beq_neq by exact Hdd.
    eapply i_dirs; eassumption.
  - intros d' f Hf. unfold file_rep, obj, open_chunks. cbn [fs_objs fs_names fs_dirs contents]. rewrite get_del. unfold upd1.
    destruct (beq_dec d d') as [<-|Hdd].
    + rewrite beq_refl, Hd. exists []. exact rep_new.
    + rewrite beq_neq by exact Hdd. exact (i_rep _ _ I d' f Hf).
  - intros d' f Hf. unfold obj. cbn [fs_objs fs_names]. rewrite get_del. unfold upd1.
    destruct (bytes_eqb d d'); [reflexivity|exact (i_touched _ _ I d' f Hf)].
  - intros d' f. rewrite get_del. unfold upd1. destruct (bytes_eqb d d'); [reflexivity|apply I].
  - apply I.
  - apply I.
  - apply I.
Qed.
Lemma inv_open_dir s W d o : Inv s W -> get d (fs_dirs s) = None -> get d (fs_names s) = Some o ->
  Inv (Fs (fs_objs s) (fs_names s) (set d (o, []) (fs_dirs s)) (fs_up s))
    (World (contents W) (touched W) (upd1 (dir_open W) d true) (file_open W) (running W) (changes W)).
Proof.
  intros I Hd Hn. constructor; cbn [fs_objs fs_names fs_dirs fs_up contents touched dir_open file_open running changes]; try apply I.
  - intros d' o' fl. rewrite get_set. destruct (beq_dec d d') as [<-|Hdd].
    + rewrite beq_refl. congruence.
    + rewrite beq_neq by exact Hdd. apply I.
  - intros d' f Hf. pose proof (i_rep _ _ I d' f Hf) as R. unfold file_rep, obj, open_chunks in *.
    cbn [fs_objs fs_names fs_dirs contents changes]. rewrite get_set. destruct (beq_dec d d') as [<-|Hdd].
    + rewrite beq_refl. cbn [get]. rewrite Hd in R. exact R.
    + rewrite beq_neq by exact Hdd. exact R.
  - intros d'. rewrite get_set. unfold upd1. destruct (bytes_eqb d d'); [reflexivity|apply I].
  - intros d' f. rewrite (i_file _ _ I). unfold open_chunks. cbn [fs_dirs]. rewrite get_set. destruct (beq_dec d d') as [<-|Hdd].
    + now rewrite beq_refl, Hd.
    + now rewrite beq_neq by exact Hdd.
Qed.
Lemma inv_create s W d : Inv s W -> get d (fs_names s) = None ->
  Inv (Fs (fs_objs s ++ [[]]) (set d (length (fs_objs s)) (fs_names s)) (fs_dirs s) (fs_up s)) W.
Proof.
  intros I Hn.
  assert (forall o, nth o (fs_objs s ++ [[]]) [] = nth o (fs_objs s) []) as En.
  { intros o. destruct (Nat.lt_ge_cases o (length (fs_objs s))) as [H|H].
    - now apply app_nth1.
    - rewrite app_nth2 by exact H. rewrite (nth_overflow (fs_objs s)) by exact H.
      destruct (o - length (fs_objs s))%nat as [|[|]]; reflexivity. }
  assert (forall d', obj (Fs (fs_objs s ++ [[]]) (set d (length (fs_objs s)) (fs_names s)) (fs_dirs s) (fs_up s)) d' = obj s d') as Eo.
  { intros d'. unfold obj. cbn [fs_objs fs_names]. rewrite get_set. destruct (beq_dec d d') as [<-|Hdd].
    - rewrite beq_refl, Hn, En. now apply nth_overflow.
    - rewrite beq_neq by exact Hdd. destruct (get d' (fs_names s)); [apply En|reflexivity]. }
  constructor; cbn [fs_objs fs_names fs_dirs fs_up]; try apply I.
  - intros o. rewrite En. apply I.
  - intros d' o. rewrite get_set, app_length. cbn [length]. destruct (bytes_eqb d d').
    + intros X. injection X as <-. lia.
    + intros X. pose proof (i_names _ _ I _ _ X). lia.
  - intros d1 d2 o. rewrite !get_set. destruct (beq_dec d d1) as [<-|H1], (beq_dec d d2) as [<-|H2];
      rewrite ?beq_refl, ?(beq_neq _ _ H1), ?(beq_neq _ _ H2); auto.
    + intros X. injection X as <-. intros X. pose proof (i_names _ _ I _ _ X). lia.
    + intros X Y. injection Y as <-. pose proof (i_names _ _ I _ _ X). lia.
    + apply I.
  - intros d' o fl H. rewrite get_set. destruct (beq_dec d d') as [<-|Hdd].
    + pose proof (i_dirs _ _ I _ _ _ H). congruence.
    + rewrite beq_neq by exact Hdd. eapply i_dirs; eassumption.
  - intros d' f Hf. unfold file_rep. rewrite Eo. exact (i_rep _ _ I d' f Hf).
  - intros d' f Hf. rewrite Eo. exact (i_touched _ _ I d' f Hf).
  - intros d' f. rewrite get_set. destruct (bytes_eqb d d'); [discriminate|apply I].
Qed.
Lemma inv_create_dir s W d : Inv s W -> get d (fs_dirs s) = None -> get d (fs_names s) = None ->
  Inv (Fs (fs_objs s ++ [[]]) (set d (length (fs_objs s)) (fs_names s)) (set d (length (fs_objs s), []) (fs_dirs s)) (fs_up s))
    (World (contents W) (touched W) (upd1 (dir_open W) d true) (file_open W) (running W) (changes W)).
Proof.
  intros I Hd Hn. apply (inv_create _ _ _ I) in Hn.
  apply (inv_open_dir _ _ d (length (fs_objs s)) Hn); cbn [fs_dirs fs_names]; [exact Hd|apply get_set_same].
Qed.

Lemma call_effect s W c t r s' : Inv s W -> event_ok (Call c t) ->
  (forall d, c = KDeleteDir d -> get d (fs_dirs s) = None) ->
  fs_call c t s = (r, s') -> exists W', fs_effect (Call c t) r W W' /\ Inv s' W'.
Proof.
  intros I Hok Hdel E. unfold fs_call in E. destruct (fs_up s) eqn:Hup.
  2:{ injection E as <- <-. exists W. split; [apply F_down; now rewrite (i_run _ _ I)|exact I]. }
  destruct (fs_exec c t s) as [r1 s1] eqn:Ex. injection E as <- <-.
  destruct c as [d|d|d f|d f|d f|d f|d f o b|d f a e|d f|d f n|d f b|d f o|]; cbn [fs_exec event_ok] in Ex, Hok.
  - (* open_dir *)
    destruct (get d (fs_dirs s)) as [[o files]|] eqn:Hd.
    + injection Ex as <- <-. eexists. split; [apply F_open_dir|]. constructor; try apply I.
      intros d'. cbn [dir_open]. unfold upd1. destruct (beq_dec d d') as [<-|Hdd].
      * now rewrite beq_refl, Hd.
      * rewrite beq_neq by exact Hdd. apply I.
    + destruct t as [|[] t]; cbn [fs_js] in Ex.
      2:{ injection Ex as <- <-. exists W. split; [|exact I]. apply F_open_dir_failed. now rewrite (i_dir _ _ I), Hd. }
      all: destruct (get d (fs_names s)) as [o|] eqn:Hn; injection Ex as <- <-; eexists; (split; [apply F_open_dir|]).
      all: first [now apply inv_open_dir|now apply inv_create_dir].
  - (* delete_dir *)
    specialize (Hdel d eq_refl). destruct t as [|[] t]; cbn [fs_js] in Ex.
    2:{ injection Ex as <- <-. exists W. split; [apply F_delete_dir_failed|exact I]. }
    all: injection Ex as <- <-.
    all: eexists; (split; [apply F_delete_dir|now apply inv_delete_dir]).
    all: intros Hb f; destruct (get d (fs_names s)) eqn:G; [discriminate|]; now apply (i_gone _ _ I).
  - (* open_file *)
    destruct (get d (fs_dirs s)) as [[o files]|] eqn:Hd.
    2:{ injection Ex as <- <-. exists W. split; [|exact I]. apply F_open_file_failed, (closed_inv s); [exact I|].
        unfold open_chunks. now rewrite Hd. }
    assert (dir_open W d = true) as Hdo by (rewrite (i_dir _ _ I), Hd; reflexivity).
    destruct (get f files) as [cs|] eqn:Hg.
    + injection Ex as <- <-. eexists. split; [now apply F_open_file|].
      destruct (open_inv _ _ _ _ _ _ _ I Hok Hd Hg) as (Ho & _).
      constructor; try apply I. intros d' f'. cbn [file_open]. rewrite <- (i_file _ _ I).
      destruct (beq_dec d' d) as [->|]; [destruct (beq_dec f' f) as [->|]; [now rewrite upd2_eq|]|]; apply upd2_ne; auto.
    + destruct (j_find f (jfile_of s o [] t)) as [q j'] eqn:Ef. cbn [fst] in Ex.
      destruct (find_open s W d f o files t q j' I Hok Hd Hg Ef) as [->|(cs & -> & Gc & R & _)].
      * injection Ex as <- <-. exists W. split; [|exact I]. apply F_open_file_failed, (closed_inv s); [exact I|].
        unfold open_chunks. now rewrite Hd.
      * injection Ex as <- <-. eexists. split; [now apply F_open_file|].
        rewrite <- (replace_self o (fs_objs s)) at 1.
        apply (inv_gen s W d f o files); cbn [changes contents touched dir_open file_open running]; auto; try lia.
        -- apply I.
        -- intros h Hh. split; [reflexivity|now apply get_set_ne].
        -- rewrite get_set_same. auto.
        -- intros T. pose proof (i_touched _ _ I d f Hok T) as V. unfold obj in V. now rewrite (i_dirs _ _ I _ _ _ Hd) in V.
        -- intros d' f' H. now rewrite upd2_ne.
        -- now rewrite get_set_same, upd2_eq.
  - (* file_exists *)
    destruct (get d (fs_dirs s)) as [[o files]|] eqn:Hd.
    2:{ injection Ex as <- <-. exists W. split; [|exact I]. apply F_exists_failed, (closed_inv s); [exact I|].
        unfold open_chunks. now rewrite Hd. }
    assert (dir_open W d = true) as Hdo by (rewrite (i_dir _ _ I), Hd; reflexivity).
    destruct (get f files) as [cs|] eqn:Hg.
    + injection Ex as <- <-. exists W. split; [|exact I]. destruct (open_inv _ _ _ _ _ _ _ I Hok Hd Hg) as (Ho & _).
      apply F_exists; auto; discriminate.
    + assert (file_open W d f = false) as Hfo
        by (apply (closed_inv s); [exact I|]; unfold open_chunks; now rewrite Hd).
      destruct (j_find f (jfile_of s o [] t)) as [q j'] eqn:Ef. cbn [fst] in Ex.
      destruct (find_open s W d f o files t q j' I Hok Hd Hg Ef) as [->|(cs & -> & Gc & R & N1 & N2)].
      * injection Ex as <- <-. exists W. split; [|exact I]. now apply F_exists_failed.
      * injection Ex as <- <-. exists W. split; [|exact I]. cbn [bind]. apply F_exists; [exact Hdo|congruence|..].
        -- intros Hb. right. destruct (touched W d f) eqn:T; [reflexivity|].
           pose proof (i_touched _ _ I d f Hok T) as V. unfold obj in V. rewrite (i_dirs _ _ I _ _ _ Hd) in V.
           rewrite (N2 V) in Hb. discriminate.
        -- intros Hb. destruct cs as [|]; [|discriminate]. rewrite (N1 eq_refl) in R. now apply rep_nil in R.
  - (* delete_file *)
    destruct (get d (fs_dirs s)) as [[o files]|] eqn:Hd.
    2:{ injection Ex as <- <-. exists W. split; [|exact I]. apply F_delete_file_failed. }
    assert (dir_open W d = true) as Hdo by (rewrite (i_dir _ _ I), Hd; reflexivity).
    pose proof (i_wfc _ _ I o) as Hm. pose proof (i_rep _ _ I d f Hok) as R0.
    pose proof (i_touched _ _ I d f Hok) as T0. unfold file_rep, obj in R0, T0. rewrite (i_dirs _ _ I _ _ _ Hd) in R0, T0.
    assert (exists cs, rep (WFile cs (view f (nth o (fs_objs s) [])) []) (contents W d f)) as (cs & R)
      by (destruct (open_chunks s d f) as [cs|]; [exists cs; apply R0|exact R0]). clear R0.
    cbv zeta in Ex. rewrite (exists_path (changes W) f _ Hok Hm) in Ex.
    destruct t as [|[] t]; cbn [fs_js] in Ex.
    2:{ injection Ex as <- <-. exists W. split; [apply F_delete_file_failed|exact I]. }
    all: injection Ex as <- <-.
    all: eexists; (split; [apply F_delete_file; [exact Hdo|..]|]).
    1,4: destruct (touched W d f); [reflexivity|]; rewrite (T0 eq_refl); discriminate.
    1,3: destruct (view f (nth o (fs_objs s) [])); [intros _; now apply rep_nil in R|discriminate].
    all: apply (inv_gen s W d f o files); cbn [changes contents touched dir_open file_open running]; auto; try lia.
    all: try (apply wfc_filter, I).
    all: try (intros h Hh; split; [now apply (view_delete_path_other (changes W))|rewrite get_del, beq_neq by congruence; reflexivity]).
    all: rewrite ?get_del, ?beq_refl, ?upd2_eq, ?(view_delete_path (changes W) f _ Hok Hm).
    all: try (exists []; exact rep_new).
    all: try reflexivity.
    all: try (intros d' f' H; now rewrite !upd2_ne).
  - (* flush *)
    apply on_file_inv in Ex as [(A & -> & ->)|(o & files & cs & q & j' & Hd & Hg & E & -> & ->)].
    { exists W. split; [apply (F_closed _ _ d f); auto; now apply (closed_inv s)|exact I]. }
    destruct (inv_ro s W d f o files cs (wret (Ok tt)) (wret (Ok tt)) t q j' I Hok Hd Hg (sim_ret _ _ _)
      ltac:(intros t' r g X; injection X as _ <-; apply same_refl) E) as (I' & _).
    destruct (open_inv _ _ _ _ _ _ _ I Hok Hd Hg) as (Ho & _). injection E as <- _. exists W. split; [now apply F_flush|exact I'].
  - (* write *) destruct Hok as [Hf Hb]. rewrite (on_file_map d f (j_write f o b) (fun _ => @None N) (fun _ => RUnit)) in Ex.
    eapply (change_effect s W (KWrite d f o b) d f (CWrite o b) (fun _ => RUnit)); try eassumption; try discriminate;
      [constructor|reflexivity|].
    intros A. apply (F_failed _ _ d f); eauto. now apply (closed_inv s).
  - (* read *)
    apply on_file_inv in Ex as [(A & -> & ->)|(o & files & cs & q & j' & Hd & Hg & E & -> & ->)].
    { exists W. split; [apply (F_refused _ _ d f); eauto|exact I]. }
    destruct (open_inv _ _ _ _ _ _ _ I Hok Hd Hg) as (Ho & Hm & Hc & R).
    assert (forall t', rep (WFile cs (view f (nth o (fs_objs s) [])) t') (contents W d f)) as Rt
      by (intros t'; exact (rep_faults t' _ _ R)).
    destruct (inv_ro s W d f o files cs (j_read f (a, e)) (wf_read (a, e)) t q j' I Hok Hd Hg (sim_read _ _ Hok _)
      ltac:(intros t' r g X; now apply (rep_read _ _ _ _ _ _ (Rt t')) in X) E) as (I' & t' & Et).
    destruct (rep_read _ _ _ _ _ _ (Rt t') Et) as (_ & [->|[-> He]]); exists W; (split; [|exact I']).
    + apply (F_refused _ _ d f); eauto.
    + now apply F_read.
  - (* length *)
    apply on_file_inv in Ex as [(A & -> & ->)|(o & files & cs & q & j' & Hd & Hg & E & -> & ->)].
    { exists W. split; [apply (F_closed _ _ d f); auto; now apply (closed_inv s)|exact I]. }
    destruct (open_inv _ _ _ _ _ _ _ I Hok Hd Hg) as (Ho & Hm & Hc & R).
    destruct (inv_ro s W d f o files cs j_length wf_length t q j' I Hok Hd Hg (sim_length _ _)
      ltac:(intros t' r g X; injection X as _ <-; apply same_refl) E) as (I' & t' & Et).
    destruct (proj2 (rep_shows _ _ R)) as (n & En & Hn).
    unfold length_now, wf_length in En, Et. cbn [fst w_chunks] in En, Et.
    assert (q = Ok n) as -> by congruence. exists W. split; [now apply F_length|exact I'].
  - (* truncate *) rewrite (on_file_map d f (j_truncate f n) (fun _ => @None N) (fun _ => RUnit)) in Ex.
    eapply (change_effect s W (KTruncate d f n) d f (CTruncate n) (fun _ => RUnit)); try eassumption; try discriminate;
      [constructor|reflexivity|].
    intros A. apply (F_failed _ _ d f); eauto. now apply (closed_inv s).
  - (* append *) destruct Hok as [Hf Hb]. unfold j_append_lp in Ex. apply N.ltb_lt in Hb as Hb'. rewrite Hb' in Ex.
    rewrite (on_file_map d f (j_append f (to_be 4 (N.of_nat (length b)) ++ b)) Some
      (fun o => match o with Some n => RNum n | None => RUnit end)) in Ex.
    eapply (change_effect s W (KAppend d f b) d f); try eassumption; try discriminate; [now constructor|discriminate|reflexivity|].
    intros A. apply (F_failed _ _ d f); eauto. now apply (closed_inv s).
  - (* load *)
    apply on_file_inv in Ex as [(A & -> & ->)|(ob & files & cs & q & j' & Hd & Hg & E & -> & ->)].
    { exists W. split; [apply (F_refused _ _ d f); eauto|exact I]. }
    destruct (open_inv _ _ _ _ _ _ _ I Hok Hd Hg) as (Ho & Hm & Hc & R).
    destruct (inv_ro s W d f ob files cs (j_load_lp f o) (wf_load_lp o) t q j' I Hok Hd Hg (sim_load_lp _ _ Hok _)
      ltac:(intros t' r g X; now apply load_lp_same in X) E) as (I' & t' & Et).
    apply load_lp_same in Et as [_ Hq]. destruct q as [x| | |]; [| | |congruence]; cbn [bind].
    + exists W. split; [now apply F_load|exact I'].
    + exists W. split; [apply (F_refused _ _ d f); eauto|exact I'].
    + eexists. split; [now apply F_load_panic|]. apply inv_down in I'. exact I'.
  - (* shutdown *)
    injection Ex as <- <-. eexists. split; [apply F_shutdown|]. now apply inv_down.
Qed.

(** ** Histories *)
Lemma call_dirs c t s r s' d : fs_call c t s = (r, s') -> get d (fs_dirs s') <> None ->
  get d (fs_dirs s) <> None \/ c = KOpenDir d.
Proof.
  intros E H.
  assert (forall A d0 f (m : wm jfile A) k r1 s1, on_file d0 f m k t s = (r1, s1) -> get d (fs_dirs s1) <> None ->
    get d (fs_dirs s) <> None) as Hon.
  { intros A d0 f m k r1 s1 Ex Hs. apply on_file_inv in Ex as [(_ & _ & ->)|(o & files & cs & q & j' & Hd & _ & _ & _ & ->)]; [exact Hs|].
    cbn [fs_dirs] in Hs. rewrite get_set in Hs. destruct (beq_dec d0 d) as [->|Hn]; [congruence|].
    now rewrite beq_neq in Hs by exact Hn. }
  unfold fs_call in E. destruct (fs_up s); [|injection E as _ <-; now left].
  destruct (fs_exec c t s) as [r1 s1] eqn:Ex. injection E as -> <-.
  assert (get d (fs_dirs s1) <> None) as Hs1 by (destruct r; exact H). clear H.
  destruct c as [d0|d0|d0 f|d0 f|d0 f|d0 f|d0 f o b|d0 f a e|d0 f|d0 f n|d0 f b|d0 f o|]; cbn [fs_exec] in Ex;
    try (left; eapply Hon; eassumption).
  - destruct (get d0 (fs_dirs s)) eqn:G; [injection Ex as _ <-; now left|].
    destruct (beq_dec d0 d) as [->|Hn]; [now right|]. left.
    destruct t as [|[] t]; cbn [fs_js] in Ex; try (injection Ex as _ <-; exact Hs1).
    all: destruct (get d0 (fs_names s)); injection Ex as _ <-; cbn [fs_dirs] in Hs1; now rewrite get_set, beq_neq in Hs1 by exact Hn.
  - left. destruct t as [|[] t]; cbn [fs_js] in Ex; injection Ex as _ <-; exact Hs1.
  - left. destruct (get d0 (fs_dirs s)) as [[o files]|] eqn:G; [|injection Ex as _ <-; exact Hs1].
    destruct (get f files); [injection Ex as _ <-; exact Hs1|].
    destruct (fst _); injection Ex as _ <-; try exact Hs1.
    cbn [fs_dirs] in Hs1. rewrite get_set in Hs1. destruct (beq_dec d0 d) as [->|Hn]; [congruence|]. now rewrite beq_neq in Hs1 by exact Hn.
  - left. destruct (get d0 (fs_dirs s)) as [[o files]|] eqn:G; [|injection Ex as _ <-; exact Hs1].
    destruct (get f files); injection Ex as _ <-; exact Hs1.
  - left. destruct (get d0 (fs_dirs s)) as [[o files]|] eqn:G; [|injection Ex as _ <-; exact Hs1].
    destruct t as [|[] t]; cbn [fs_js] in Ex; injection Ex as _ <-; try exact Hs1.
    all: cbn [fs_dirs] in Hs1; rewrite get_set in Hs1; destruct (beq_dec d0 d) as [->|Hn]; [congruence|];
      now rewrite beq_neq in Hs1 by exact Hn.
  - left. injection Ex as _ <-. exact Hs1.
Qed.

Definition opened (a : list event) (d : bytes) : Prop :=
  exists a1 t a2, a = a1 ++ Call (KOpenDir d) t :: a2 /\ ~ In Restart a2.
Lemma opened_snoc a c t d : opened a d -> opened (a ++ [Call c t]) d.
Proof.
  intros (a1 & t1 & a2 & -> & H). exists a1, t1, (a2 ++ [Call c t]). split; [now rewrite <- app_assoc|].
  intros X. apply in_app_or in X as [X|[X|[]]]; [auto|discriminate].
Qed.

Lemma run_effects l : forall a s W rs s', Inv s W -> Forall event_ok l -> deletes_closed (a ++ l) ->
  (forall d, get d (fs_dirs s) <> None -> opened a d) ->
  fs_run l s = (rs, s') -> exists W', fs_effects l rs W W' /\ Inv s' W'.
Proof.
  induction l as [|e l IH]; intros a s W rs s' I Hok Hdc Hop E.
  { injection E as <- <-. exists W. split; [constructor|exact I]. }
  inversion Hok as [|? ? He Hl]; subst.
  assert (a ++ e :: l = (a ++ [e]) ++ l) as Ea by (now rewrite <- app_assoc).
  destruct e as [c t|]; cbn [fs_run] in E.
  - destruct (fs_call c t s) as [r s1] eqn:Ec. destruct (fs_run l s1) as [rs1 s2] eqn:Er. injection E as <- <-.
    assert (forall d, c = KDeleteDir d -> get d (fs_dirs s) = None) as Hdel.
    { intros d ->. destruct (get d (fs_dirs s)) as [v|] eqn:G; [|reflexivity]. exfalso.
      destruct (Hop d) as (a1 & t1 & a2 & Ha & Hn); [congruence|].
      apply Hn. exact (Hdc a l d t eq_refl a1 a2 t1 Ha). }
    destruct (call_effect s W c t r s1 I He Hdel Ec) as (W1 & HE & I1).
    rewrite Ea in Hdc. destruct (IH (a ++ [Call c t]) s1 W1 rs1 s2 I1 Hl Hdc) as (W2 & HE2 & I2); [|exact Er|].
    + intros d Hd. destruct (call_dirs _ _ _ _ _ _ Ec Hd) as [Hd0| ->]; [now apply opened_snoc, Hop|].
      exists a, t, []. split; [reflexivity|intros []].
    + exists W2. split; [econstructor; eassumption|exact I2].
  - destruct (fs_run l (fs_restart s)) as [rs1 s2] eqn:Er. injection E as <- <-.
    rewrite Ea in Hdc. destruct (IH (a ++ [Restart]) _ _ rs1 s2 (inv_restart _ _ I) Hl Hdc) as (W2 & HE2 & I2); [|exact Er|].
    + intros d Hd. cbn in Hd. congruence.
    + exists W2. split; [econstructor; [apply F_restart|exact HE2]|exact I2].
Qed.

Theorem fs_histories l rs s : Forall event_ok l -> deletes_closed l -> fs_run l new_fs = (rs, s) ->
  exists W, fs_effects l rs new_world W.
Proof.
  intros Hok Hdc E. destruct (run_effects l [] new_fs new_world rs s inv_new Hok Hdc) as (W & HE & _); [|exact E|now exists W].
  intros d H. now destruct H.
Qed.

(** ** What a write leaves for later reads *)
Lemma change_concerns c d f k w t : change c d f k w -> concerns d f (Call c t).
Proof. intros []; cbn; auto. Qed.
Lemma unconcerned e r W W' d f : fs_effect e r W W' -> ~ concerns d f e -> contents W' d f = contents W d f.
Proof.
  assert (forall W d', d' <> d -> upd1 (contents W) d' (fun _ => empty_file) d f = contents W d f) as U1
    by (intros W0 d' H; unfold upd1; now rewrite beq_neq).
  assert (forall W d' f' F, ~ (d' = d /\ f' = f) -> upd2 (contents W) d' f' F d f = contents W d f) as U2.
  { intros W0 d' f' F H. apply upd2_ne. destruct (beq_dec d d') as [->|]; [right|now left]. intros ->. now apply H. }
  intros [] Hn; cbn [concerns contents with_contents] in *; auto.
  apply U2. intros [-> ->]. apply Hn. exact (change_concerns _ _ _ _ _ [] H).
Qed.
Lemma unconcerned_all l rs W W' d f : fs_effects l rs W W' -> Forall (fun e => ~ concerns d f e) l ->
  contents W' d f = contents W d f.
Proof.
  induction 1 as [W|e l r rs W W1 W2 HE HR IH]; intros H; [reflexivity|]. inversion H; subst.
  rewrite IH by assumption. eapply unconcerned; eassumption.
Qed.
Lemma fs_effects_app l1 : forall l2 rs W W', fs_effects (l1 ++ l2) rs W W' ->
  exists rs1 rs2 W1, rs = rs1 ++ rs2 /\ length rs1 = length l1 /\ fs_effects l1 rs1 W W1 /\ fs_effects l2 rs2 W1 W'.
Proof.
  induction l1 as [|e l1 IH]; intros l2 rs W W' H.
  { exists [], rs, W. repeat split; [constructor|exact H]. }
  inversion H as [|? ? r rs' ? W1 ? HE HR]; subst. apply IH in HR as (rs1 & rs2 & W2 & -> & HL & H1 & H2).
  exists (r :: rs1), rs2, W2. repeat split; [cbn; now rewrite HL|econstructor; eassumption|exact H2].
Qed.
Theorem fs_read_your_writes a d f o b t mid t' z rs s :
  let l := a ++ Call (KWrite d f o b) t :: mid ++ Call (KRead d f o (o + N.of_nat (length b))) t' :: z in
  Forall event_ok l -> deletes_closed l -> Forall (fun e => ~ concerns d f e) mid ->
  fs_run l new_fs = (rs, s) -> nth (length a) rs Err = Ok RUnit ->
  let r := nth (length a + 1 + length mid) rs Err in r = Err \/ r = Ok (RBytes b).
Proof.
  intros l Hok Hdc Hmid E. cbv zeta. destruct (fs_histories l rs s Hok Hdc E) as (W & HE). unfold l in HE.
  apply fs_effects_app in HE as (rs1 & rs2 & W1 & -> & L1 & _ & HE).
  inversion HE as [|? ? r rs3 ? W2 ? HW HE2]; subst. apply fs_effects_app in HE2 as (rs4 & rs5 & W3 & -> & L4 & HM & HE2).
  inversion HE2 as [|? ? r' rs6 ? W4 ? HR HE3]; subst.
  rewrite app_nth2, L1, Nat.sub_diag by lia. cbn [nth]. intros ->.
  rewrite app_nth2 by lia. replace (length a + 1 + length mid - length rs1)%nat with (S (length mid)) by lia.
  cbn [nth]. rewrite app_nth2, L4, Nat.sub_diag by lia. cbn [nth].
  pose proof (unconcerned_all _ _ _ _ d f HM Hmid) as HC.
  assert (contents W2 d f = f_write (contents W1 d f) o b) as HC2.
  { inversion HW as [| | | | | | | | | | | | |? ? d0 f0 ? k w q F' Hch Hfo Hef Hq Hc Hr| | | | | | | | |]; subst.
    - inversion Hch; subst. cbn [with_contents contents]. rewrite upd2_eq.
      inversion Hef; subst; [reflexivity|discriminate|]. congruence. }
  rewrite HC2 in HC.
  inversion HR; subst; auto.
  - match goal with H : change (KRead _ _ _ _) _ _ _ _ |- _ => inversion H end.
  - right. rewrite HC. replace (o + N.of_nat (length b) - o) with (N.of_nat (length b)) by lia.
    rewrite Nnat.Nat2N.id, f_read_write_same. reflexivity.
  - match goal with H : change (KRead _ _ _ _) _ _ _ _ |- _ => inversion H end.
Qed.
