(** Proofs about histories of a paging file. *)
From Verif Require Import Base BaseLemmas Header Node Store StoreProofs U64 File FileProofs Chunk WebFile WebProofs
  Paging PagingSpec PagingProofs.
Local Open Scope N_scope.

Section Top.
Context (D : dev) (any ex : bool) (inv : dv D -> file -> Prop) (ps : N).
Context (HD : file_dev D any inv) (Hex : ex = true -> exact_length D inv) (Hmode : any = true \/ ex = true).
Context (Hps : page_size_ok ps).
Notation start := (start ps).
Notation pinv := (pinv ps any ex).

Definition idle (F : file) (l : ledger) : Prop :=
  (any = true \/ f_len F = start (f_len F)) /\
  (ex = true -> forall n d, In (n, d) (saved l) -> on_file F n d /\ in_page ps n d).
Definition state_inv (s : pfile D) (l : ledger) : Prop :=
  exists F, inv (fst s) F /\ match snd s with
                            | Some m => pinv F m l
                            | None => fresh l = [] /\ idle F l
                            end.

Lemma start_start n : start (start n) = start n.
Proof.
  unfold PagingProofs.start at 1. pose proof (ps_bounds ps Hps).
  rewrite (page_unique ps (n / ps)) by (unfold PagingProofs.start; lia). reflexivity.
Qed.
Lemma pinv_idle F m l : pinv F m l -> idle F l.
Proof.
  intros [H1 H2 H3 H4 H5 H6]. split.
  - destruct H3 as [->|E]; [now left|right]. now rewrite E, start_start.
  - intros He n d Hin. destruct (H6 He n d Hin) as [(_ & P & _) G]. auto.
Qed.
Lemma pinv_small F m l : pinv F m l -> f_len F < i64_lim -> p_len m + ps < lim + i32_lim /\ p_len m < lim.
Proof.
  intros [H1 H2 H3 H4 H5 H6] H. pose proof (ps_bounds ps Hps). pose proof (start_bounds ps Hps (p_len m)).
  unfold lim, i64_lim, i32_lim in *. lia.
Qed.

Lemma wp_intro {X A} (m : wm X A) (Q : A -> X -> Prop) (E : X -> Prop) s :
  (forall r s', m s = (r, s') -> (exists a, r = Ok a /\ Q a s') \/ r = Err /\ E s') -> wp m Q E s.
Proof.
  intros H. unfold wp. destruct (m s) as [r s'] eqn:Em. destruct (H r s' eq_refl) as [(a & -> & K)|[-> K]]; exact K.
Qed.
Lemma wp_elim {X A} (m : wm X A) (Q : A -> X -> Prop) (E : X -> Prop) s r s' :
  wp m Q E s -> m s = (r, s') -> (exists a, r = Ok a /\ Q a s') \/ r = Err /\ E s'.
Proof. unfold wp. intros H Em. rewrite Em in H. destruct r; try contradiction; eauto. Qed.
Lemma wp_dev {A} (m : wm (dv D) A) (Q : A -> pst D -> Prop) (E : pst D -> Prop) s :
  wp m (fun a d => Q a (d, snd s)) (fun d => E (d, snd s)) (fst s) -> wp (on_dev D m) Q E s.
Proof. unfold wp, on_dev. destruct (m (fst s)) as [[] d]; auto. Qed.

(** [new]. *)
Lemma new_spec F l s : inv s F -> idle F l ->
  wp (p_new D ps) (fun m s' => inv s' F /\ pinv F m (Ledger [] (saved l))) (fun s' => inv s' F) s.
Proof.
  intros HI [Hm Hs]. unfold p_new. apply wp_bind, wp_intro. intros r s1 E1.
  destruct (fd_length _ _ _ HD _ _ _ _ HI E1) as [HI1 [->|(n & -> & Hn)]]; [now right|].
  left. exists n. split; [reflexivity|].
  assert (ex = true -> n = f_len F) as Hxn by (intros He; exact (Hex He _ _ _ _ HI E1)).
  pose proof (fd_small _ _ _ HD _ _ HI) as Hsm. pose proof (ps_bounds ps Hps) as Hb.
  pose proof (start_bounds ps Hps n) as Bn.
  apply wp_bind. rewrite page_range_ok; [|exact Hps|unfold lim, i64_lim, i32_lim in *; lia]. apply wp_ret.
  cbn [fst snd]. apply wp_bind, wp_intro. intros r s2 E2.
  destruct (fd_read _ _ _ HD _ _ _ _ _ _ HI1 (proj1 Bn) E2) as [HI2 [->|[_ ->]]]; [now right|].
  left. eexists. split; [reflexivity|]. apply wp_ret. split; [exact HI2|].
  assert (start n <= f_len F) as Hsn by lia.
  constructor; cbn [p_last p_len p_full fresh saved].
  - rewrite app_length, f_read_length, repeat_length. lia.
  - exact Hsn.
  - destruct Hm as [->|E]; [now left|]. destruct Hmode as [->|He]; [now left|right]. now rewrite (Hxn He).
  - discriminate.
  - intros n' d [].
  - intros He n' d Hin. destruct (Hs He n' d Hin) as [O P]. split; [|exact O].
    specialize (Hxn He). destruct O as [O1 O2]. split; [cbn [p_len]; lia|]. split; [exact P|]. cbn [p_len p_last].
    split; [|now intros _]. intros E. assert (start n' = start n) as Es by (unfold PagingProofs.start; now rewrite E).
    pose proof (start_bounds ps Hps n') as Bn'. unfold frame.
    rewrite skipn_app, firstn_app. rewrite skipn_length, f_read_length.
    replace (4 + length d - _)%nat with 0%nat by lia. cbn [firstn]. rewrite app_nil_r.
    rewrite f_read_split by lia. rewrite <- O1. f_equal. lia.
Qed.

(** [close_page]. *)
Lemma close_spec F m l s : inv s F -> pinv F m l ->
  wp (p_close D ps) (fun _ s' => exists F', inv (fst s') F' /\ pinv F' (snd s') l /\ snd s' = closed ps m)
     (fun s' => exists F', inv (fst s') F' /\ pinv F' (snd s') l) (s, m).
Proof.
  intros HI HP. pose proof (fd_small _ _ _ HD _ _ HI) as Hsm. destruct (pinv_small _ _ _ HP Hsm) as [B1 B2].
  pose proof (ps_bounds ps Hps) as Hb. pose proof (start_bounds ps Hps (p_len m)) as Bm.
  unfold p_close. cbn [snd].
  assert (forall (m' : wm (pst D) unit) Q E x, wp m' Q E x -> wp (fun s => m' s) Q E x) as Eta by auto. clear Eta.
  change (wp (p0 <~ wret (page_num ps (p_len m));; r <~ wret (page_range ps (p_len m));;
     _ <~ on_dev D (dv_write D (fst r) (p_last m));; p1 <~ wret (page_num ps (snd r));;
     (fun s' => (if p0 + 1 =? p1 then Ok tt else Panic,
        (fst s', PMem ((p0, p_last m) :: p_full m) (repeat x00 (length (p_last m))) (snd r)))))
     (fun _ s' => exists F', inv (fst s') F' /\ pinv F' (snd s') l /\ snd s' = closed ps m)
     (fun s' => exists F', inv (fst s') F' /\ pinv F' (snd s') l) (s, m)).
  rewrite (page_num_ok ps Hps). apply wp_bind, wp_ret. rewrite (page_range_ok ps Hps) by exact B2. apply wp_bind, wp_ret.
  cbn [fst snd]. apply wp_bind, wp_dev. cbn [fst snd]. apply wp_intro. intros r s1 E1.
  assert (any = true \/ start (p_len m) = f_len F) as Hmay.
  { destruct (pi_mode _ _ _ _ _ _ HP) as [H|H]; [now left|right; now symmetry]. }
  destruct (fd_write _ _ _ HD _ _ _ _ _ _ HI Hmay E1) as (F' & HI' & [[-> ->]|[-> H]]).
  - left. exists tt. split; [reflexivity|]. rewrite (page_num_ok ps Hps). apply wp_bind, wp_ret. unfold wp. cbn [fst snd].
    rewrite (closed_page ps Hps). rewrite N.eqb_refl. exists (f_write F (start (p_len m)) (p_last m)).
    split; [exact HI'|]. split; [|reflexivity]. cbn [snd]. now apply (pinv_close ps Hps).
  - right. split; [reflexivity|]. exists F'. cbn [fst snd]. split; [exact HI'|].
    destruct H as [->|[Ha ->]]; [exact HP|].
    pose proof (pi_last _ _ _ _ _ _ HP) as Hl. rewrite <- (firstn_all (p_last m)) at 1. rewrite Hl.
    apply (pinv_write ps Hps); [exact HP|exact Ha|lia].
Qed.

(** [sync]. *)
Lemma sync_pre F m l s (Q : unit -> pst D -> Prop) (E : pst D -> Prop) : inv s F -> pinv F m l ->
  wp (on_dev D (dv_write D (start (p_len m)) (firstn (N.to_nat (p_len m - start (p_len m))) (p_last m)))) Q E (s, m) ->
  wp (p_sync D ps) Q E (s, m).
Proof.
  intros HI HP H. pose proof (fd_small _ _ _ HD _ _ HI) as Hsm. destruct (pinv_small _ _ _ HP Hsm) as [B1 B2].
  pose proof (ps_bounds ps Hps) as Hb. pose proof (start_bounds ps Hps (p_len m)) as Bm.
  unfold p_sync. cbn [snd].
  change (wp (r <~ wret (page_range ps (p_len m)) ;; o <~ wret (offset_within_page ps (p_len m)) ;;
    d <~ wret (slice_to (N.to_nat o) (p_last m)) ;; on_dev D (dv_write D (fst r) d)) Q E (s, m)).
  rewrite (page_range_ok ps Hps), (offset_ok ps Hps) by exact B2. apply wp_bind, wp_ret, wp_bind, wp_ret.
  pose proof (pi_last _ _ _ _ _ _ HP) as Hl. rewrite slice_to_ok by lia. apply wp_bind, wp_ret. exact H.
Qed.
Lemma sync_spec F m l s : inv s F -> pinv F m l -> any = true ->
  wp (p_sync D ps) (fun _ s' => exists F', inv (fst s') F' /\ pinv F' (snd s') (Ledger (fresh l) (fresh l ++ saved l)))
     (fun s' => exists F', inv (fst s') F' /\ pinv F' (snd s') l) (s, m).
Proof.
  intros HI HP Ha. apply (sync_pre F m l); [exact HI|exact HP|].
  apply wp_dev. cbn [fst snd]. apply wp_intro. intros r s1 E1.
  destruct (fd_write _ _ _ HD _ _ _ _ _ _ HI (or_introl Ha) E1) as (F' & HI' & [[-> ->]|[-> H]]).
  - left. exists tt. split; [reflexivity|]. eexists. split; [exact HI'|]. apply (pinv_sync ps Hps); [exact HP|exact Ha|lia].
  - right. split; [reflexivity|]. exists F'. split; [exact HI'|]. destruct H as [->|[_ ->]]; [exact HP|].
    apply (pinv_write ps Hps); [exact HP|exact Ha|lia].
Qed.

(** [append]. *)
Definition pad (n : N) : N := if is_aligned (n + 4) then n else align_end (n + 4) - 4.
Lemma pad_bounds n : n <= pad n <= n + 7.
Proof.
  unfold pad, align_end, is_aligned. destruct (N.eqb_spec ((n + 4) mod 8) 0) as [E|E]; [lia|].
  pose proof (N.div_mod (n + 4) 8). pose proof (N.mod_lt (n + 4) 8). rewrite (N.mul_comm 8) in *.
  generalize dependent ((n + 4) mod 8). generalize ((n + 4) / 8 * 8). intros; lia.
Qed.
Lemma pad_page q : ps mod 8 = 0 -> pad (q * ps) = q * ps + 4.
Proof.
  intros H. unfold pad, align_end, is_aligned.
  assert ((q * ps) mod 8 = 0) as Hq. { rewrite N.mul_mod, H, N.mul_0_r by discriminate. reflexivity. }
  assert (exists k, q * ps = k * 8) as (k & ->).
  { exists (q * ps / 8). rewrite (N.mul_comm _ 8). apply N.div_exact; [discriminate|exact Hq]. }
  assert ((k * 8 + 4) mod 8 = 4) as ->. { rewrite N.add_comm, N.mod_add by discriminate. reflexivity. }
  assert ((k * 8 + 4) / 8 = k) as ->. { rewrite N.add_comm, N.div_add by discriminate. reflexivity. }
  cbn [N.eqb]. change (4 =? 0) with false. cbn [negb]. lia.
Qed.

Lemma put_spec F m l s d : inv s F -> pinv F m l ->
  pad (p_len m) + 4 + N.of_nat (length d) < start (p_len m) + ps ->
  wp (p_put D ps (to_be 4 (N.of_nat (length d)) ++ d))
    (fun n s' => fst s' = s /\ pinv F (snd s') (Ledger ((n, d) :: fresh l) (saved l)))
    (fun _ => False) (s, m).
Proof.
  intros HI HP Hr. pose proof (fd_small _ _ _ HD _ _ HI) as Hsm. destruct (pinv_small _ _ _ HP Hsm) as [B1 B2].
  pose proof (ps_bounds ps Hps) as Hb. pose proof (start_bounds ps Hps (p_len m)) as Bm.
  pose proof (pad_bounds (p_len m)) as Hp. pose proof (pi_last _ _ _ _ _ _ HP) as Hl.
  set (x := to_be 4 (N.of_nat (length d)) ++ d).
  assert (length x = 4 + length d)%nat as Lx by (unfold x; rewrite app_length, to_be_length; reflexivity).
  unfold p_put. cbn [snd].
  change (wp (_ <~ wret (sum_ok (p_len m) 12) ;;
    o <~ wret (offset_within_page ps (pad (p_len m))) ;;
    l0 <~ wret (copy_to x (p_last m) (o, o + N.of_nat (length x))) ;;
    _ <~ wret (sum_ok (pad (p_len m)) (N.of_nat (length x))) ;;
    fun s' => (Ok (pad (p_len m)), (fst s', PMem (p_full m) l0 (pad (p_len m) + N.of_nat (length x)))))
    (fun n s' => fst s' = s /\ pinv F (snd s') (Ledger ((n, d) :: fresh l) (saved l)))
    (fun _ => False) (s, m)).
  set (n := pad (p_len m)) in *. pose proof (pi_start _ _ _ _ _ _ HP) as Hst.
  assert (start n = start (p_len m)) as Es.
  { unfold PagingProofs.start. f_equal. apply page_unique. fold (PagingProofs.start ps (p_len m)). lia. }
  unfold lim, i64_lim, i32_lim in *.
  rewrite sum_ok_ok by (unfold u64_max; lia). apply wp_bind, wp_ret.
  rewrite (offset_ok ps Hps) by (unfold lim, i64_lim, i32_lim; lia). apply wp_bind, wp_ret. rewrite Es.
  assert (copy_to x (p_last m) (n - start (p_len m), n - start (p_len m) + N.of_nat (length x)) =
    Ok (firstn (N.to_nat (n - start (p_len m))) (p_last m) ++ x ++ skipn (N.to_nat (n - start (p_len m)) + length x) (p_last m))) as ->.
  { unfold copy_to. cbn [fst snd].
    destruct (N.leb_spec (n - start (p_len m)) (n - start (p_len m) + N.of_nat (length x))); [|lia].
    destruct (N.leb_spec (n - start (p_len m) + N.of_nat (length x)) (N.of_nat (length (p_last m)))); [|lia].
    destruct (N.eqb_spec (N.of_nat (length x)) (n - start (p_len m) + N.of_nat (length x) - (n - start (p_len m)))); [|lia].
    cbn [andb]. do 3 f_equal. f_equal. lia. }
  apply wp_bind, wp_ret. rewrite sum_ok_ok by (unfold u64_max; lia). apply wp_bind, wp_ret.
  unfold wp. cbn [fst snd]. split; [reflexivity|]. eapply (pinv_put ps Hps); [exact HP|reflexivity|lia| |reflexivity].
  fold x. lia.
Qed.

Lemma append_spec F m l s d : inv s F -> pinv F m l -> size_ok ps (PAppend d) ->
  wp (p_append_lp D ps d)
    (fun n s' => exists F', inv (fst s') F' /\ pinv F' (snd s') (Ledger ((n, d) :: fresh l) (saved l)))
    (fun s' => exists F', inv (fst s') F' /\ pinv F' (snd s') l) (s, m).
Proof.
  intros HI HP [Hu Hd]. pose proof (fd_small _ _ _ HD _ _ HI) as Hsm. destruct (pinv_small _ _ _ HP Hsm) as [B1 B2].
  pose proof (ps_bounds ps Hps) as Hb. pose proof (start_bounds ps Hps (p_len m)) as Bm.
  pose proof (pad_bounds (p_len m)) as Hp.
  unfold p_append_lp. apply N.ltb_lt in Hu. rewrite Hu. unfold p_append.
  set (x := to_be 4 (N.of_nat (length d)) ++ d).
  assert (length x = 4 + length d)%nat as Lx by (unfold x; rewrite app_length, to_be_length; reflexivity).
  set (Q := fun (n : N) (s' : pst D) => exists F', inv (fst s') F' /\ pinv F' (snd s') (Ledger ((n, d) :: fresh l) (saved l))).
  set (E := fun s' : pst D => exists F', inv (fst s') F' /\ pinv F' (snd s') l).
  change (wp (_ <~ wret (if N.of_nat (length x) <=? ps then Ok tt else Err) ;;
    rem <~ wret (p_remaining ps m) ;;
    _ <~ (if rem <? N.of_nat (length x) + 8 then p_close D ps else wret (Ok tt)) ;;
    p_put D ps x) Q E (s, m)).
  destruct (N.leb_spec (N.of_nat (length x)) ps) as [Hx|Hx]; [|apply wp_bind, wp_err; now exists F].
  apply wp_bind, wp_ret. unfold p_remaining. rewrite (page_range_ok ps Hps) by exact B2. cbn [bind snd].
  apply wp_bind, wp_ret. apply wp_bind.
  destruct (N.ltb_spec (start (p_len m) + ps - p_len m) (N.of_nat (length x) + 8)) as [Hc|Hc].
  - eapply wp_mono; [apply (close_spec F m l); [exact HI|exact HP]| |auto].
    intros _ [s1 m1] (F1 & HI1 & HP1 & Hm1). cbn [fst snd] in *. subst m1.
    eapply wp_mono; [apply (put_spec F1 (closed ps m) l); [exact HI1|exact HP1|]| |].
    + rewrite (closed_start ps Hps). cbn [closed p_len].
      destruct Hd as [Hd|[[H8 Hd]|Hd]]; [| |lia].
      * pose proof (pad_bounds (start (p_len m) + ps)). lia.
      * assert (start (p_len m) + ps = (p_len m / ps + 1) * ps) as -> by (unfold PagingProofs.start; lia).
        rewrite (pad_page _ H8). lia.
    + intros n [s2 m2] [Hs2 HP2]. cbn [fst snd] in *. subst s2. exists F1. auto.
    + contradiction.
  - apply wp_ret. eapply wp_mono; [apply (put_spec F m l); [exact HI|exact HP|lia]| |contradiction].
    intros n [s2 m2] [Hs2 HP2]. cbn [fst snd] in *. subst s2. exists F. auto.
Qed.

(** [load_length_prefixed]. *)
Lemma offset_cases n : offset_within_page ps n = Panic \/
  offset_within_page ps n = Ok (n - start n) /\ page_range ps n = Ok (start n, start n + ps).
Proof.
  unfold offset_within_page, page_range. rewrite (page_num_ok ps Hps). cbn [bind]. fold (PagingProofs.start ps n).
  unfold sum_ok. destruct (_ <? u64_max); cbn [bind fst]; [|now left]. destruct (_ <? usize_lim); auto.
Qed.
Lemma load_spec F m l s n r s' : inv s F -> pinv F m l -> p_load D ps n (s, m) = (r, s') ->
  inv (fst s') F /\ pinv F (snd s') l /\
  forall d, (In (n, d) (fresh l) -> r = Ok d) /\
    (ex = true -> In (n, d) (saved l) -> r = Ok d \/ r = Err) /\
    (In (n, d) (fresh l) \/ ex = true /\ In (n, d) (saved l) ->
     (forall a b, a <= b -> b <= f_len F -> exists s1 x, dv_read D a b s = (Ok x, s1)) -> r = Ok d).
Proof.
  intros HI HP. pose proof (fd_small _ _ _ HD _ _ HI) as Hsm. destruct (pinv_small _ _ _ HP Hsm) as [B1 B2].
  pose proof (ps_bounds ps Hps) as Hb. pose proof (start_bounds ps Hps (p_len m)) as Bm.
  pose proof (start_bounds ps Hps n) as Bn. pose proof (pi_last _ _ _ _ _ _ HP) as Hl.
  assert (forall x : res bytes, x = x) as _ by auto.
  (* which ids the theorem is about *)
  assert (forall d, In (n, d) (fresh l) \/ ex = true /\ In (n, d) (saved l) -> placed ps F m n d /\ n < lim) as Hpl.
  { intros d H. assert (placed ps F m n d) as P.
    { destruct H as [H|[He H]]; [now apply (pi_fresh _ _ _ _ _ _ HP)|now apply (pi_saved _ _ _ _ _ _ HP)]. }
    split; [exact P|]. destruct P as (P1 & _). lia. }
  unfold p_load. cbn [snd]. rewrite !(page_num_ok ps Hps). unfold wret at 1 2, wbind at 1 2.
  destruct (offset_cases n) as [Eo|[Eo Er]].
  { rewrite Eo. unfold wbind, wret. intros E. injection E as <- <-. cbn [fst snd]. split; [exact HI|]. split; [exact HP|].
    intros d. assert (In (n, d) (fresh l) \/ ex = true /\ In (n, d) (saved l) -> False) as K.
    { intros H. destruct (Hpl d H) as [_ L]. rewrite (offset_ok ps Hps) in Eo by exact L. discriminate. }
    split; [intros H; exfalso; auto|]. split; [intros H1 H2; exfalso; auto|intros H; exfalso; auto]. }
  rewrite Eo. unfold wret at 1, wbind at 1.
  destruct (N.eqb_spec (n / ps) (p_len m / ps)) as [Ep|Ep].
  - rewrite (offset_ok ps Hps) by exact B2. unfold wbind, wret. rewrite slice_to_ok by lia.
    intros E. injection E as <- <-. cbn [fst snd]. split; [exact HI|]. split; [exact HP|].
    assert (forall d, In (n, d) (fresh l) \/ ex = true /\ In (n, d) (saved l) ->
      p_frame (firstn (N.to_nat (p_len m - start (p_len m))) (p_last m)) (n - start n) = Ok d) as K.
    { intros d H. destruct (Hpl d H) as [(P1 & P2 & P3 & P4) _].
      assert (start n = start (p_len m)) as Es by (unfold PagingProofs.start; now rewrite Ep).
      apply p_frame_ok.
      - apply frame_prefix; [now apply P3|]. lia.
      - rewrite firstn_length. unfold usize_lim. lia. }
    intros d. split; [auto|]. split; auto.
  - destruct (full_get (n / ps) (p_full m)) as [pg|] eqn:Eg.
    + unfold wbind, wret. intros E. injection E as <- <-. cbn [fst snd]. split; [exact HI|]. split; [exact HP|].
      destruct (pi_full _ _ _ _ _ _ HP _ _ Eg) as [L ->].
      assert (forall d, In (n, d) (fresh l) \/ ex = true /\ In (n, d) (saved l) ->
        p_frame (f_read F (n / ps * ps) (N.to_nat ps)) (n - start n) = Ok d) as K.
      { intros d H. destruct (Hpl d H) as [(P1 & P2 & P3 & P4) _]. apply p_frame_ok.
        - apply (file_frame ps Hps); auto.
        - rewrite f_read_length. unfold usize_lim. lia. }
      intros d. split; [auto|]. split; auto.
    + assert (forall d, ~ In (n, d) (fresh l)) as Nf.
      { intros d H. destruct (pi_fresh _ _ _ _ _ _ HP _ _ H) as [P G]. apply G in Eg; [exact Eg|].
        destruct P as (P1 & _). assert (n / ps <= p_len m / ps) by (apply (page_mono ps Hps); lia). lia. }
      destruct (N.ltb_spec (n / ps) (p_len m / ps)) as [L|L].
      2: { unfold wbind, wret. intros E. injection E as <- <-. cbn [fst snd]. split; [exact HI|]. split; [exact HP|].
           intros d. split; [intros H; now apply Nf in H|]. split; [auto|].
           intros H _. exfalso. destruct (Hpl d H) as [(P1 & _) _].
           assert (n / ps <= p_len m / ps) by (apply (page_mono ps Hps); lia). lia. }
      rewrite Er. unfold wbind at 1. unfold wret at 1. unfold wbind at 1. unfold wret at 1. unfold wbind at 1.
      cbn [fst snd]. unfold wbind at 1. unfold on_dev at 1. cbn [fst snd].
      destruct (dv_read D (start n) (start n + ps) s) as [q s1] eqn:Erd.
      destruct (fd_read _ _ _ HD _ _ (start n) (start n + ps) _ _ HI ltac:(lia) Erd) as [HI1 [->|[Hle ->]]].
      * unfold wbind, wret. intros E. injection E as <- <-. cbn [fst snd]. split; [exact HI1|]. split; [exact HP|].
        intros d. split; [intros H; now apply Nf in H|]. split; [auto|].
        intros H Hr. exfalso. pose proof (pi_start _ _ _ _ _ _ HP) as Hst. apply (page_lt ps) in L.
        destruct (Hr (start n) (start n + ps)) as (s2 & x & Ex).
        { lia. } { fold (PagingProofs.start ps n) (PagingProofs.start ps (p_len m)) in L. lia. }
        rewrite Erd in Ex. discriminate.
      * replace (start n + ps - start n) with ps by lia. unfold wbind, wret. intros E. injection E as <- <-. cbn [fst snd].
        split; [exact HI1|]. split.
        { destruct HP as [H1 H2 H3 H4 H5 H6]. constructor; cbn [p_last p_len p_full full_get]; auto.
          - intros p d0. destruct (N.eqb_spec p (n / ps)) as [->|]; [|auto].
            intros H. assert (d0 = f_read F (start n) (N.to_nat ps)) as -> by congruence. split; [exact L|reflexivity].
          - intros n0 d0 H0. destruct (H5 n0 d0 H0) as [P G]. split; [exact P|]. intros L0.
            destruct (n0 / ps =? n / ps); [discriminate|auto]. }
        assert (forall d, In (n, d) (fresh l) \/ ex = true /\ In (n, d) (saved l) ->
          p_frame (f_read F (start n) (N.to_nat ps)) (n - start n) = Ok d) as K.
        { intros d H. destruct (Hpl d H) as [(P1 & P2 & P3 & P4) _]. apply p_frame_ok.
          - apply (file_frame ps Hps); auto.
          - rewrite f_read_length. unfold usize_lim. lia. }
        intros d. split; [auto|]. split; auto.
Qed.
End Top.
