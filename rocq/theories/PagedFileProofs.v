(** Invariants of the paged file store. *)
From Verif Require Import Base BaseLemmas Header Node Store U64 File FileProofs PagedFile.
Local Open Scope N_scope.

Notation len d := (N.of_nat (length d)).

(** The size field in the header of the file. *)
Definition hdr (f : file) : N := of_be (f_read f 16 8).
(** Everything that was in [f] is still in [g]. *)
Definition app_only (f g : file) : Prop :=
  f_len f <= f_len g /\ forall i, i < f_len f -> f_at g i = f_at f i.
(** ... except possibly the header. *)
Definition ext (f g : file) : Prop :=
  f_len f <= f_len g /\ forall i, HEADER <= i < f_len f -> f_at g i = f_at f i.
Definition set_hdr (f : file) (n : N) : file := f_write f 16 (to_be 8 n).
(** The blob [d] ends at offset [id]. *)
Definition blob_at (f : file) (id : N) (d : bytes) : Prop :=
  4 + len d <= id /\ id + HEADER <= f_len f /\ len d < 4294967296 /\
  f_read f (id + HEADER - 4 - len d) (length d) = d /\
  f_read f (id + HEADER - 4) 4 = to_be 4 (len d).

Lemma app_ext f g : app_only f g -> ext f g.
Proof. intros [A B]. split; [exact A|]. intros i Hi. apply B. lia. Qed.
Lemma app_refl f : app_only f f.
Proof. split; [lia|reflexivity]. Qed.
Lemma app_trans f g h : app_only f g -> app_only g h -> app_only f h.
Proof. intros [A B] [C D]. split; [lia|]. intros i Hi. rewrite D by lia. apply B. lia. Qed.
Lemma ext_refl f : ext f f.
Proof. split; [lia|reflexivity]. Qed.
Lemma ext_trans f g h : ext f g -> ext g h -> ext f h.
Proof. intros [A B] [C D]. split; [lia|]. intros i Hi. rewrite D by lia. apply B. lia. Qed.
Lemma app_hdr f g : HEADER <= f_len f -> app_only f g -> hdr g = hdr f.
Proof.
  unfold HEADER. intros L [A B]. unfold hdr. f_equal. apply f_read_ext. intros i Hi. apply B. lia.
Qed.
Lemma app_write f d : app_only f (f_write f (f_len f) d).
Proof. split; [cbn [f_len f_write]; lia|]. intros i Hi. apply f_write_at; lia. Qed.
Lemma len_write f d : f_len (f_write f (f_len f) d) = f_len f + len d.
Proof. cbn [f_len f_write]. lia. Qed.
Lemma len_set_hdr f n : HEADER <= f_len f -> f_len (set_hdr f n) = f_len f.
Proof. unfold HEADER. intros L. unfold set_hdr. cbn [f_len f_write]. rewrite to_be_length. lia. Qed.
Lemma hdr_set_hdr f n : n < u64_max -> hdr (set_hdr f n) = n.
Proof.
  intros L. unfold hdr, set_hdr.
  pose proof (f_read_write_same f 16 (to_be 8 n)) as E. rewrite to_be_length in E. rewrite E.
  apply of_to_be. rewrite u64_pow. exact L.
Qed.
Lemma ext_set_hdr f n : HEADER <= f_len f -> ext f (set_hdr f n).
Proof.
  intros L. split; [rewrite len_set_hdr by exact L; lia|]. intros i Hi. apply f_write_at; [lia|].
  right. rewrite to_be_length. unfold HEADER in *. lia.
Qed.

Lemma blob_ext f g id d : ext f g -> blob_at f id d -> blob_at g id d.
Proof.
  unfold HEADER. intros [A B] (C & D & L & R & S). unfold blob_at, HEADER in *.
  repeat split; try lia.
  - etransitivity; [|exact R]. apply f_read_ext. intros i Hi. apply B. lia.
  - etransitivity; [|exact S]. apply f_read_ext. intros i Hi. apply B. lia.
Qed.
Lemma blob_size f id d : blob_at f id d -> of_be (f_read f (id + HEADER - 4) 4) = len d.
Proof. intros (C & D & L & R & S). rewrite S. apply of_to_be. exact L. Qed.
Lemma blob_unique f id d d' : blob_at f id d -> blob_at f id d' -> d = d'.
Proof.
  intros H H'. pose proof (blob_size _ _ _ H) as E. rewrite (blob_size _ _ _ H') in E.
  assert (length d' = length d) as E' by lia.
  destruct H as (_ & _ & _ & R & _). destruct H' as (_ & _ & _ & R' & _). rewrite <- R, <- R', E'. reflexivity.
Qed.

Lemma read4_bound f p : of_be (f_read f p 4) < 4294967296.
Proof. pose proof (of_be_bound (f_read f p 4)) as H. rewrite f_read_length in H. exact H. Qed.
Lemma read4_be f p : f_read f p 4 = to_be 4 (of_be (f_read f p 4)).
Proof. pose proof (to_of_be (f_read f p 4)) as H. rewrite f_read_length in H. now symmetry. Qed.

Lemma wp_lift {A} (m : wm fh A) (Q : A -> inner -> Prop) (E : inner -> Prop) s :
  wp m (fun a h => Q a (Inner h (i_pages s) (i_recent s) (i_last s)))
       (fun h => E (Inner h (i_pages s) (i_recent s) (i_last s))) (i_fh s) -> wp (lift m) Q E s.
Proof. unfold wp, lift. destruct (m (i_fh s)) as [[a| | |] h]; auto. Qed.

Section Proofs.
Context (dbg : bool) (ps : N) (Hps : 8 <= ps) (Hps32 : ps <= 4294967296) (nf : bool).
(** The blobs that are ever passed to a write ([Some]); [K None] if nothing is to be
    said about what the size field of the file refers to. *)
Context (K : option bytes -> Prop).
Notation fok := (fok nf).
Notation fl s := (h_file (i_fh s)).

Definition vblob (f : file) (id : N) (d : bytes) : Prop := blob_at f id d /\ 4 + len d <= id mod ps.
(** A page boundary or the id of a blob. *)
Definition hok (f : file) (x : N) : Prop := x mod ps = 0 \/ K None \/ exists d, K (Some d) /\ vblob f x d.
Lemma vblob_ext f g id d : ext f g -> vblob f id d -> vblob g id d.
Proof. intros E [A B]. split; [now apply (blob_ext f)|exact B]. Qed.
Lemma hok_ext f g x : ext f g -> hok f x -> hok g x.
Proof. intros E [A|[A|(d & Hk & A)]]; [now left|right; now left|right; right; exists d; split; [exact Hk|now apply (vblob_ext f)]]. Qed.

Definition same (s s' : inner) : Prop :=
  i_pages s' = i_pages s /\ i_recent s' = i_recent s /\ i_last s' = i_last s.

Lemma write_size_spec n h :
  fok h ->
  wp (write_size n)
     (fun _ h' => fok h' /\ h_file h' = set_hdr (h_file h) n /\ h_pos h' = f_len (h_file h'))
     (fun h' => nf = false /\ (h_file h' = h_file h \/ h_file h' = set_hdr (h_file h) n)) h.
Proof.
  intros F. apply wp_bind, (wp_seek nf); [exact F|reflexivity| |auto]. intros h1 F1 E1 P1.
  apply wp_bind, (wp_write_atomic nf); [exact F1| | |].
  - intros h2 F2 E2. apply wp_bind, (wp_seek_end nf); [exact F2| |].
    + intros h3 F3 E3 P3. apply wp_ret. rewrite E3, E2, E1, P1 in *. auto.
    + intros Hn. split; [exact Hn|right]. rewrite E2, E1, P1. reflexivity.
  - intros Hn. split; [exact Hn|]. rewrite E1. auto.
  - intros Hn. split; [exact Hn|right]. unfold put. cbn [h_file]. rewrite E1, P1. reflexivity.
Qed.

Lemma commit_spec s :
  fok (i_fh s) -> HEADER <= f_len (fl s) ->
  wp (commit dbg)
     (fun id s' => fok (i_fh s') /\ same s s' /\ id = f_len (fl s) - HEADER /\ fl s' = set_hdr (fl s) id /\
                   h_pos (i_fh s') = f_len (fl s'))
     (fun s' => nf = false /\ same s s' /\
                (fl s' = fl s \/ fl s' = set_hdr (fl s) (f_len (fl s) - HEADER))) s.
Proof.
  intros F L. apply wp_bind, wp_lift, (wp_seek_end nf); [exact F| |now unfold same; auto].
  intros h1 F1 E1 P1. unfold pure. rewrite u_sub_ok by exact L.
  apply wp_bind, wp_ret. apply wp_bind, wp_lift. cbn [i_fh].
  eapply wp_mono; [apply write_size_spec; exact F1| |].
  - intros _ h2 (F2 & E2 & P2). apply wp_bind, wp_lift, (wp_nop nf); [exact F2| |].
    + cbn [i_fh i_pages i_recent i_last]. intros h3 F3 E3 P3. apply wp_ret. cbn [i_fh i_pages i_recent i_last].
      rewrite E3, P3, P2, E2, E1. unfold same. auto.
    + intros Hn. cbn [i_fh i_pages i_recent i_last]. rewrite E2, E1. unfold same. auto.
  - intros h2 [Hn E2]. cbn [i_fh i_pages i_recent i_last]. rewrite E1 in E2. unfold same. auto.
Qed.

Lemma pad_loop_spec target fuel : forall s,
  fok (i_fh s) -> h_pos (i_fh s) = f_len (fl s) -> f_len (fl s) < max_file -> (N.to_nat (target - f_len (fl s)) < fuel)%nat ->
  wp (pad_loop fuel target)
     (fun _ s' => fok (i_fh s') /\ same s s' /\ app_only (fl s) (fl s') /\
                  f_len (fl s') = N.max target (f_len (fl s)) /\ f_len (fl s') < max_file /\ h_pos (i_fh s') = f_len (fl s'))
     (fun s' => (nf = false \/ max_file <= target) /\ same s s' /\ app_only (fl s) (fl s') /\
                f_len (fl s') <= N.max target (f_len (fl s)) /\ f_len (fl s') < max_file) s.
Proof.
  induction fuel as [|fuel IH]; intros s F P Lm L; [lia|]. cbn [pad_loop].
  apply wp_bind, wp_lift, (wp_position nf); [exact F| |].
  2:{ intros Hn. cbn [i_fh i_pages i_recent i_last]. repeat split; try assumption; try lia; try reflexivity. now left. }
  intros h1 F1 E1 P1. rewrite P. destruct (N.ltb_spec (f_len (fl s)) target) as [H|H].
  - apply wp_bind, wp_lift, (wp_write nf); cbn [i_fh]; [exact F1|rewrite P1, P; exact Lm| |]; cbn [i_fh i_pages i_recent i_last].
    + intros h2 F2 E2 P2 M2. rewrite E1, P1, P in E2.
      assert (f_len (h_file h2) = f_len (fl s) + N.min (target - f_len (fl s)) 1024) as L2.
      { rewrite E2, len_write, repeat_length. lia. }
      eapply wp_mono; [apply IH; cbn [i_fh]; [exact F2| | |]| |].
      * rewrite P2, P1, P, L2, repeat_length. lia.
      * rewrite L2. rewrite P2, P1, P, repeat_length in M2. lia.
      * rewrite L2. lia.
      * intros _ s' (F3 & S3 & A3 & L3 & M3 & P3). cbn [i_fh] in *.
        split; [exact F3|]. split; [exact S3|]. split; [|split; [lia|split; [exact M3|exact P3]]].
        eapply app_trans; [|exact A3]. rewrite E2. apply app_write.
      * intros s' (Hn & S3 & A3 & L3 & M3). cbn [i_fh] in *. split; [exact Hn|]. split; [exact S3|]. split; [|split; [lia|exact M3]].
        eapply app_trans; [|exact A3]. rewrite E2. apply app_write.
    + intros h2 k Hn E2 M2. rewrite E1, P1, P in *. rewrite repeat_length in Hn. rewrite E2.
      split; [destruct Hn; [now left|right; lia]|]. split; [now unfold same|]. split; [apply app_write|].
      rewrite len_write. split; [rewrite firstn_length, repeat_length; lia|exact M2].
  - apply wp_ret. cbn [i_fh i_pages i_recent i_last]. rewrite E1, P1, P.
    repeat split; try lia; auto.
Qed.

Lemma pad_to_spec target s :
  fok (i_fh s) -> h_pos (i_fh s) = f_len (fl s) -> f_len (fl s) < max_file ->
  wp (pad_to target)
     (fun _ s' => fok (i_fh s') /\ same s s' /\ app_only (fl s) (fl s') /\
                  f_len (fl s') = N.max target (f_len (fl s)) /\ f_len (fl s') < max_file /\ h_pos (i_fh s') = f_len (fl s'))
     (fun s' => (nf = false \/ max_file <= target) /\ same s s' /\ app_only (fl s) (fl s') /\
                f_len (fl s') <= N.max target (f_len (fl s)) /\ f_len (fl s') < max_file) s.
Proof. intros F P M. unfold pad_to, wp. apply pad_loop_spec; auto. rewrite P. lia. Qed.

Lemma load_page_spec p s :
  fok (i_fh s) -> p * ps + HEADER < u64_max ->
  wp (load_page dbg ps p)
     (fun _ s' => fok (i_fh s') /\ fl s' = fl s /\ h_pos (i_fh s') = h_pos (i_fh s) /\
                  i_recent s' = i_recent s /\ i_last s' = i_last s)
     (fun s' => nf = false /\ fl s' = fl s /\ i_recent s' = i_recent s /\ i_last s' = i_last s) s.
Proof.
  intros F L. unfold load_page, pure, offset_of_page. unfold HEADER in L.
  rewrite u_mul_ok by lia. cbn [bind]. rewrite u_add_ok by (unfold HEADER; lia).
  apply wp_bind, wp_ret. apply wp_bind, wp_lift, (wp_nop nf); [exact F| |]; cbn [i_fh i_pages i_recent i_last]; auto.
  intros h1 F1 E1 P1. unfold wp. cbn [i_fh i_recent i_last]. rewrite E1, P1. auto.
Qed.

Lemma close_page_spec cur s :
  fok (i_fh s) -> HEADER <= f_len (fl s) -> h_pos (i_fh s) = f_len (fl s) ->
  f_len (fl s) <= (cur + 1) * ps + HEADER -> (cur + 1) * ps + HEADER < u64_max -> f_len (fl s) < max_file ->
  wp (close_page dbg ps cur)
     (fun _ s' => fok (i_fh s') /\ ext (fl s) (fl s') /\ f_len (fl s') = (cur + 1) * ps + HEADER /\ f_len (fl s') < max_file /\
                  h_pos (i_fh s') = f_len (fl s') /\ hdr (fl s') = (cur + 1) * ps /\ i_last s' = i_last s /\
                  i_recent s' = filter (fun e => negb (fst e / ps =? cur)) (i_recent s))
     (fun s' => (nf = false \/ max_file <= (cur + 1) * ps + HEADER) /\ ext (fl s) (fl s') /\
                f_len (fl s') <= (cur + 1) * ps + HEADER /\ f_len (fl s') < max_file /\
                i_last s' = i_last s /\ i_recent s' = i_recent s /\
                (hdr (fl s') = hdr (fl s) \/
                 hdr (fl s') = (cur + 1) * ps /\ f_len (fl s') = (cur + 1) * ps + HEADER)) s.
Proof.
  intros F L P L1 L2 Lm. assert (cur * ps + HEADER < u64_max) as L3 by lia. unfold close_page, pure, offset_of_page.
  assert (HEADER = 4096) as Hh by reflexivity.
  rewrite u_mul_ok by lia. cbn [bind]. rewrite u_add_ok by lia.
  apply wp_bind, wp_ret. rewrite u_add_ok by lia. apply wp_bind, wp_ret.
  replace (cur * ps + HEADER + ps) with ((cur + 1) * ps + HEADER) by lia.
  apply wp_bind. eapply wp_mono; [apply pad_to_spec; assumption| |].
  2:{ intros s' (Hn & (S1 & S2 & S3) & A & B & M). split; [exact Hn|]. split; [now apply app_ext|]. split; [lia|]. split; [exact M|].
      split; [exact S3|]. split; [exact S2|]. left. now apply app_hdr. }
  intros _ s1 (F1 & (S1 & S2 & S3) & A1 & B1 & M1 & P1). assert (f_len (fl s1) = (cur + 1) * ps + HEADER) as B1' by lia.
  apply wp_bind. eapply wp_mono; [apply commit_spec; [exact F1|lia]| |].
  2:{ intros s' (Hn & (T1 & T2 & T3) & E). split; [now left|]. destruct E as [E|E]; rewrite E.
      - split; [now apply app_ext|]. split; [lia|]. split; [exact M1|]. split; [congruence|]. split; [congruence|]. left. now apply app_hdr.
      - rewrite len_set_hdr by lia. split; [|split; [lia|split; [exact M1|split; [congruence|split; [congruence|]]]]].
        + eapply ext_trans; [apply app_ext; exact A1|]. apply ext_set_hdr. lia.
        + right. rewrite hdr_set_hdr by lia. lia. }
  intros id s2 (F2 & (T1 & T2 & T3) & Hid & E2 & P2).
  assert (ext (fl s) (fl s2)) as X2.
  { rewrite E2. eapply ext_trans; [apply app_ext; exact A1|]. apply ext_set_hdr. lia. }
  assert (f_len (fl s2) = (cur + 1) * ps + HEADER) as B2 by (rewrite E2, len_set_hdr; lia).
  assert (hdr (fl s2) = (cur + 1) * ps) as D2 by (rewrite E2, hdr_set_hdr; lia).
  apply wp_bind. eapply wp_mono; [apply load_page_spec; [exact F2|lia]| |].
  - intros _ s3 (F3 & E3 & P3 & R3 & L4). unfold wp. cbn [i_fh i_pages i_recent i_last]. rewrite E3.
    repeat split; try assumption; try apply X2; try lia; congruence.
  - intros s3 (Hn & E3 & R3 & L4). rewrite E3.
    repeat split; try assumption; try apply X2; try lia; try congruence; now left.
Qed.

(** The state of the file after [w] writes were tried; [acks] are the ids and
    blobs of the writes that succeeded, newest first. *)
Definition finv (w : N) (acks : list (N * bytes)) (f : file) : Prop :=
  HEADER <= f_len f /\ f_len f < max_file /\ f_len f <= HEADER + 2 * ps * w /\ hdr f + HEADER <= f_len f /\ hok f (hdr f) /\
  Forall (fun e => vblob f (fst e) (snd e) /\ fst e <= hdr f) acks.

(** A file that can be cut down to the size in its header. *)
Definition iinv (w : N) (acks : list (N * bytes)) (s : inner) : Prop :=
  finv w acks (fl s) /\ i_last s <= hdr (fl s) /\ hok (fl s) (i_last s) /\
  Forall (fun e => fst e + HEADER < u64_max -> blob_at (fl s) (fst e) (snd e)) (i_recent s) /\
  Forall (fun e => fst e <= i_last s) acks.

Lemma recent_ext f g l :
  ext f g -> Forall (fun e => fst e + HEADER < u64_max -> blob_at f (fst e) (snd e)) l ->
  Forall (fun e => fst e + HEADER < u64_max -> blob_at g (fst e) (snd e)) l.
Proof. intros E H. eapply Forall_impl; [|exact H]. cbn. intros e He Hl. apply (blob_ext f); auto. Qed.
Lemma acks_ext f g l x y :
  ext f g -> x <= y -> Forall (fun e => vblob f (fst e) (snd e) /\ fst e <= x) l ->
  Forall (fun e => vblob g (fst e) (snd e) /\ fst e <= y) l.
Proof.
  intros E L H. eapply Forall_impl; [|exact H]. cbn. intros e [He He']. split; [now apply (vblob_ext f)|lia].
Qed.

(** Blobs up to the size in the header are kept. *)
Definition keeps (f g : file) : Prop :=
  forall id d, blob_at f id d -> id <= hdr f -> blob_at g id d /\ id <= hdr g.
Lemma keeps_refl f : keeps f f.
Proof. intros id d A B. now split. Qed.
Lemma keeps_ext f g : ext f g -> hdr f <= hdr g -> keeps f g.
Proof. intros E L id d A B. split; [now apply (blob_ext f)|lia]. Qed.

Lemma append_fail w acks s s' :
  iinv w acks s -> ext (fl s) (fl s') -> i_last s' = i_last s ->
  (i_recent s' = i_recent s \/ exists p, i_recent s' = filter p (i_recent s)) ->
  f_len (fl s') <= f_len (fl s) + 2 * ps -> f_len (fl s') < max_file ->
  (hdr (fl s') = hdr (fl s) \/ hdr (fl s) <= hdr (fl s') /\ hdr (fl s') + HEADER <= f_len (fl s') /\ hok (fl s') (hdr (fl s'))) ->
  iinv (w + 1) acks s' /\ keeps (fl s) (fl s').
Proof.
  intros ((A & M & B & C & D & E) & F & G & H & Kl) X L R Y M' Z.
  assert (hdr (fl s) <= hdr (fl s')) as Hle by lia.
  split; [|now apply keeps_ext].
  split; [|split; [lia|split; [rewrite L; now apply (hok_ext (fl s))|split; [|rewrite L; exact Kl]]]].
  - unfold finv. pose proof (proj1 X). split; [lia|]. split; [exact M'|]. split; [lia|]. split; [lia|]. split.
    + destruct Z as [Z|(_ & _ & Z)]; [rewrite Z; now apply (hok_ext (fl s))|exact Z].
    + eapply acks_ext; [exact X|exact Hle|exact E].
  - apply (recent_ext (fl s)); [exact X|]. destruct R as [->|[p ->]]; [exact H|].
    apply Forall_forall. intros e He. apply filter_In in He. rewrite Forall_forall in H. now apply H.
Qed.

(** Two sizes in the file: as [f] but with the blob [d] and its length appended. *)
Lemma blob_written f d :
  HEADER <= f_len f -> len d < 4294967296 ->
  let f1 := f_write f (f_len f) d in
  let g := f_write f1 (f_len f1) (to_be 4 (len d)) in
  blob_at g (f_len g - HEADER) d /\ f_len g = f_len f + len d + 4 /\ app_only f g.
Proof.
  intros L B f1 g.
  assert (f_len f1 = f_len f + len d) as L1 by apply len_write.
  assert (f_len g = f_len f + len d + 4) as L2 by (unfold g; rewrite len_write, to_be_length, L1; lia).
  assert (app_only f1 g) as A2 by apply app_write.
  split; [|split; [exact L2|]].
  2:{ eapply app_trans; [|exact A2]. apply app_write. }
  unfold blob_at. assert (HEADER = 4096) as Hh by reflexivity.
  replace (f_len g - HEADER + HEADER) with (f_len g) by lia.
  split; [lia|]. split; [lia|]. split; [exact B|]. split.
  - replace (f_len g - 4 - len d) with (f_len f) by lia.
    transitivity (f_read f1 (f_len f) (length d)); [|apply f_read_write_same].
    apply f_read_ext. intros i Hi. apply A2. lia.
  - replace (f_len g - 4) with (f_len f1) by lia.
    transitivity (f_read g (f_len f1) (length (to_be 4 (len d)))); [now rewrite to_be_length|].
    apply f_read_write_same.
Qed.

Definition clean (acks : list (N * bytes)) (s : inner) : Prop :=
  f_len (fl s) = hdr (fl s) + HEADER /\ hdr (fl s) = i_last s /\
  i_last s = match acks with [] => 0 | (id, _) :: _ => id end.

Lemma append_spec w acks s d :
  fok (i_fh s) -> iinv w acks s ->
  len d + 8 <= ps -> K (Some d) ->
  wp (append dbg ps d)
     (fun id s' => fok (i_fh s') /\ iinv (w + 1) ((id, d) :: acks) s' /\ hdr (fl s) < id /\ id < u64_max /\
                   (clean acks s -> clean ((id, d) :: acks) s') /\ keeps (fl s) (fl s'))
     (fun s' => (nf = false \/ max_file <= HEADER + 2 * ps * (w + 1)) /\ iinv (w + 1) acks s' /\ keeps (fl s) (fl s')) s.
Proof.
  intros F I Hd Hk. pose proof I as ((A & M & B & C & D & E) & Fl & G & H & Kl).
  assert (HEADER = 4096) as Hh by reflexivity. assert (max_file = 9223372036854775808) as Hm by reflexivity. assert (u64_max = 18446744073709551616) as Hu by reflexivity.
  assert (iinv (w + 1) acks s /\ keeps (fl s) (fl s)) as I1.
  { eapply append_fail; [exact I|apply ext_refl|reflexivity|now left|lia|lia|now left]. }
  unfold append, pure. rewrite u_sub_ok by lia. apply wp_bind, wp_ret.
  assert (ps - 8 <? len d = false) as -> by (apply N.ltb_ge; lia).
  rewrite u_add_ok by lia. apply wp_bind, wp_ret.
  apply wp_bind, wp_lift, (wp_seek_end nf); [exact F| |now auto].
  intros h1 F1 E1 P1.
  assert (f_len (fl s) <? HEADER = false) as -> by (apply N.ltb_ge; lia).
  set (off := f_len (fl s) - HEADER). set (l := len d + 4).
  rewrite u_add_ok by lia. apply wp_bind, wp_ret.
  unfold page. rewrite !u_div_ok by lia. apply wp_bind, wp_ret. apply wp_bind, wp_ret.
  set (s1 := Inner h1 (i_pages s) (i_recent s) (i_last s)).
  assert (fl s1 = fl s) as Es1 by exact E1.
  assert (iinv (w + 1) acks s1 /\ keeps (fl s) (fl s1)) as I2.
  { eapply append_fail; [exact I|rewrite Es1; apply ext_refl|reflexivity|now left|rewrite Es1; lia|rewrite Es1; lia|left; now rewrite Es1]. }
  pose proof (N.div_mod off ps ltac:(lia)) as Q1. pose proof (N.mod_lt off ps ltac:(lia)) as Q2.
  set (q := off / ps) in *. set (r := off mod ps) in *.
  apply wp_bind.
  (* the state before the data is written *)
  assert (wp (if (off + l) / ps =? q then wret (Ok tt) else close_page dbg ps q)
     (fun _ s' => fok (i_fh s') /\ ext (fl s) (fl s') /\ h_pos (i_fh s') = f_len (fl s') /\
        HEADER <= f_len (fl s') /\ f_len (fl s') < max_file /\ f_len (fl s) <= f_len (fl s') /\
        f_len (fl s') <= f_len (fl s) + ps /\ (f_len (fl s') - HEADER) mod ps + l < ps /\
        i_last s' = i_last s /\
        (i_recent s' = i_recent s \/ exists p, i_recent s' = filter p (i_recent s)) /\
        (hdr (fl s') = hdr (fl s) \/
         hdr (fl s) <= hdr (fl s') /\ hdr (fl s') + HEADER <= f_len (fl s') /\ hok (fl s') (hdr (fl s'))))
     (fun s' => (nf = false \/ max_file <= HEADER + 2 * ps * (w + 1)) /\ iinv (w + 1) acks s' /\ keeps (fl s) (fl s')) s1) as Hpre.
  { destruct (N.eqb_spec ((off + l) / ps) q) as [Hq|Hq].
    - apply wp_ret. rewrite Es1. split; [exact F1|]. split; [apply ext_refl|]. split; [exact P1|].
      split; [exact A|]. split; [exact M|]. split; [lia|]. split; [lia|]. split; [|split; [reflexivity|split; now left]].
      pose proof (N.div_mod (off + l) ps ltac:(lia)) as Q3. pose proof (N.mod_lt (off + l) ps ltac:(lia)).
      fold off r. rewrite Hq in Q3. lia.
    - assert (ps <= r + l) as Hc.
      { destruct (N.lt_ge_cases (r + l) ps) as [Hlt|]; [exfalso|assumption]. apply Hq.
        symmetry. apply (N.div_unique _ _ _ (r + l)); lia. }
      eapply wp_mono; [apply close_page_spec; rewrite ?Es1; try assumption; lia| |].
      + intros _ s2 (F2 & X2 & L2 & M2 & P2 & D2 & T2 & R2). rewrite Es1 in X2.
        split; [exact F2|]. split; [exact X2|]. split; [exact P2|]. split; [lia|]. split; [exact M2|]. split; [lia|]. split; [lia|].
        split; [|split; [exact T2|split; [right; eexists; exact R2|right]]].
        * rewrite L2. replace ((q + 1) * ps + HEADER - HEADER) with ((q + 1) * ps) by lia.
          rewrite N.mod_mul by lia. lia.
        * split; [lia|]. split; [lia|]. left. rewrite D2. apply N.mod_mul. lia.
      + intros s2 (Hn & X2 & L2 & M2 & T2 & R2 & Z2). rewrite Es1 in *. split; [destruct Hn; [now left|right; lia]|].
        eapply append_fail; [exact I|exact X2|exact T2|now left|lia|exact M2|].
        destruct Z2 as [Z2|[Z2 Z2']]; [now left|right]. split; [lia|]. split; [lia|].
        left. rewrite Z2. apply N.mod_mul. lia. }
  eapply wp_mono; [exact Hpre| |now auto].
  clear Hpre I2 Es1 s1 h1 F1 E1 P1. intros _ s2 (F2 & X2 & P2 & A2 & N2 & L2 & L2' & M2 & T2 & R2 & Z2).
  (* the data *)
  apply wp_bind, wp_lift, (wp_write nf); [exact F2|rewrite P2; exact N2| |].
  2:{ intros h3 k Hn E3 N3. rewrite P2 in *. split; [destruct Hn; [now left|right; lia]|].
      eapply append_fail; cbn [i_fh i_pages i_recent i_last h_file]; rewrite ?E3; [exact I| |exact T2|exact R2| | |].
      - eapply ext_trans; [exact X2|apply app_ext, app_write].
      - rewrite len_write. rewrite firstn_length. lia.
      - rewrite len_write. exact N3.
      - rewrite (app_hdr (fl s2)) by (assumption || apply app_write).
        destruct Z2 as [Z2|(Z2 & Z3 & Z4)]; [now left|right]. split; [exact Z2|]. split; [rewrite len_write; lia|].
        eapply hok_ext; [apply app_ext, app_write|exact Z4]. }
  intros h3 F3 E3 P3 N3. rewrite P2 in E3, P3.
  apply wp_bind, wp_lift, (wp_write nf); cbn [i_fh]; [exact F3|exact N3| |]; cbn [i_fh i_pages i_recent i_last].
  2:{ intros h4 k Hn E4 N4. rewrite to_be_length in Hn. split; [destruct Hn; [now left|right; lia]|].
      assert (h_pos h3 = f_len (h_file h3)) as Hp3 by (rewrite P3, E3, len_write; reflexivity).
      assert (app_only (fl s2) (h_file h3)) as Y3 by (rewrite E3; apply app_write).
      assert (f_len (h_file h3) = f_len (fl s2) + len d) as L3 by (rewrite E3; apply len_write).
      rewrite Hp3 in *.
      eapply append_fail; cbn [i_fh i_pages i_recent i_last h_file]; rewrite ?E4; [exact I| |exact T2|exact R2| | |].
      - eapply ext_trans; [exact X2|]. apply app_ext. eapply app_trans; [exact Y3|apply app_write].
      - rewrite len_write, firstn_length, to_be_length. lia.
      - rewrite len_write. exact N4.
      - rewrite (app_hdr (fl s2)) by (assumption || (eapply app_trans; [exact Y3|apply app_write])).
        destruct Z2 as [Z2|(Z2 & Z3 & Z4)]; [now left|right]. split; [exact Z2|]. split; [rewrite len_write; lia|].
        eapply hok_ext; [|exact Z4]. apply app_ext. eapply app_trans; [exact Y3|apply app_write]. }
  intros h4 F4 E4 P4 N4.
  pose proof (blob_written (fl s2) d A2 ltac:(lia)) as Hb. cbn zeta in Hb. rewrite <- E3 in Hb.
  assert (h_pos h3 = f_len (h_file h3)) as Hp3 by (rewrite P3, E3, len_write; reflexivity).
  rewrite Hp3 in E4, P4. rewrite <- E4 in Hb. destruct Hb as (Hb & L4 & X4).
  assert (hdr (h_file h4) = hdr (fl s2)) as D4 by (apply app_hdr; assumption).
  rewrite to_be_length in P4. assert (f_len (h_file h4) < max_file) as N5 by (rewrite L4; rewrite E3, len_write in P4; lia).
  set (g := h_file h4) in *. set (id := f_len g - HEADER) in *.
  assert (vblob g id d) as V4.
  { split; [exact Hb|]. fold l in M2.
    assert (id = ((f_len (fl s2) - HEADER) / ps) * ps + ((f_len (fl s2) - HEADER) mod ps + l)) as Eid.
    { pose proof (N.div_mod (f_len (fl s2) - HEADER) ps ltac:(lia)). unfold id, l. lia. }
    rewrite Eid. rewrite (N.add_comm (_ * ps)), N.mod_add by lia. rewrite N.mod_small by exact M2. unfold l. pose proof (N.le_0_l ((f_len (fl s2) - HEADER) mod ps)). generalize dependent ((f_len (fl s2) - HEADER) mod ps). intros m _ _ _. clear. lia. }
  assert (ext (fl s) g) as X5 by (eapply ext_trans; [exact X2|now apply app_ext]).
  assert (ext (fl s) (set_hdr g id)) as X6 by (eapply ext_trans; [exact X5|apply ext_set_hdr; lia]).
  assert (vblob (set_hdr g id) id d) as V6 by (eapply vblob_ext; [apply ext_set_hdr; lia|exact V4]).
  assert (f_len (set_hdr g id) = f_len g) as L6 by (apply len_set_hdr; lia).
  assert (hdr (set_hdr g id) = id) as D6 by (apply hdr_set_hdr; lia).
  apply wp_bind. eapply wp_mono; [apply commit_spec; cbn [i_fh]; [exact F4|fold g; lia]| |].
  2:{ intros s5 (Hn & (T3 & T4 & T5) & Z5). cbn [i_fh i_pages i_recent i_last] in *. fold g id in Z5.
      split; [now left|].
      eapply append_fail; [exact I| |congruence|rewrite T4; exact R2| | |].
      - destruct Z5 as [->| ->]; assumption.
      - destruct Z5 as [->| ->]; lia.
      - destruct Z5 as [->| ->]; lia.
      - destruct Z5 as [->| ->].
        + rewrite D4. destruct Z2 as [Z2|(Z2 & Z3 & Z4)]; [now left|right]. split; [exact Z2|].
          split; [lia|]. eapply hok_ext; [apply app_ext; exact X4|exact Z4].
        + right. rewrite D6. split; [lia|]. split; [lia|]. right. right. exists d. now split. }
  intros id' s5 (F5 & (T3 & T4 & T5) & -> & E5 & P5). cbn [i_fh i_pages i_recent i_last] in *. fold g id in E5.
  apply wp_bind. unfold wp at 1. fold g id. rewrite u_mod_ok by lia. apply wp_bind, wp_ret.
  destruct V4 as [V4 V4'].
  assert (id mod ps <? 4 = false) as -> by (apply N.ltb_ge; lia). cbn [andb].
  apply wp_ret. cbn [i_fh i_pages i_recent i_last].
  split; [exact F5|]. split; [|split; [lia|split; [lia|split]]].
  - unfold iinv, finv. cbn [i_fh i_pages i_recent i_last]. rewrite E5, D6, L6.
    split; [|split; [lia|split; [right; right; exists d; now split|split]]].
    + split; [lia|]. split; [lia|]. split; [lia|]. split; [lia|]. split; [right; right; exists d; now split|].
      apply Forall_cons; [cbn [fst snd]; split; [exact V6|lia]|].
      eapply acks_ext; [exact X6| |exact E]. lia.
    + apply Forall_cons; [intros _; apply V6|]. rewrite T4. apply (recent_ext (fl s)); [exact X6|].
      destruct R2 as [->|[p ->]]; [exact H|].
      apply Forall_forall. intros e He. apply filter_In in He. rewrite Forall_forall in H. now apply H.
    + apply Forall_cons; [cbn; lia|]. eapply Forall_impl; [|exact Kl]. cbn. intros e He. lia.
  - intros _. unfold clean. cbn [i_fh i_pages i_recent i_last]. rewrite E5, D6, L6. split; [lia|]. split; reflexivity.
  - cbn [i_fh]. rewrite E5. apply keeps_ext; [exact X6|]. rewrite D6. lia.
Qed.

(** A file before it is opened.  After a power failure it may be shorter than its size
    field says. *)
Definition winv (w : N) (acks : list (N * bytes)) (f : file) : Prop :=
  HEADER <= f_len f /\ f_len f < max_file /\ f_len f <= HEADER + 2 * ps * w /\
  hdr f + HEADER < max_file /\ hdr f <= 2 * ps * w /\ hok f (hdr f) /\
  Forall (fun e => vblob f (fst e) (snd e) /\ fst e <= hdr f) acks.
Definition cinv (w : N) (acks : list (N * bytes)) (f : file) : Prop :=
  f_len f = 0 /\ acks = [] \/ winv w acks f.
Lemma finv_winv w acks f : finv w acks f -> winv w acks f.
Proof.
  intros (A & M & B & C & D & E). assert (HEADER = 4096) as Hh by reflexivity.
  unfold winv. split; [exact A|]. split; [exact M|]. split; [exact B|]. split; [lia|]. split; [lia|]. split; [exact D|exact E].
Qed.

Lemma blob_cut f g id d :
  blob_at f id d -> id + HEADER <= f_len g -> (forall i, i < f_len g -> i < f_len f -> f_at g i = f_at f i) -> blob_at g id d.
Proof.
  intros (A & B & C & D & E) L H. unfold blob_at. assert (HEADER = 4096) as Hh by reflexivity.
  split; [exact A|]. split; [exact L|]. split; [exact C|]. split.
  - etransitivity; [|exact D]. apply f_read_ext. intros i Hi. apply H; lia.
  - etransitivity; [|exact E]. apply f_read_ext. intros i Hi. apply H; lia.
Qed.

Lemma winv_cut w acks f n :
  winv w acks f -> n = hdr f + HEADER ->
  finv w acks (f_set_len f n) /\ hdr (f_set_len f n) = hdr f /\ f_len (f_set_len f n) = n.
Proof.
  intros (A & M & B & C & C' & D & E) ->. assert (HEADER = 4096) as Hh by reflexivity.
  assert (forall i, i < hdr f + HEADER -> i < f_len f -> f_at (f_set_len f (hdr f + HEADER)) i = f_at f i) as Hc
    by (intros i Hi Hj; apply f_set_len_at; lia).
  assert (hdr (f_set_len f (hdr f + HEADER)) = hdr f) as Eh.
  { unfold hdr at 1 3. f_equal. apply f_read_ext. intros i Hi. apply Hc; lia. }
  split; [|split; [exact Eh|reflexivity]]. unfold finv. rewrite Eh. cbn [f_len f_set_len].
  split; [lia|]. split; [lia|]. split; [lia|]. split; [lia|]. split.
  - destruct D as [D|[D|(d & Hk & D & D')]]; [now left|right; now left|right; right]. exists d. split; [exact Hk|]. split; [|exact D'].
    eapply blob_cut; [exact D|cbn; lia|exact Hc].
  - eapply Forall_impl; [|exact E]. cbn [fst snd]. intros e [[He He'] Hl]. split; [split; [|exact He']|exact Hl].
    eapply blob_cut; [exact He|cbn [f_len f_set_len]; lia|exact Hc].
Qed.

Lemma cut_keeps w acks f : winv w acks f -> keeps f (f_set_len f (hdr f + HEADER)).
Proof.
  intros W id d A B. destruct (winv_cut _ _ _ _ W eq_refl) as (_ & Eh & _). rewrite Eh. split; [|exact B].
  eapply blob_cut; [exact A|cbn [f_len f_set_len]; lia|]. cbn [f_len f_set_len]. intros i Hi Hj. apply f_set_len_at; lia.
Qed.
Lemma keeps_empty f g : f_len f = 0 -> keeps f g.
Proof. intros L id d (A & B & _). unfold HEADER in B. lia. Qed.

Lemma finv_empty w f : f_len f = 0 -> finv w [] (f_set_len f HEADER) /\ hdr (f_set_len f HEADER) = 0.
Proof.
  intros L. assert (hdr (f_set_len f HEADER) = 0) as Eh.
  { unfold hdr. rewrite (f_read_ext _ (File 0 (fun _ => x00))); [reflexivity|].
    intros i Hi. unfold f_set_len. cbn [f_at]. rewrite L. now destruct i. }
  split; [|exact Eh]. unfold finv. rewrite Eh. cbn [f_len f_set_len]. unfold hok.
  repeat split; try lia; auto.
Qed.

Lemma read_size_spec h :
  fok h -> HEADER <= f_len (h_file h) ->
  wp read_size
     (fun n h' => fok h' /\ h_file h' = h_file h /\ n = hdr (h_file h))
     (fun h' => nf = false /\ h_file h' = h_file h) h.
Proof.
  intros F L. assert (HEADER = 4096) as Hh by reflexivity.
  apply wp_bind, (wp_seek nf); [exact F|reflexivity| |auto]. intros h1 F1 E1 P1.
  apply wp_bind, (wp_read nf); [exact F1|rewrite E1, P1; lia| |rewrite E1; auto]. intros h2 F2 E2.
  apply wp_bind, (wp_seek_end nf); [exact F2| |rewrite E2, E1; auto]. intros h3 F3 E3 P3.
  apply wp_ret. rewrite E3, E2, E1, P1. auto.
Qed.

Lemma open_spec w acks h :
  ps mod 8 = 0 -> fok h -> cinv w acks (h_file h) ->
  wp (open dbg ps)
     (fun s _ => fok (i_fh s) /\ iinv w acks s /\ f_len (fl s) = hdr (fl s) + HEADER /\ hdr (fl s) = i_last s /\
                 i_last s = (if f_len (h_file h) =? 0 then 0 else hdr (h_file h)) /\ keeps (h_file h) (fl s))
     (fun h' => nf = false /\ cinv w acks (h_file h') /\ keeps (h_file h) (h_file h')) h.
Proof.
  intros H8 F C. assert (HEADER = 4096) as Hh by reflexivity. assert (max_file = 9223372036854775808) as Hm by reflexivity. assert (u64_max = 18446744073709551616) as Hu by reflexivity.
  unfold open. apply N.eqb_eq in H8. rewrite H8. cbn [negb]. pose proof (keeps_refl (h_file h)) as K0.
  apply wp_bind, (wp_seek_end nf); [exact F| |now auto]. intros h1 F1 E1 P1.
  apply wp_bind.
  apply wp_mono with
    (Q := fun _ h' => fok h' /\ (winv w acks (h_file h') /\
            hdr (h_file h') = (if f_len (h_file h) =? 0 then 0 else hdr (h_file h))) /\
            (f_len (h_file h) = 0 \/ h_file h' = h_file h))
    (E := fun h' => nf = false /\ cinv w acks (h_file h') /\ keeps (h_file h) (h_file h')); [| |auto].
  - destruct (N.eqb_spec (f_len (h_file h)) 0) as [H0|H0].
    + destruct C as [[_ ->]|(C & _)]; [|lia]. destruct (finv_empty w _ H0) as [C1 C2]. apply finv_winv in C1.
      apply wp_bind, (wp_set_len nf); [exact F1|lia| | |].
      * intros h2 F2 E2. rewrite E1 in E2. apply (wp_seek_end nf); [exact F2| |].
        -- intros h3 F3 E3 P3. rewrite E3, E2. auto.
        -- intros Hn. split; [exact Hn|]. split; [right; now rewrite E2|now apply keeps_empty].
      * intros Hn. split; [exact Hn|]. split; [left; rewrite E1; auto|now apply keeps_empty].
      * intros Hn h2 E2. split; [exact Hn|]. split; [right; now rewrite E2, E1|now apply keeps_empty].
    + destruct C as [[C _]|C]; [lia|]. assert (HEADER <= f_len (h_file h)) as C' by apply C.
      assert (f_len (h_file h) <? HEADER = false) as -> by (apply N.ltb_ge; lia).
      apply wp_ret. rewrite E1. auto.
  - intros _ h2 (F2 & [C2 E2] & Hsame). pose proof C2 as (L2 & M2 & L3 & L4 & L5 & _).
    assert (forall g, keeps (h_file h2) g -> keeps (h_file h) g) as Hk.
    { intros g Hg. destruct Hsame as [H0| <-]; [now apply keeps_empty|exact Hg]. }
    apply wp_bind. eapply wp_mono; [apply read_size_spec; assumption| |].
    2:{ intros h3 [Hn E3]. split; [exact Hn|]. rewrite E3. split; [now right|apply Hk, keeps_refl]. }
    intros n h3 (F3 & E3 & ->). unfold pure. rewrite u_add_ok by lia. apply wp_bind, wp_ret.
    destruct (winv_cut _ _ _ _ C2 eq_refl) as (C4 & Eh & El). pose proof (finv_winv _ _ _ C4) as C4'.
    pose proof (Hk _ (cut_keeps _ _ _ C2)) as Kc.
    apply wp_bind, (wp_set_len nf); [exact F3|lia| | |].
    + intros h4 F4 E4. rewrite E3 in E4. apply wp_bind, (wp_seek_end nf); [exact F4| |].
      * intros h5 F5 E5 P5. unfold wp. cbn [i_fh i_pages i_recent i_last].
        unfold iinv. cbn [i_fh i_pages i_recent i_last]. rewrite E5, E4, Eh, El.
        pose proof C4 as (_ & _ & _ & _ & C5 & C6). rewrite Eh in C5, C6.
        split; [exact F5|]. split; [|split; [reflexivity|split; [reflexivity|split; [exact E2|exact Kc]]]].
        split; [exact C4|]. split; [lia|]. split; [exact C5|]. split; [constructor|].
        eapply Forall_impl; [|exact C6]. cbn. tauto.
      * intros Hn. split; [exact Hn|]. rewrite E4. split; [now right|exact Kc].
    + intros Hn. split; [exact Hn|]. rewrite E3. split; [now right|apply Hk, keeps_refl].
    + intros Hn h4 E4. split; [exact Hn|]. rewrite E4, E3. split; [now right|exact Kc].
Qed.

(** Reading. *)
Definition rinv (s s' : inner) : Prop := fl s' = fl s /\ i_last s' = i_last s.

Lemma assoc_In id l d : assoc id l = Some d -> In (id, d) l.
Proof.
  induction l as [|[i e] l IH]; cbn; [discriminate|]. destruct (N.eqb_spec i id) as [->|]; [|auto].
  intros H. injection H as <-. now left.
Qed.

Lemma load_recent_spec id s :
  fok (i_fh s) -> f_len (fl s) < max_file -> id < u64_max ->
  (dbg = true -> 0 < id /\ id + HEADER < u64_max) ->
  wp (load_recent dbg id)
     (fun _ s' => rinv s s' /\ exists d, i_recent s' = (id, d) :: i_recent s /\
                  (id + HEADER < u64_max -> blob_at (fl s) id d))
     (fun s' => rinv s s' /\ i_recent s' = i_recent s /\ (nf = true -> forall d, ~ vblob (fl s) id d)) s.
Proof.
  intros F L Hid Hd. assert (HEADER = 4096) as Hh by reflexivity. assert (max_file = 9223372036854775808) as Hm by reflexivity. assert (u64_max = 18446744073709551616) as Hu by reflexivity.
  unfold load_recent, pure. destruct (N.ltb_spec id 4) as [H4|H4].
  { apply wp_err. repeat split; auto. intros _ d [(A & _) _]. lia. }
  destruct (N.lt_ge_cases (id + HEADER) u64_max) as [Hl|Hl].
  - rewrite u_add_ok by lia. cbn [bind]. rewrite u_sub_ok by lia. apply wp_bind, wp_ret.
    apply wp_bind, wp_lift, (wp_seek_any nf); [exact F| |]; cbn [i_fh i_pages i_recent i_last].
    2:{ intros h E1 Hn. split; [split; [exact E1|reflexivity]|]. split; [reflexivity|].
        intros Hn' d [(A & B & _) _]. destruct Hn as [Hn|Hn]; [congruence|]. cbn in B. lia. }
    intros h1 F1 E1 P1 B1. apply wp_bind, wp_lift, (wp_read_any nf); [exact F1| |]; cbn [i_fh i_pages i_recent i_last].
    2:{ intros h E2 Hn. split; [split; [cbn; congruence|reflexivity]|]. split; [reflexivity|].
        intros Hn' d [(A & B & _) _]. destruct Hn as [Hn|Hn]; [congruence|]. rewrite E1, P1 in Hn. lia. }
    intros h2 F2 E2 B2. rewrite E1, P1 in *. set (size := of_be (f_read (fl s) (id + HEADER - 4) 4)).
    destruct (N.ltb_spec id (4 + size)) as [Hs|Hs].
    { apply wp_err. split; [split; [cbn; congruence|reflexivity]|]. split; [reflexivity|].
      intros Hn' d [A A']. pose proof (blob_size _ _ _ A) as As. fold size in As. destruct A as (A & _). lia. }
    cbn [bind]. rewrite u_sub_ok by lia. apply wp_bind, wp_ret.
    apply wp_bind, wp_lift, (wp_seek_any nf); [exact F2| |]; cbn [i_fh i_pages i_recent i_last].
    2:{ intros h E3 Hn. split; [split; [cbn; congruence|reflexivity]|]. split; [reflexivity|].
        intros Hn' d [(A & B & _) _]. destruct Hn as [Hn|Hn]; [congruence|]. lia. }
    intros h3 F3 E3 P3 B3. apply wp_bind, wp_lift, (wp_read_any nf); [exact F3| |]; cbn [i_fh i_pages i_recent i_last].
    2:{ intros h E4 Hn. split; [split; [cbn; congruence|reflexivity]|]. split; [reflexivity|].
        intros Hn' d [(A & B & _) _]. destruct Hn as [Hn|Hn]; [congruence|]. rewrite E3, E2, P3 in Hn. lia. }
    intros h4 F4 E4 B4. rewrite E3, E2, P3 in *.
    apply wp_bind, wp_lift, (wp_seek_end nf); [exact F4| |]; cbn [i_fh i_pages i_recent i_last].
    + intros h5 F5 E5 P5. unfold wp, rinv. cbn [i_fh i_pages i_recent i_last]. split; [split; [congruence|reflexivity]|].
      eexists. split; [reflexivity|]. intros _.
      assert (size < 4294967296) as Sz.
      { apply read4_bound. }
      unfold blob_at. rewrite f_read_length. rewrite N2Nat.id. repeat split; try lia.
      apply read4_be.
    + intros Hn. split; [split; [cbn; congruence|reflexivity]|]. split; [reflexivity|]. intros; congruence.
  - assert (dbg = false) as Ed by (destruct dbg; [destruct (Hd eq_refl); lia|reflexivity]). rewrite Ed.
    assert (forall d, ~ vblob (fl s) id d) as Hno by (intros d [(A & B & _) _]; lia).
    destruct (u_add_rel id HEADER Hid ltac:(lia)) as (x & Ex & Bx). rewrite Ex. cbn [bind].
    destruct (u_sub_rel x 4 Bx ltac:(lia)) as (y & Ey & By). rewrite Ey. cbn [bind]. apply wp_bind, wp_ret.
    apply wp_bind, wp_lift, (wp_seek_any nf); [exact F| |]; cbn [i_fh i_pages i_recent i_last].
    2:{ intros h E1 Hn. split; [split; [exact E1|reflexivity]|]. split; [reflexivity|auto]. }
    intros h1 F1 E1 P1 B1. apply wp_bind, wp_lift, (wp_read_any nf); [exact F1| |]; cbn [i_fh i_pages i_recent i_last].
    2:{ intros h E2 Hn. split; [split; [cbn; congruence|reflexivity]|]. split; [reflexivity|auto]. }
    intros h2 F2 E2 B2.
    set (size := of_be (f_read (h_file h1) (h_pos h1) 4)).
    assert (size < 4294967296) as Sz.
    { apply read4_bound. }
    destruct (N.ltb_spec id (4 + size)) as [Hs|Hs].
    { apply wp_err. split; [split; [cbn; congruence|reflexivity]|]. split; [reflexivity|auto]. }
    destruct (u_sub_rel y size By ltac:(lia)) as (z & Ez & Bz). rewrite Ez. apply wp_bind, wp_ret.
    apply wp_bind, wp_lift, (wp_seek_any nf); [exact F2| |]; cbn [i_fh i_pages i_recent i_last].
    2:{ intros h E3 Hn. split; [split; [cbn; congruence|reflexivity]|]. split; [reflexivity|auto]. }
    intros h3 F3 E3 P3 B3. apply wp_bind, wp_lift, (wp_read_any nf); [exact F3| |]; cbn [i_fh i_pages i_recent i_last].
    2:{ intros h E4 Hn. split; [split; [cbn; congruence|reflexivity]|]. split; [reflexivity|auto]. }
    intros h4 F4 E4 B4. apply wp_bind, wp_lift, (wp_seek_end nf); [exact F4| |]; cbn [i_fh i_pages i_recent i_last].
    + intros h5 F5 E5 P5. unfold wp, rinv. cbn [i_fh i_pages i_recent i_last]. split; [split; [congruence|reflexivity]|].
      eexists. split; [reflexivity|]. intros; lia.
    + intros Hn. split; [split; [cbn; congruence|reflexivity]|]. split; [reflexivity|]. intros; congruence.
Qed.

Lemma bytes_at_spec w acks id s :
  fok (i_fh s) -> iinv w acks s -> id < u64_max ->
  (dbg = true -> 0 < id /\ id + HEADER < u64_max) ->
  wp (bytes_at dbg ps id)
     (fun d s' => iinv w acks s' /\ rinv s s' /\ (id + HEADER < u64_max -> blob_at (fl s) id d))
     (fun s' => iinv w acks s' /\ rinv s s' /\ (nf = true -> forall d, ~ vblob (fl s) id d)) s.
Proof.
  intros F I Hid Hd. assert (HEADER = 4096) as Hh by reflexivity. assert (max_file = 9223372036854775808) as Hm by reflexivity. assert (u64_max = 18446744073709551616) as Hu by reflexivity.
  assert (forall s' r, rinv s s' -> i_recent s' = r ->
    Forall (fun e => fst e + HEADER < u64_max -> blob_at (fl s) (fst e) (snd e)) r -> iinv w acks s') as Hinv.
  { intros s' r [E1 E2] E3 R. destruct I as (A & B & C & D & E). unfold iinv. rewrite E1, E2, E3. auto. }
  pose proof I as ((A & M & B & C & _) & Fl & _ & R & _).
  unfold bytes_at, wp at 1. 
  match goal with |- match ?m s with _ => _ end =>
    change (wp m (fun d s' => iinv w acks s' /\ rinv s s' /\ (id + HEADER < u64_max -> blob_at (fl s) id d))
     (fun s' => iinv w acks s' /\ rinv s s' /\ (nf = true -> forall d, ~ vblob (fl s) id d)) s) end.
  unfold pure, page, offset_within_page. rewrite u_div_ok by lia. apply wp_bind, wp_ret.
  assert (exists x, u_sub dbg id 1 = Ok x /\ (0 < id -> x = id - 1) /\ (id = 0 -> x = u64_max - 1)) as (x & Ex & X1 & X2).
  { unfold u_sub. destruct (N.leb_spec 1 id) as [H|H]; [eexists; split; [reflexivity|]; split; lia|].
    destruct dbg; [destruct (Hd eq_refl); lia|]. eexists; split; [reflexivity|]; split; lia. }
  rewrite Ex. cbn [bind]. rewrite u_div_ok by lia. apply wp_bind, wp_ret.
  rewrite u_mod_ok by lia. apply wp_bind, wp_ret.
  pose proof (N.div_mod (i_last s) ps ltac:(lia)) as Q1. pose proof (N.mod_lt (i_last s) ps ltac:(lia)) as Q2.
  destruct (N.ltb_spec (x / ps) (i_last s / ps)) as [Hp|Hp].
  - assert ((x / ps + 1) * ps <= i_last s) as Hq.
    { transitivity (i_last s / ps * ps); [apply N.mul_le_mono_r; lia|]. rewrite N.mul_comm. apply N.mul_div_le. lia. }
    assert (0 < id) as Hi.
    { destruct (N.eq_0_gt_0_cases id) as [H0|]; [exfalso|assumption]. rewrite (X2 H0) in Hq.
      pose proof (N.div_mod (u64_max - 1) ps ltac:(lia)) as Q3. pose proof (N.mod_lt (u64_max - 1) ps ltac:(lia)) as Q4.
      assert (forall q r, 18446744073709551615 = ps * q + r -> r < ps -> (q + 1) * ps <= i_last s -> False) as Hg
        by (clear - M C Fl Hm; intros; lia). exact (Hg _ _ Q3 Q4 Hq). }
    specialize (X1 Hi). subst x. clear X2.
    apply wp_bind. apply wp_mono with (Q := fun _ s' => rinv s s' /\ i_recent s' = i_recent s)
      (E := fun s' => nf = false /\ rinv s s' /\ i_recent s' = i_recent s).
    + destruct (existsb _ _); [apply wp_ret; now unfold rinv|].
      eapply wp_mono; [apply load_page_spec; [exact F|lia]| |]; unfold rinv; intuition.
    + intros _ s1 ([E1 E2] & E3). unfold wp, page_bytes. rewrite E1.
      set (p := (id - 1) / ps) in *.
      assert (f_len (fl s) <? p * ps + HEADER + ps = false) as -> by (apply N.ltb_ge; lia).
      assert (iinv w acks s1 /\ rinv s s1) as [G1 G2].
      { assert (rinv s s1) by (split; assumption). split; [|assumption]. eapply Hinv; eauto. }
      destruct (N.ltb_spec (id mod ps) 4) as [H4|H4].
      { split; [exact G1|]. split; [exact G2|]. intros _ d [(V & _) V']. lia. }
      assert (p * ps + id mod ps = id) as Ei.
      { pose proof (N.div_mod id ps ltac:(lia)) as Q3. pose proof (N.mod_lt id ps ltac:(lia)) as Q4.
        assert (p = id / ps) as ->; [|lia]. unfold p.
        symmetry. apply (N.div_unique _ _ _ (id mod ps - 1)); lia. }
      replace (p * ps + HEADER + id mod ps - 4) with (id + HEADER - 4) by lia.
      set (l := of_be (f_read (fl s) (id + HEADER - 4) 4)).
      assert (l < 4294967296) as Sz.
      { apply read4_bound. }
      destruct (N.ltb_spec (id mod ps) (l + 4)) as [H5|H5].
      { split; [exact G1|]. split; [exact G2|]. intros _ d [V V']. apply blob_size in V. fold l in V. lia. }
      split; [exact G1|]. split; [exact G2|]. intros _.
      pose proof (N.mod_le id ps ltac:(lia)).
      unfold blob_at. rewrite f_read_length. rewrite N2Nat.id. repeat split; try lia.
      * pose proof (N.mod_lt id ps ltac:(lia)). lia.
      * apply read4_be.
    + intros s1 (Hn & Hr & E3). split; [eapply Hinv; eauto|]. split; [exact Hr|]. intros; congruence.
  - apply wp_bind. destruct (assoc id (i_recent s)) as [d|] eqn:Ea.
    + apply wp_ret. unfold wp. rewrite Ea. split; [exact I|]. split; [now split|].
      apply assoc_In in Ea. rewrite Forall_forall in R. exact (R _ Ea).
    + eapply wp_mono; [apply load_recent_spec; try assumption; lia| |].
      * intros _ s1 (Hr & d & E1 & Hb). unfold wp. rewrite E1. cbn [assoc]. rewrite N.eqb_refl.
        split; [eapply Hinv; [exact Hr|exact E1|]|auto]. apply Forall_cons; [exact Hb|exact R].
      * intros s1 (Hr & E1 & Hb). split; [eapply Hinv; eauto|]. auto.
Qed.
End Proofs.
