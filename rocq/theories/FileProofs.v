(** Facts about files. *)
From Verif Require Import Base BaseLemmas Header Node Store U64 File.
Local Open Scope N_scope.

Lemma f_read_length f pos n : length (f_read f pos n) = n.
Proof. unfold f_read. now rewrite map_length, seq_length. Qed.

Lemma f_read_ext f g pos n :
  (forall i, pos <= i < pos + N.of_nat n -> f_at f i = f_at g i) -> f_read f pos n = f_read g pos n.
Proof.
  intros H. unfold f_read. apply map_ext_in. intros i Hi. apply in_seq in Hi. apply H. lia.
Qed.

Lemma seq_add a b : forall k, seq (a + k) b = map (fun i => (a + i)%nat) (seq k b).
Proof.
  induction b as [|b IH]; intros k; cbn [seq map]; [reflexivity|]. f_equal. rewrite <- IH. f_equal. lia.
Qed.
Lemma f_read_app f pos a b : f_read f pos (a + b) = f_read f pos a ++ f_read f (pos + N.of_nat a) b.
Proof.
  unfold f_read. rewrite seq_app, map_app. f_equal. cbn [Nat.add].
  rewrite <- (Nat.add_0_r a) at 1. rewrite seq_add, map_map. apply map_ext. intros i. f_equal. lia.
Qed.

Lemma map_seq_nth (d : bytes) : map (fun i => nth i d x00) (seq 0 (length d)) = d.
Proof.
  induction d as [|c d IH]; [reflexivity|].
  cbn [length seq map nth]. f_equal. rewrite <- seq_shift, map_map. exact IH.
Qed.

Lemma f_read_write_same f pos d : f_read (f_write f pos d) pos (length d) = d.
Proof.
  unfold f_read, f_write. cbn [f_at].
  transitivity (map (fun i => nth i d x00) (seq 0 (length d))).
  - apply map_ext_in. intros i Hi. apply in_seq in Hi.
    replace (pos <=? pos + N.of_nat i) with true by (symmetry; apply N.leb_le; lia).
    replace (pos + N.of_nat i <? pos + N.of_nat (length d)) with true by (symmetry; apply N.ltb_lt; lia).
    cbn [andb]. f_equal. lia.
  - apply map_seq_nth.
Qed.

Lemma f_write_at f pos d i :
  i < f_len f -> i < pos \/ pos + N.of_nat (length d) <= i -> f_at (f_write f pos d) i = f_at f i.
Proof.
  intros H H1. unfold f_write. cbn [f_at].
  replace (i <? f_len f) with true by (symmetry; apply N.ltb_lt; lia).
  destruct ((pos <=? i) && (i <? pos + N.of_nat (length d))) eqn:E; [|reflexivity].
  apply andb_true_iff in E. destruct E as [E1 E2]. apply N.leb_le in E1. apply N.ltb_lt in E2. lia.
Qed.

Lemma f_set_len_at f n i : i < f_len f -> f_at (f_set_len f n) i = f_at f i.
Proof.
  intros H. unfold f_set_len. cbn [f_at].
  now replace (i <? f_len f) with true by (symmetry; apply N.ltb_lt; lia).
Qed.

(** Weakest preconditions: the computation ends with [Ok] and then [Q], or with
    [Err] and then [E]; in particular it does not panic. *)
Definition wp {X A} (m : wm X A) (Q : A -> X -> Prop) (E : X -> Prop) (s : X) : Prop :=
  match m s with
  | (Ok a, s') => Q a s'
  | (Err, s') => E s'
  | _ => False
  end.

Lemma wp_bind {X A B} (m : wm X A) (k : A -> wm X B) (Q : B -> X -> Prop) (E : X -> Prop) s :
  wp m (fun a s' => wp (k a) Q E s') E s -> wp (wbind m k) Q E s.
Proof. unfold wp, wbind. destruct (m s) as [[a| | |] s']; auto. Qed.
Lemma wp_ret {X A} (a : A) (Q : A -> X -> Prop) (E : X -> Prop) s : Q a s -> wp (wret (Ok a)) Q E s.
Proof. auto. Qed.
Lemma wp_err {X A} (Q : A -> X -> Prop) (E : X -> Prop) s : E s -> wp (wret Err) Q E s.
Proof. auto. Qed.
Lemma wp_mono {X A} (m : wm X A) (Q Q' : A -> X -> Prop) (E E' : X -> Prop) s :
  wp m Q E s -> (forall a s', Q a s' -> Q' a s') -> (forall s', E s' -> E' s') -> wp m Q' E' s.
Proof. unfold wp. destruct (m s) as [[a| | |] s']; auto. Qed.

(** When no fault is planned ([nf = true]) none is planned afterwards, and errors
    only come from the explicit checks. *)
Section Fh.
Context (nf : bool).
Definition fok (h : fh) : Prop := nf = true -> h_fault h = None.

Lemma wp_tick {A} bad (m : wm fh A) (Q : A -> fh -> Prop) (E : fh -> Prop) h :
  fok h ->
  (forall h', fok h' -> h_file h' = h_file h -> h_pos h' = h_pos h -> wp m Q E h') ->
  (forall k, nf = false -> E (bad k h)) ->
  wp (with_tick bad m) Q E h.
Proof.
  intros F Hm Hb. unfold wp, with_tick, tick. destruct (h_fault h) as [[[|n] k]|] eqn:Eh.
  - apply Hb. destruct nf eqn:En; [|reflexivity]. unfold fok in F. rewrite En in F. specialize (F eq_refl). congruence.
  - apply Hm; cbn; [|reflexivity|reflexivity]. intros Hn. specialize (F Hn). congruence.
  - apply Hm; auto.
Qed.

Lemma wp_seek n (Q : unit -> fh -> Prop) (E : fh -> Prop) h :
  fok h -> n < max_file ->
  (forall h', fok h' -> h_file h' = h_file h -> h_pos h' = n -> Q tt h') ->
  (nf = false -> E h) -> wp (h_seek n) Q E h.
Proof.
  intros F Hn HQ HE. apply wp_tick; auto. intros h' F' Hf Hp. unfold wp.
  replace (n <? max_file) with true by (symmetry; apply N.ltb_lt; exact Hn).
  apply HQ; auto.
Qed.
Lemma wp_seek_end (Q : N -> fh -> Prop) (E : fh -> Prop) h :
  fok h ->
  (forall h', fok h' -> h_file h' = h_file h -> h_pos h' = f_len (h_file h) -> Q (f_len (h_file h)) h') ->
  (nf = false -> E h) -> wp h_seek_end Q E h.
Proof.
  intros F HQ HE. apply wp_tick; auto. intros h' F' Hf Hp. unfold wp. rewrite Hf. apply HQ; auto.
Qed.
Lemma wp_position (Q : N -> fh -> Prop) (E : fh -> Prop) h :
  fok h ->
  (forall h', fok h' -> h_file h' = h_file h -> h_pos h' = h_pos h -> Q (h_pos h) h') ->
  (nf = false -> E h) -> wp h_position Q E h.
Proof.
  intros F HQ HE. apply wp_tick; auto. intros h' F' Hf Hp. unfold wp. rewrite Hp. apply HQ; auto.
Qed.
Lemma wp_read n (Q : bytes -> fh -> Prop) (E : fh -> Prop) h :
  fok h -> h_pos h + N.of_nat n <= f_len (h_file h) ->
  (forall h', fok h' -> h_file h' = h_file h -> Q (f_read (h_file h) (h_pos h) n) h') ->
  (nf = false -> E h) -> wp (h_read n) Q E h.
Proof.
  intros F Hn HQ HE. apply wp_tick; auto. intros h' F' Hf Hp. unfold wp. rewrite Hf, Hp.
  replace (h_pos h + N.of_nat n <=? f_len (h_file h)) with true by (symmetry; apply N.leb_le; exact Hn).
  apply HQ; auto.
Qed.
Lemma wp_seek_any n (Q : unit -> fh -> Prop) (E : fh -> Prop) h :
  fok h ->
  (forall h', fok h' -> h_file h' = h_file h -> h_pos h' = n -> n < max_file -> Q tt h') ->
  (forall h', h_file h' = h_file h -> nf = false \/ max_file <= n -> E h') -> wp (h_seek n) Q E h.
Proof.
  intros F HQ HE. apply wp_tick; auto. intros h' F' Hf Hp. unfold wp.
  destruct (N.ltb_spec n max_file); [apply HQ|apply HE]; auto.
Qed.
Lemma wp_read_any n (Q : bytes -> fh -> Prop) (E : fh -> Prop) h :
  fok h ->
  (forall h', fok h' -> h_file h' = h_file h -> h_pos h + N.of_nat n <= f_len (h_file h) ->
     Q (f_read (h_file h) (h_pos h) n) h') ->
  (forall h', h_file h' = h_file h -> nf = false \/ f_len (h_file h) < h_pos h + N.of_nat n -> E h') ->
  wp (h_read n) Q E h.
Proof.
  intros F HQ HE. apply wp_tick; auto. intros h' F' Hf Hp. unfold wp. rewrite Hf, Hp.
  destruct (N.leb_spec (h_pos h + N.of_nat n) (f_len (h_file h))); [apply HQ|apply HE]; auto.
Qed.
Lemma wp_write d (Q : unit -> fh -> Prop) (E : fh -> Prop) h :
  fok h -> h_pos h < max_file ->
  (forall h', fok h' -> h_file h' = f_write (h_file h) (h_pos h) d ->
     h_pos h' = h_pos h + N.of_nat (length d) -> h_pos h' < max_file -> Q tt h') ->
  (forall h' k, nf = false \/ max_file <= h_pos h + N.of_nat (length d) ->
     h_file h' = f_write (h_file h) (h_pos h) (firstn k d) ->
     h_pos h + N.of_nat (length (firstn k d)) < max_file -> E h') ->
  wp (h_write d) Q E h.
Proof.
  intros F L HQ HE.
  assert (forall h' k, h_pos h' = h_pos h ->
    h_pos h + N.of_nat (length (firstn (N.to_nat (N.min (N.of_nat k) (max_file - 1 - h_pos h'))) d)) < max_file) as Hk.
  { intros h' k ->. rewrite firstn_length. lia. }
  apply wp_tick; auto.
  - intros h' F' Hf Hp. unfold wp, put. rewrite Hf.
    destruct (N.ltb_spec (h_pos h' + N.of_nat (length d)) max_file) as [L'|L']; rewrite Hp in L'.
    + apply HQ; cbn [h_file h_pos h_fault]; auto; rewrite Hp; auto.
    + apply (HE _ (N.to_nat (N.min (N.of_nat (length d)) (max_file - 1 - h_pos h')))); auto. cbn [h_file]. now rewrite Hp at 1.
  - intros k Hn. eapply HE; [now left|reflexivity|]. now apply Hk.
Qed.
Lemma wp_write_atomic d (Q : unit -> fh -> Prop) (E : fh -> Prop) h :
  fok h ->
  (forall h', fok h' -> h_file h' = f_write (h_file h) (h_pos h) d -> Q tt h') ->
  (nf = false -> E h) -> (nf = false -> E (put d h)) -> wp (h_write_atomic d) Q E h.
Proof.
  intros F HQ HE HE'. apply wp_tick; auto.
  - intros h' F' Hf Hp. unfold wp, put. rewrite Hf, Hp. apply HQ; auto.
  - intros k Hn. cbn beta. destruct (length d <=? k)%nat; auto.
Qed.
Lemma wp_set_len n (Q : unit -> fh -> Prop) (E : fh -> Prop) h :
  fok h -> n < max_file ->
  (forall h', fok h' -> h_file h' = f_set_len (h_file h) n -> Q tt h') ->
  (nf = false -> E h) -> (nf = false -> forall h', h_file h' = f_set_len (h_file h) n -> E h') ->
  wp (h_set_len n) Q E h.
Proof.
  intros F L HQ HE HE'. unfold h_set_len, wp. apply N.ltb_lt in L. rewrite L.
  match goal with |- match with_tick ?b ?m h with _ => _ end => change (wp (with_tick b m) Q E h) end.
  apply wp_tick; auto.
  - intros h' F' Hf Hp. unfold wp. rewrite Hf. apply HQ; auto.
  - intros k Hn. cbn beta. destruct (1 <=? k)%nat; auto.
Qed.
Lemma wp_nop (Q : unit -> fh -> Prop) (E : fh -> Prop) h :
  fok h ->
  (forall h', fok h' -> h_file h' = h_file h -> h_pos h' = h_pos h -> Q tt h') ->
  (nf = false -> E h) -> wp h_nop Q E h.
Proof. intros F HQ HE. apply wp_tick; auto. Qed.
End Fh.

(** Checked arithmetic that does not overflow. *)
Lemma u_add_ok dbg a b : a + b < u64_max -> u_add dbg a b = Ok (a + b).
Proof. intros H. unfold u_add. apply N.ltb_lt in H. now rewrite H. Qed.
Lemma u_sub_ok dbg a b : b <= a -> u_sub dbg a b = Ok (a - b).
Proof. intros H. unfold u_sub. apply N.leb_le in H. now rewrite H. Qed.
Lemma u_mul_ok dbg a b : a * b < u64_max -> u_mul dbg a b = Ok (a * b).
Proof. intros H. unfold u_mul. apply N.ltb_lt in H. now rewrite H. Qed.
Lemma u_div_ok a b : b <> 0 -> u_div a b = Ok (a / b).
Proof. intros H. unfold u_div. apply N.eqb_neq in H. now rewrite H. Qed.
Lemma u_mod_ok a b : b <> 0 -> u_mod a b = Ok (a mod b).
Proof. intros H. unfold u_mod. apply N.eqb_neq in H. now rewrite H. Qed.
(** In a release build arithmetic never panics. *)
Lemma u_add_rel a b : a < u64_max -> b < u64_max -> exists c, u_add false a b = Ok c /\ c < u64_max.
Proof.
  intros Ha Hb. unfold u_add. destruct (N.ltb_spec (a + b) u64_max) as [H|H]; eexists; (split; [reflexivity|]); auto.
  apply N.mod_lt. discriminate.
Qed.
Lemma u_sub_rel a b : a < u64_max -> b < u64_max -> exists c, u_sub false a b = Ok c /\ c < u64_max.
Proof.
  intros Ha Hb. unfold u_sub. destruct (N.leb_spec b a) as [H|H]; eexists; (split; [reflexivity|]); lia.
Qed.
