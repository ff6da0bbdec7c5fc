(** Proofs about histories of a file in the browser cache. *)
From Coq Require Import Sorted.
From Verif Require Import Base BaseLemmas Header Node Store U64 File Chunk ChunkProofs WebFile WebProofs WebPlans WebSpec.
Local Open Scope N_scope.

Definition view (F : file) (x : N) : byte := if x <? f_len F then f_at F x else x00.
Definition rep (f : wfile) (F : file) : Prop := state_ok (view F) (f_len F) f.

Lemma state_ok_ext V V' B f : (forall x, V x = V' x) -> state_ok V B f -> state_ok V' B f.
Proof. intros H (A & C & D). split; [exact A|]. split; [|exact D]. intros x. now rewrite <- H. Qed.
Lemma rep_new : rep new_web_file empty_file.
Proof.
  split; [|split].
  - constructor; cbn; [constructor|tauto|discriminate].
  - intros x. unfold view. cbn. now destruct x.
  - intros c [].
Qed.
Lemma rep_faults t f F : rep f F -> rep (with_faults t f) F.
Proof. apply same_ok. now split. Qed.
Lemma view_write F o d x : view (f_write F o d) x = over o d (view F) x.
Proof.
  unfold view, over, f_write. cbn [f_len f_at].
  destruct (N.leb_spec o x) as [A|A], (N.ltb_spec x (o + N.of_nat (length d))) as [B|B]; cbn [andb].
  - assert (x <? N.max (f_len F) (o + N.of_nat (length d)) = true) as -> by (apply N.ltb_lt; lia). reflexivity.
  - destruct (N.ltb_spec x (f_len F)) as [C|C].
    + assert (x <? N.max (f_len F) (o + N.of_nat (length d)) = true) as -> by (apply N.ltb_lt; lia). reflexivity.
    + now destruct (_ <? N.max _ _).
  - destruct (N.ltb_spec x (f_len F)) as [C|C].
    + assert (x <? N.max (f_len F) (o + N.of_nat (length d)) = true) as -> by (apply N.ltb_lt; lia). reflexivity.
    + now destruct (_ <? N.max _ _).
  - lia.
Qed.
Lemma view_cut F n x : view (f_set_len F (N.min n (f_len F))) x = cut n (view F) x.
Proof.
  unfold view, cut, f_set_len. cbn [f_len f_at].
  destruct (N.ltb_spec x n) as [A|A], (N.ltb_spec x (f_len F)) as [B|B];
    [assert (x <? N.min n (f_len F) = true) as -> by (apply N.ltb_lt; lia); reflexivity| | |];
    (assert (x <? N.min n (f_len F) = false) as -> by (apply N.ltb_ge; lia)); reflexivity.
Qed.

Lemma sum_ok_cases a b : sum_ok a b = Ok tt \/ sum_ok a b = Panic /\ u64_max <= a + b.
Proof. unfold sum_ok. destruct (N.ltb_spec (a + b) u64_max); [now left|now right]. Qed.

Lemma add_effect o d f F q g : rep f F -> execute_plan (add (w_chunks f) o d) f = (q, g) ->
  q = Err /\ (exists F', (F' = F \/ F' = f_write F o d) /\ rep g F') \/
  q = Ok tt /\ rep g (f_write F o d).
Proof.
  intros R E. apply (write_ok _ _ _ _ _ _ _ R) in E as (G & E).
  assert (state_ok (over o d (view F)) (N.max (f_len F) (o + N.of_nat (length d))) g -> rep g (f_write F o d)) as K.
  { intros H. unfold rep. cbn [f_write f_len]. eapply state_ok_ext; [|exact H].
    intros x. symmetry. apply (view_write F o d x). }
  destruct G as [->|([] & ->)].
  - left. split; [reflexivity|]. destruct E as [[_ E]|E]; [exists F|exists (f_write F o d)]; auto.
  - right. split; [reflexivity|]. destruct E as [[F' _]|E]; [discriminate|auto].
Qed.

Lemma step_effect c f F r f' : rep f F -> step c f = (r, f') -> exists F', effect (fst c) r F F' /\ rep f' F'.
Proof.
  destruct c as [c t]. intros R E. unfold step in E. cbn [fst snd] in *.
  apply (rep_faults t) in R. set (f0 := with_faults t f) in *. clearbody f0. clear f t.
  destruct c as [o d|d|n|].
  - apply wbind_inv in E as (q1 & g1 & E1 & E). unfold wf_write in E1.
    apply wbind_inv in E1 as (q2 & g2 & E2 & E1). apply wret_inv in E2 as [-> ->].
    destruct (sum_ok_cases o (N.of_nat (length d))) as [S|[S Ho]]; rewrite S in E1.
    + destruct E1 as [(u & _ & E1)|[(? & _)|[(? & _)|(? & _)]]]; try discriminate.
      apply (add_effect _ _ _ _ _ _ R) in E1 as [(-> & F' & HF & R')|(-> & R')].
      * destruct E as [(? & ? & _)|[(_ & -> & ->)|[(? & _)|(? & _)]]]; try discriminate.
        exists F'. split; [now constructor|exact R'].
      * destruct E as [(? & _ & E)|[(? & _)|[(? & _)|(? & _)]]]; try discriminate.
        apply wret_inv in E as [-> ->]. eexists. split; [constructor|exact R'].
    + destruct E1 as [(? & ? & _)|[(? & _)|[(_ & -> & ->)|(? & _)]]]; try discriminate.
      destruct E as [(? & ? & _)|[(? & _)|[(_ & -> & ->)|(? & _)]]]; try discriminate.
      exists F. split; [now apply E_overflow|exact R].
  - apply wbind_inv in E as (q1 & g1 & E1 & E). unfold wf_append in E1.
    set (o := snd (crange (prev (w_chunks f0)))) in *.
    assert (o <= f_len F) as Ho by (apply length_le; apply R).
    apply wbind_inv in E1 as (q2 & g2 & E2 & E1). apply wret_inv in E2 as [-> ->].
    destruct (sum_ok_cases o (N.of_nat (length d))) as [S|[S Hs]]; rewrite S in E1.
    + destruct E1 as [(u & _ & E1)|[(? & _)|[(? & _)|(? & _)]]]; try discriminate.
      apply wbind_inv in E1 as (q2 & g2 & E2 & E1).
      apply (add_effect _ _ _ _ _ _ R) in E2 as [(-> & F' & HF & R')|(-> & R')].
      * destruct E1 as [(? & ? & _)|[(_ & -> & ->)|[(? & _)|(? & _)]]]; try discriminate.
        destruct E as [(? & ? & _)|[(_ & -> & ->)|[(? & _)|(? & _)]]]; try discriminate.
        exists F'. split; [now apply (E_append_failed F F' o)|exact R'].
      * destruct E1 as [(? & _ & E1)|[(? & _)|[(? & _)|(? & _)]]]; try discriminate.
        apply wret_inv in E1 as [-> ->].
        destruct E as [(? & E0 & E)|[(? & _)|[(? & _)|(? & _)]]]; try discriminate. injection E0 as <-.
        apply wret_inv in E as [-> ->]. eexists. split; [now constructor|exact R'].
    + destruct E1 as [(? & ? & _)|[(? & _)|[(_ & -> & ->)|(? & _)]]]; try discriminate.
      destruct E as [(? & ? & _)|[(? & _)|[(_ & -> & ->)|(? & _)]]]; try discriminate.
      exists F. split; [apply E_overflow; lia|exact R].
  - apply wbind_inv in E as (q1 & g1 & E1 & E). unfold wf_truncate in E1.
    apply (truncate_ok _ _ _ _ _ _ R) in E1 as (_ & [(-> & V' & HP & K)|(-> & K)]).
    + destruct E as [(? & ? & _)|[(_ & -> & ->)|[(? & _)|(? & _)]]]; try discriminate.
      exists (File (f_len F) (fun x => if x <? f_len F then V' x else f_at F x)). split.
      * apply E_truncate_failed; [reflexivity|]. intros x. cbn [f_at].
        destruct (N.ltb_spec x (f_len F)) as [A|A]; [|now left].
        destruct (HP x) as [Hx|Hx]; [|now right]. left. rewrite Hx. unfold view.
        assert (x <? f_len F = true) as -> by (now apply N.ltb_lt). reflexivity.
      * unfold rep. cbn [f_len]. eapply state_ok_ext; [|exact K]. intros x. unfold view. cbn [f_len f_at].
        destruct (N.ltb_spec x (f_len F)) as [A|A]; [reflexivity|].
        destruct (HP x) as [Hx|[_ Hx]]; [|exact Hx]. rewrite Hx. unfold view.
        assert (x <? f_len F = false) as -> by (now apply N.ltb_ge). reflexivity.
    + destruct E as [(? & _ & E)|[(? & _)|[(? & _)|(? & _)]]]; try discriminate.
      apply wret_inv in E as [-> ->]. eexists. split; [constructor|].
      unfold rep. cbn [f_set_len f_len]. eapply state_ok_ext; [|exact K].
      intros y. symmetry. apply (view_cut F n y).
    + intros x Hx. unfold view. assert (x <? f_len F = false) as -> by (now apply N.ltb_ge). reflexivity.
  - apply wbind_inv in E as (q1 & g1 & E1 & E).
    apply open_same in E1 as [S G]; [|apply R]. destruct G as [->|(u & ->)].
    + destruct E as [(? & ? & _)|[(_ & -> & ->)|[(? & _)|(? & _)]]]; try discriminate.
      exists F. split; [constructor; now right|now apply (same_ok _ _ f0)].
    + destruct E as [(? & _ & E)|[(? & _)|[(? & _)|(? & _)]]]; try discriminate.
      apply wret_inv in E as [-> ->]. exists F. split; [constructor; now left|now apply (same_ok _ _ f0)].
Qed.

Lemma rep_shows f F : rep f F -> shows f F.
Proof.
  intros R. split.
  - intros t s e Hse. unfold read_now. destruct (wf_read (s, e) (with_faults t f)) as [q g] eqn:E.
    apply (read_spec (view F) (f_len F)) in E as (_ & G & D); [|now apply rep_faults|exact Hse].
    cbn [fst]. destruct G as [->|(out & ->)]; [now left|right]. destruct (D out eq_refl) as [D1 D2].
    split; [|exact D1]. f_equal. rewrite D2. unfold f_read. apply map_ext_in. intros i Hi.
    apply in_seq in Hi. unfold view. assert (s + N.of_nat i <? f_len F = true) as -> by (apply N.ltb_lt; lia). reflexivity.
  - eexists. split; [reflexivity|]. apply length_le. apply R.
Qed.

Lemma run_effects cs : forall f F rs f', rep f F -> run cs f = (rs, f') ->
  exists F', effects (map fst cs) rs F F' /\ rep f' F'.
Proof.
  induction cs as [|c cs IH]; intros f F rs f' R E; cbn [run] in E.
  - injection E as <- <-. exists F. split; [constructor|exact R].
  - destruct (step c f) as [r f1] eqn:E1. destruct (run cs f1) as [rs' f2] eqn:E2.
    injection E as <- <-. destruct (step_effect _ _ _ _ _ R E1) as (F1 & H1 & R1).
    destruct (IH _ _ _ _ R1 E2) as (F2 & H2 & R2). exists F2. split; [|exact R2].
    cbn [map]. econstructor; eassumption.
Qed.
Lemma run_new cs rs f : run cs new_web_file = (rs, f) -> exists F, effects (map fst cs) rs empty_file F /\ rep f F.
Proof. apply run_effects, rep_new. Qed.

Lemma effects_snoc cs : forall rs F F' F'' c r, effects cs rs F F' -> effect c r F' F'' ->
  effects (cs ++ [c]) (rs ++ [r]) F F''.
Proof.
  induction cs as [|a cs IH]; intros rs F F' F'' c r H1 H2; inversion H1; subst; cbn [app].
  - econstructor; [exact H2|constructor].
  - econstructor; [eassumption|]. eapply IH; eassumption.
Qed.

(** ** Reads that succeed *)
Lemma load_range_nofault c r f d : cache_match c (w_cache f) = Some d -> fst r < i32_lim -> snd r < i32_lim ->
  w_faults f = [] -> load_range c r f = (Ok (js_slice d (fst r) (snd r)), f).
Proof.
  intros H H1 H2 Hf. unfold load_range, js. rewrite Hf. cbn [tl w_cache]. rewrite H. unfold to_i32.
  apply N.ltb_lt in H1, H2. rewrite H1, H2. cbn [bind]. destruct f; cbn in *. now subst.
Qed.
Lemma load_loop_accepts f s e B : wf f -> ends B f -> B < i32_lim -> e <= B -> s <= e -> w_faults f = [] ->
  forall cs buf, (forall c, In c cs -> In c (w_chunks f) /\ overlap (crange c) (s, e) = true) ->
  N.of_nat (length buf) = e - s ->
  exists out, load_loop (s, e) cs buf f = (Ok out, f).
Proof.
  intros W HB HL He Hse Hf. induction cs as [|c cs IH]; intros buf Hcs Hb; cbn [load_loop]; [eexists; reflexivity|].
  destruct (Hcs c (or_introl eq_refl)) as [Hin Hov]. pose proof (HB c Hin) as Hc.
  assert (Hlim : i32_lim < usize_lim /\ usize_lim < i64_lim) by (split; reflexivity).
  unfold wbind, wret. cbv beta. rewrite ranges_eq; [|cbn [crange fst snd]; lia..|exact Hov].
  cbv beta iota. cbn [fst snd crange].
  destruct (cache_match c (w_cache f)) as [d|] eqn:Em.
  2: { apply (wf_keys _ W) in Hin. contradiction. }
  apply overlap_iff in Hov. cbn [crange fst snd] in Hov.
  rewrite (load_range_nofault c _ f d Em); [|cbn [fst snd]; lia..|exact Hf]. cbv beta iota. cbn [fst snd].
  pose proof (wf_len _ W _ _ Em) as Hl.
  destruct (copy_to _ buf _) as [buf'| | |] eqn:Ec.
  - apply IH; [intros; apply Hcs; now right|]. apply copy_spec in Ec as [Ec _]. unfold bytes in *. lia.
  - exfalso. revert Ec. unfold copy_to. now destruct (_ && _).
  - exfalso. revert Ec. unfold copy_to. cbn [fst snd].
    match goal with |- (if ?b then _ else _) = _ -> _ => assert (b = true) as ->; [|discriminate] end.
    rewrite !andb_true_iff, !N.leb_le, N.eqb_eq. unfold js_slice. rewrite firstn_length, skipn_length. lia.
  - exfalso. revert Ec. unfold copy_to. now destruct (_ && _).
Qed.
Lemma read_accepts f F s e : rep f F -> f_len F < i32_lim -> s <= e ->
  length_now f = Ok e \/ (exists n, length_now f = Ok n /\ e <= n) ->
  read_now f [] s e = Ok (f_read F s (N.to_nat (e - s))).
Proof.
  intros R HL Hse He.
  assert (exists n, length_now f = Ok n /\ e <= n) as (n & Hn & Hen) by (destruct He as [He|He]; [exists e; split; [exact He|lia]|exact He]).
  unfold length_now, wf_length in Hn. cbn [fst] in Hn. injection Hn as <-.
  destruct (rep_shows f F R) as [Sh _]. destruct (Sh [] s e Hse) as [A|[A _]]; [|exact A]. exfalso.
  revert A. unfold read_now, wf_read. cbn [fst snd].
  pose proof (rep_faults [] f F R) as (W & HV & HB). set (f0 := with_faults [] f) in *.
  pose proof (length_le _ _ HB) as HLe.
  change (w_chunks f) with (w_chunks f0) in Hen.
  assert (Hlim : i32_lim < usize_lim) by reflexivity. cbn [crange snd] in HLe.
  unfold wbind, wret, to_usize. cbv beta.
  assert (e - s <? usize_lim = true) as Hu by (apply N.ltb_lt; lia). rewrite Hu.
  cbv beta iota.
  assert (e <=? snd (crange (prev (w_chunks f0))) = true) as -> by (now apply N.leb_le).
  cbv beta iota. unfold read_raw, load_chunks, wbind, wret, to_usize. cbn [fst snd]. rewrite Hu.
  destruct (load_loop_accepts f0 s e (f_len F)) with (cs := intersecting (w_chunks f0) (s, e)) (buf := repeat x00 (N.to_nat (e - s))) as (out & Eo); auto.
  - lia.
  - intros c Hc. apply filter_In in Hc. exact Hc.
  - rewrite repeat_length. lia.
  - rewrite Eo. discriminate.
Qed.

(** ** Summaries *)
Lemma web_contents cs rs f : run cs new_web_file = (rs, f) ->
  exists F, effects (map fst cs) rs empty_file F /\ shows f F /\
    forall c r f', step c f = (r, f') -> exists F', effect (fst c) r F F' /\ shows f' F'.
Proof.
  intros E. destruct (run_new _ _ _ E) as (F & H & R). exists F. split; [exact H|]. split; [now apply rep_shows|].
  intros c r f' Es. destruct (step_effect _ _ _ _ _ R Es) as (F' & H' & R'). exists F'. split; [exact H'|now apply rep_shows].
Qed.
Lemma web_read_accepted cs rs f : run cs new_web_file = (rs, f) ->
  exists F, effects (map fst cs) rs empty_file F /\ shows f F /\
    (f_len F < i32_lim -> forall s e n, s <= e -> length_now f = Ok n -> e <= n ->
     read_now f [] s e = Ok (f_read F s (N.to_nat (e - s)))).
Proof.
  intros E. destruct (run_new _ _ _ E) as (F & H & R). exists F. split; [exact H|]. split; [now apply rep_shows|].
  intros HL s e n Hse Hn Hen. apply read_accepts; auto. right. eauto.
Qed.
Lemma open_shows f F r f' t : rep f F -> step (COpen, t) f = (r, f') -> rep f' F.
Proof.
  intros R E. destruct (step_effect _ _ _ _ _ R E) as (F' & H & R'). cbn [fst] in H. inversion H; subst; exact R'.
Qed.
Lemma web_atomic cs rs f o d t r f1 t2 r2 f2 : run cs new_web_file = (rs, f) ->
  step (CWrite o d, t) f = (r, f1) -> step (COpen, t2) f1 = (r2, f2) ->
  exists F, effects (map fst cs) rs empty_file F /\ shows f F /\
    (shows f2 F \/ shows f2 (f_write F o d)) /\ (r = Ok None -> shows f2 (f_write F o d)).
Proof.
  intros E E1 E2. destruct (run_new _ _ _ E) as (F & H & R). exists F. split; [exact H|]. split; [now apply rep_shows|].
  destruct (step_effect _ _ _ _ _ R E1) as (F1 & H1 & R1). pose proof (rep_shows _ _ (open_shows _ _ _ _ _ R1 E2)) as S2.
  cbn [fst] in H1. inversion H1; subst.
  - split; [now right|auto].
  - match goal with H : _ \/ _ |- _ => destruct H as [-> | ->] end; (split; [auto|discriminate]).
  - split; [auto|discriminate].
Qed.
Lemma web_append_atomic cs rs f d t r f1 t2 r2 f2 : run cs new_web_file = (rs, f) ->
  step (CAppend d, t) f = (r, f1) -> step (COpen, t2) f1 = (r2, f2) ->
  exists F o, effects (map fst cs) rs empty_file F /\ shows f F /\ o <= f_len F /\
    (shows f2 F \/ shows f2 (f_write F o d)) /\ (forall o', r = Ok (Some o') -> o' = o /\ shows f2 (f_write F o d)).
Proof.
  intros E E1 E2. destruct (run_new _ _ _ E) as (F & H & R).
  destruct (step_effect _ _ _ _ _ R E1) as (F1 & H1 & R1). pose proof (rep_shows _ _ (open_shows _ _ _ _ _ R1 E2)) as S2.
  cbn [fst] in H1. pose proof (rep_shows _ _ R) as S. inversion H1; subst.
  - exists F, o. split; [exact H|]. split; [exact S|]. split; [assumption|]. split; [auto|].
    intros o' Eo. injection Eo as <-. auto.
  - exists F, o. split; [exact H|]. split; [exact S|]. split; [assumption|]. split; [|discriminate].
    match goal with H : _ \/ _ |- _ => destruct H as [-> | ->] end; auto.
  - eexists _, 0. split; [exact H|]. split; [exact S|]. split; [apply N.le_0_l|]. split; [auto|discriminate].
Qed.
Lemma web_truncate cs rs f n t r f' : run cs new_web_file = (rs, f) -> step (CTruncate n, t) f = (r, f') ->
  exists F, effects (map fst cs) rs empty_file F /\ shows f F /\
    (r = Ok None /\ shows f' (f_set_len F (N.min n (f_len F))) \/
     r = Err /\ exists F', f_len F' = f_len F /\
       (forall x, f_at F' x = f_at F x \/ n <= x /\ f_at F' x = x00) /\ shows f' F').
Proof.
  intros E E1. destruct (run_new _ _ _ E) as (F & H & R). exists F. split; [exact H|]. split; [now apply rep_shows|].
  destruct (step_effect _ _ _ _ _ R E1) as (F1 & H1 & R1). apply rep_shows in R1. cbn [fst] in H1.
  inversion H1; subst; [now left|right|contradiction]. split; [reflexivity|]. exists F1. auto.
Qed.
