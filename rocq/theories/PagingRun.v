(** Proofs about whole histories of a paging file. *)
From Verif Require Import Base BaseLemmas Header Node Store StoreProofs U64 File FileProofs Chunk WebFile WebProofs
  Paging PagingSpec PagingProofs PagingTop.
Local Open Scope N_scope.

Section Run.
Context (D : dev) (any ex : bool) (inv : dv D -> file -> Prop) (ps : N).
Context (HD : file_dev D any inv) (Hex : ex = true -> exact_length D inv) (Hmode : any = true \/ ex = true).
Context (Hps : page_size_ok ps).
Notation state_inv := (state_inv D any ex inv ps).

Lemma step_ok c s l r s' : state_inv s l -> size_ok ps c -> any = true \/ no_sync c ->
  pstep D ps c s = (r, s') -> right ex l c r /\ state_inv s' (note c r l).
Proof.
  intros (F & HI & HS) Hc Hn E. destruct s as [s om]. cbn [fst snd] in *.
  destruct c as [d|id| |]; cbn [pstep] in E.
  - destruct om as [m|].
    2: { cbn [on_open snd] in E. injection E as <- <-. split; [now left|]. exists F. auto. }
    unfold on_open in E. cbn [fst snd] in E. unfold wbind at 1 in E.
    destruct (p_append_lp D ps d (s, m)) as [q g] eqn:Ea.
    apply (wp_elim _ _ _ _ _ _ (append_spec D any ex inv ps HD Hps F m l s d HI HS Hc)) in Ea
      as [(n & -> & F' & HI' & HP')|(-> & F' & HI' & HP')]; unfold wret in E; injection E as <- <-.
    + split; [right; eauto|]. exists F'. auto.
    + split; [now left|]. exists F'. auto.
  - destruct om as [m|].
    2: { cbn [on_open snd] in E. injection E as <- <-. destruct HS as [Hf HS]. split; [|exists F; split; [exact HI|split; [exact Hf|exact HS]]].
         intros d. rewrite Hf. split; [intros []|intros _ _; now right]. }
    unfold on_open in E. cbn [fst snd] in E. unfold wbind at 1 in E.
    destruct (p_load D ps id (s, m)) as [q g] eqn:Ea.
    destruct (load_spec D any ex inv ps HD Hps _ _ _ _ _ _ _ HI HS Ea) as (HI' & HP' & K).
    assert (state_inv (fst g, Some (snd g)) l) as Hst by (exists F; auto).
    destruct q as [x| | |]; unfold wret in E; injection E as <- <-; (split; [|exact Hst]);
      intros d; destruct (K d) as (K1 & K2 & _); split; intros H.
    all: try (specialize (K1 H); congruence).
    all: intros H'; destruct (K2 H H') as [K3|K3]; first [discriminate|left; congruence|now right].
  - destruct om as [m|].
    2: { cbn [on_open snd] in E. injection E as <- <-. split; [now left|]. exists F. auto. }
    destruct Hn as [Ha|[]].
    unfold on_open in E. cbn [fst snd] in E. unfold wbind at 1 in E.
    destruct (p_sync D ps (s, m)) as [q g] eqn:Ea.
    apply (wp_elim _ _ _ _ _ _ (sync_spec D any ex inv ps HD Hps F m l s HI HS Ha)) in Ea
      as [(n & -> & F' & HI' & HP')|(-> & F' & HI' & HP')]; unfold wret in E; injection E as <- <-.
    + split; [now right|]. exists F'. auto.
    + split; [now left|]. exists F'. auto.
  - assert (idle any ex ps F l) as Hidle.
    { destruct om as [m|]; [eapply pinv_idle; eassumption|apply HS]. }
    cbn [fst] in E. unfold wbind at 1 in E. destruct (dv_open D s) as [q s1] eqn:Eo.
    destruct (fd_open _ _ _ HD _ _ _ _ HI Eo) as [HI1 [->| ->]].
    + destruct (p_new D ps s1) as [q s2] eqn:En.
      apply (wp_elim _ _ _ _ _ _ (new_spec D any ex inv ps HD Hex Hmode Hps F l s1 HI1 Hidle)) in En
        as [(m & -> & HI2 & HP)|(-> & HI2)]; injection E as <- <-.
      * split; [now right|]. exists F. auto.
      * split; [now left|]. exists F. cbn [fst snd note]. split; [exact HI2|]. split; [reflexivity|exact Hidle].
    + injection E as <- <-. split; [now left|]. exists F. cbn [fst snd note]. split; [exact HI1|]. split; [reflexivity|exact Hidle].
Qed.

Lemma run_ok cs : forall s l rs s', state_inv s l -> Forall (size_ok ps) cs -> any = true \/ Forall no_sync cs ->
  prun D ps cs s = (rs, s') -> all_right ex l cs rs /\ state_inv s' (notes cs rs l).
Proof.
  induction cs as [|c cs IH]; intros s l rs s' HS Hc Hn E; cbn [prun] in E.
  - injection E as <- <-. split; [exact Logic.I|exact HS].
  - destruct (pstep D ps c s) as [r s1] eqn:E1. destruct (prun D ps cs s1) as [rs2 s2] eqn:E2. injection E as <- <-.
    inversion Hc as [|? ? Hc1 Hc2]; subst.
    assert (any = true \/ no_sync c) as Hn1 by (destruct Hn as [H|H]; [now left|right; now inversion H]).
    assert (any = true \/ Forall no_sync cs) as Hn2 by (destruct Hn as [H|H]; [now left|right; now inversion H]).
    destruct (step_ok _ _ _ _ _ HS Hc1 Hn1 E1) as [R S1].
    destruct (IH _ _ _ _ S1 Hc2 Hn2 E2) as [R2 S2]. cbn [all_right notes]. auto.
Qed.

Lemma load_now s l id d good : state_inv s l -> readable D inv good -> good (fst s) -> snd s <> None ->
  In (id, d) (fresh l) \/ ex = true /\ In (id, d) (saved l) ->
  fst (pstep D ps (PLoad id) s) = Ok (OData d).
Proof.
  intros (F & HI & HS) Hr Hg Ho Hin. destruct s as [s om]. cbn [fst snd] in *. destruct om as [m|]; [|congruence].
  cbn [pstep on_open snd fst]. unfold on_open. cbn [fst snd]. unfold wbind at 1.
  destruct (p_load D ps id (s, m)) as [q g] eqn:Ea.
  destruct (load_spec D any ex inv ps HD Hps _ _ _ _ _ _ _ HI HS Ea) as (_ & _ & K).
  destruct (K d) as (_ & _ & K3). rewrite K3; [reflexivity|exact Hin|].
  intros a b Hab Hb. destruct (Hr s F a b HI Hg Hab Hb) as (s' & x & Ex). eauto.
Qed.
End Run.

Lemma pinv_any ps ex any F m l : pinv ps any ex F m l -> pinv ps true ex F m l.
Proof. intros [H1 H2 H3 H4 H5 H6]. constructor; auto. Qed.

Lemma all_right_app durable cs1 : forall l rs1 cs2 rs2, all_right durable l cs1 rs1 ->
  all_right durable (notes cs1 rs1 l) cs2 rs2 -> all_right durable l (cs1 ++ cs2) (rs1 ++ rs2).
Proof.
  induction cs1 as [|c cs1 IH]; intros l rs1 cs2 rs2 H1 H2; destruct rs1 as [|r rs1]; try contradiction; cbn in *; [exact H2|].
  destruct H1 as [H1 H1']. split; [exact H1|]. now apply IH.
Qed.
Lemma notes_app cs1 : forall l rs1 cs2 rs2, length cs1 = length rs1 ->
  notes (cs1 ++ cs2) (rs1 ++ rs2) l = notes cs2 rs2 (notes cs1 rs1 l).
Proof.
  induction cs1 as [|c cs1 IH]; intros l rs1 cs2 rs2 H; destruct rs1 as [|r rs1]; try discriminate; cbn in *; [reflexivity|].
  apply IH. lia.
Qed.
Lemma prun_app D ps cs1 : forall cs2 s, prun D ps (cs1 ++ cs2) s =
  let (rs1, s1) := prun D ps cs1 s in let (rs2, s2) := prun D ps cs2 s1 in (rs1 ++ rs2, s2).
Proof.
  induction cs1 as [|c cs1 IH]; intros cs2 s; cbn [app prun].
  - now destruct (prun D ps cs2 s).
  - destruct (pstep D ps c s) as [r s1]. rewrite IH. destruct (prun D ps cs1 s1) as [rs1 s2].
    now destruct (prun D ps cs2 s2).
Qed.
Lemma prun_length D ps cs : forall s rs s', prun D ps cs s = (rs, s') -> length cs = length rs.
Proof.
  induction cs as [|c cs IH]; intros s rs s' E; cbn [prun] in E; [now injection E as <- <-|].
  destruct (pstep D ps c s) as [r s1]. destruct (prun D ps cs s1) as [rs2 s2] eqn:E2. injection E as <- <-.
  cbn. f_equal. eauto.
Qed.

(** Any file. *)
Theorem paging_history D ex inv ps : file_dev D true inv -> (ex = true -> exact_length D inv) -> page_size_ok ps ->
  forall s F cs rs s', inv s F -> Forall (size_ok ps) cs -> prun D ps cs (s, None) = (rs, s') ->
  all_right ex (Ledger [] []) cs rs /\
  forall good, readable D inv good -> good (fst s') -> snd s' <> None -> forall id d,
    let l := notes cs rs (Ledger [] []) in
    In (id, d) (fresh l) \/ ex = true /\ In (id, d) (saved l) ->
    fst (pstep D ps (PLoad id) s') = Ok (OData d).
Proof.
  intros HD Hex Hps s F cs rs s' HI Hc E.
  assert (state_inv D true ex inv ps (s, None) (Ledger [] [])) as S0.
  { exists F. split; [exact HI|]. split; [reflexivity|]. split; [now left|intros _ n d []]. }
  destruct (run_ok D true ex inv ps HD Hex (or_introl eq_refl) Hps cs _ _ _ _ S0 Hc (or_introl eq_refl) E) as [A S1].
  split; [exact A|]. intros good Hr Hg Ho id d l Hin.
  apply (load_now D true ex inv ps HD Hps s' l id d good); auto.
Qed.

(** Files that are only written at the end: histories that sync once, at the end. *)
Definition read_only (D : dev) : dev := {|
  dv := dv D; dv_length := dv_length D; dv_read := dv_read D; dv_write := fun _ _ => wret Err; dv_open := dv_open D
|}.
Lemma read_only_step D ps c s : only_reads c -> pstep (read_only D) ps c s = pstep D ps c s.
Proof. destruct c; try contradiction; reflexivity. Qed.
Lemma read_only_run D ps cs : forall s, Forall only_reads cs -> prun (read_only D) ps cs s = prun D ps cs s.
Proof.
  induction cs as [|c cs IH]; intros s H; [reflexivity|]. inversion H; subst. cbn [prun].
  rewrite read_only_step by assumption. destruct (pstep D ps c s) as [r s1]. now rewrite IH.
Qed.
Lemma read_only_dev D any inv : file_dev D any inv -> file_dev (read_only D) true inv.
Proof.
  intros [H1 H2 H3 H4 H5]. constructor; cbn; auto.
  intros s F o d r s' HI _ E. unfold wret in E. injection E as <- <-. exists F. auto.
Qed.

(** A sync and then only reads, on a file that is only written at the end. *)
Lemma sync_then_read D inv ps : file_dev D false inv -> exact_length D inv -> page_size_ok ps ->
  forall s l cs rs r s', state_inv D false true inv ps s l -> Forall only_reads cs ->
  prun D ps (PSync :: cs) s = (r :: rs, s') ->
  all_right true l (PSync :: cs) (r :: rs) /\
  state_inv (read_only D) true true inv ps s' (notes cs rs (note PSync r l)).
Proof.
  intros HD Hex Hps s1 l1 cs2 rs3 r s3 S1 Hr E.
  cbn [prun] in E. destruct (pstep D ps PSync s1) as [r' s2] eqn:E2.
  destruct (prun D ps cs2 s2) as [rs' s'] eqn:E3. injection E as -> -> ->.
  assert (right true l1 PSync r /\ state_inv (read_only D) true true inv ps s2 (note PSync r l1)) as [A2 S2].
  { destruct S1 as (F1 & HI1 & HS1). destruct s1 as [s1 om]. cbn [fst snd] in *. cbn [pstep] in E2. destruct om as [m|].
    2: { cbn [on_open snd] in E2. injection E2 as <- <-. split; [now left|]. exists F1. cbn [fst snd note].
         split; [exact HI1|]. destruct HS1 as [Hf [_ Hi]]. split; [exact Hf|]. split; [now left|exact Hi]. }
    unfold on_open in E2. cbn [fst snd] in E2. unfold wbind at 1 in E2.
    destruct (p_sync D ps (s1, m)) as [q g] eqn:Ea.
    pose proof (start_bounds ps Hps (p_len m)) as Bm.
    assert (wp (p_sync D ps) (fun _ s' => exists F', inv (fst s') F' /\ pinv ps true true F' (snd s') (Ledger (fresh l1) (fresh l1 ++ saved l1)))
      (fun s' => exists F', inv (fst s') F' /\ pinv ps true true F' (snd s') l1) (s1, m)) as W.
    { apply (sync_pre D false true inv ps HD Hps F1 m l1); [exact HI1|exact HS1|].
      apply wp_dev. cbn [fst snd]. apply wp_intro. intros r0 s10 E10.
      assert (false = true \/ start ps (p_len m) = f_len F1) as Hmay.
      { right. destruct (pi_mode _ _ _ _ _ _ HS1) as [H|H]; [discriminate|now symmetry]. }
      apply pinv_any in HS1.
      destruct (fd_write _ _ _ HD _ _ _ _ _ _ HI1 Hmay E10) as (F' & HI' & [[-> ->]|[-> H]]).
      - left. exists tt. split; [reflexivity|]. eexists. split; [exact HI'|]. apply (pinv_sync ps Hps); [exact HS1|reflexivity|lia].
      - right. split; [reflexivity|]. exists F'. split; [exact HI'|]. destruct H as [->|[H _]]; [exact HS1|discriminate]. }
    apply (wp_elim _ _ _ _ _ _ W) in Ea as [(n & -> & F' & HI' & HP')|(-> & F' & HI' & HP')]; unfold wret in E2; injection E2 as <- <-.
    - split; [now right|]. exists F'. auto.
    - split; [now left|]. exists F'. auto. }
  pose proof (read_only_dev _ _ _ HD) as HD2.
  rewrite <- read_only_run in E3 by exact Hr.
  assert (Forall (size_ok ps) cs2) as Hc2 by (eapply Forall_impl; [|exact Hr]; intros []; cbn; tauto).
  destruct (run_ok (read_only D) true true inv ps HD2 (fun _ => Hex) (or_introl eq_refl) Hps cs2 _ _ _ _ S2 Hc2 (or_introl eq_refl) E3) as [A3 S3].
  split; [cbn [all_right]; auto|exact S3].
Qed.

Theorem paging_once D inv ps : file_dev D false inv -> exact_length D inv -> page_size_ok ps ->
  forall s F cs cs2 rs s', inv s F -> f_len F mod ps = 0 ->
  Forall (size_ok ps) cs -> Forall no_sync cs -> Forall only_reads cs2 ->
  prun D ps (cs ++ PSync :: cs2) (s, None) = (rs, s') ->
  all_right true (Ledger [] []) (cs ++ PSync :: cs2) rs /\
  forall good, readable D inv good -> good (fst s') -> snd s' <> None -> forall id d,
    In (id, d) (saved (notes (cs ++ PSync :: cs2) rs (Ledger [] []))) ->
    fst (pstep D ps (PLoad id) s') = Ok (OData d).
Proof.
  intros HD Hex Hps s F cs cs2 rs s' HI Hal Hc Hn Hr E.
  assert (state_inv D false true inv ps (s, None) (Ledger [] [])) as S0.
  { exists F. split; [exact HI|]. split; [reflexivity|]. split; [right|intros _ n d []].
    pose proof (ps_bounds ps Hps). unfold start. pose proof (N.div_mod (f_len F) ps) as Ed. rewrite Hal in Ed. lia. }
  rewrite prun_app in E. destruct (prun D ps cs (s, None)) as [rs1 s1] eqn:E1.
  destruct (run_ok D false true inv ps HD (fun _ => Hex) (or_intror eq_refl) Hps cs _ _ _ _ S0 Hc (or_intror Hn) E1) as [A1 S1].
  destruct (prun D ps (PSync :: cs2) s1) as [rs2 s2] eqn:E2. injection E as <- <-.
  assert (exists r rs3, rs2 = r :: rs3) as (r & rs3 & ->).
  { apply prun_length in E2. destruct rs2; [discriminate|eauto]. }
  set (l1 := notes cs rs1 (Ledger [] [])) in *.
  destruct (sync_then_read D inv ps HD Hex Hps s1 l1 cs2 rs3 r s2 S1 Hr E2) as [A2 S2].
  split.
  - apply all_right_app; [exact A1|]. exact A2.
  - intros good Hg1 Hg2 Ho id d Hin. rewrite notes_app in Hin by (now apply (prun_length D ps cs (s, None) rs1 s1)).
    fold l1 in Hin. cbn [notes] in Hin. rewrite <- read_only_step by exact Logic.I.
    apply (load_now (read_only D) true true inv ps (read_only_dev _ _ _ HD) Hps s2 _ id d good S2); auto.
Qed.
