(** Proofs about files that are opened with different page sizes. *)
From Verif Require Import Base BaseLemmas Header Node Store U64 File FileProofs PagedFile PagedFileProofs PagedSpec PagedTop PagedSizesSpec.
Local Open Scope N_scope.

Section Sizes.
Context (dbg : bool).
Notation T := (fun _ : option bytes => True).

(** The blobs written so far, with the page sizes of the stores. *)
Definition entry : Type := N * bytes * bytes.
Definition kept_in (f : file) (e : entry) : Prop :=
  let '(ps, id, d) := e in
  page_size_ok ps /\ length id = 8%nat /\ vblob ps f (of_be id) d /\ of_be id <= hdr f.
Definition sinv (acks : list entry) (q : sstate) : Prop :=
  Forall (kept_in (contents (snd q))) acks /\
  exists w, match snd q with
            | Closed f => cinv 8 T w [] f
            | Opened s => page_size_ok (fst q) /\ iinv (fst q) T w [] s
            end.

Lemma hok_T ps f n : hok ps T f n.
Proof. right. left. exact Logic.I. Qed.
Lemma cinv_size ps ps' w f : 8 <= ps' -> cinv ps T w [] f -> exists w', cinv ps' T w' [] f.
Proof.
  intros L [H|(A & B & C & D & E & _)]; [exists 0; now left|].
  exists (f_len f + hdr f). right. unfold winv. split; [exact A|]. split; [exact B|].
  split; [nia|]. split; [exact D|]. split; [nia|]. split; [apply hok_T|constructor].
Qed.
Lemma keeps_kept f g l : keeps f g -> Forall (kept_in f) l -> Forall (kept_in g) l.
Proof.
  intros K H. eapply Forall_impl; [|exact H]. intros [[ps id] d] (A & A' & [B B'] & C).
  destruct (K _ _ B C) as [D E]. unfold kept_in. split; [exact A|]. split; [exact A'|]. split; [split; assumption|exact E].
Qed.
Lemma pinv_nil ps w acks p : pinv ps T w acks p -> pinv ps T w [] p.
Proof.
  intros [_ H]. split; [constructor|]. destruct p as [f|s].
  - destruct H as [[H _]|H]; [left; auto|right]. unfold winv in *. intuition.
  - unfold iinv, finv in *. intuition.
Qed.
Lemma open_refused ps p flt : ps mod 8 <> 0 -> step dbg ps p (OReopen, flt) = (Err, Closed (contents p)).
Proof.
  intros H. apply N.eqb_neq in H. unfold step. cbn [fst snd]. unfold open. rewrite H. now destruct p.
Qed.

Definition sack (ps : N) (o : sop) (r : res bytes) : list entry :=
  match o, r with SWrite d, Ok id => [(ps, id, d)] | _, _ => [] end.

Lemma sclosed acks w f : Forall (kept_in f) acks -> cinv 8 T w [] f -> forall ps, sinv acks (ps, Closed f).
Proof. intros A B ps. split; [exact A|]. exists w. exact B. Qed.

Lemma sstep_spec acks q c r q' :
  sinv acks q -> sop_ok dbg c -> sstep dbg q c = (r, q') ->
  sinv (sack (fst q') (fst c) r ++ acks) q' /\ (r = Err \/ exists a, r = Ok a) /\
  (forall id d ps d', fst c = SRead id -> r = Ok d -> In (ps, id, d') acks -> d = d') /\
  (forall d id, fst c = SWrite d -> r = Ok id -> Forall (fun e => of_be (snd (fst e)) < of_be id) acks).
Proof.
  intros [A [w I]] Hc E. destruct q as [ps p]. destruct c as [o flt]. unfold sstep in E. cbn [fst snd] in *.
  destruct o as [d|id|ps'].
  - destruct (step dbg ps p (OWrite d, flt)) as [r1 p1] eqn:E1. injection E as <- <-. cbn [fst snd].
    destruct p as [f|s].
    { injection E1 as <- <-. cbn [sack app]. split; [eapply sclosed; eassumption|]. split; [now left|]. split; discriminate. }
    destruct I as [Ho I].
    destruct (step_spec dbg ps Ho T w [] (Opened s) (OWrite d, flt) r1 p1 (conj decr_nil I) Logic.I Logic.I E1)
      as (B & C & _ & _ & D & _ & F).
    assert (exists s1, p1 = Opened s1) as [s1 ->].
    { unfold step in E1. cbn [fst snd] in E1. destruct (pf_write dbg ps d (plan flt s)). injection E1 as _ <-. eauto. }
    pose proof (keeps_kept _ _ _ D A) as A1.
    split; [|split; [exact C|split; [discriminate|]]].
    + split; cbn [fst snd contents].
      * apply Forall_app. split; [|exact A1]. destruct r1 as [id| | |]; cbn [sack]; try constructor; [|constructor].
        destruct B as [_ ((_ & _ & _ & _ & _ & B) & _)]. apply Forall_inv in B. cbn [fst snd] in B.
        destruct (step_id dbg ps _ _ _ _ d E1 eq_refl id eq_refl) as [n ->].
        unfold kept_in. rewrite to_be_length. split; [exact Ho|]. split; [reflexivity|exact B].
      * exists (w + wr (OWrite d, flt)). split; [exact Ho|]. apply pinv_nil in B. apply B.
    + intros d0 id Ed Er. injection Ed as <-. subst r1. specialize (F d id eq_refl eq_refl).
      eapply Forall_impl; [|exact A]. intros [[ps1 id1] d1] (_ & _ & _ & G). cbn [fst snd contents] in *. lia.
  - destruct (step dbg ps p (ORead id, flt)) as [r1 p1] eqn:E1. injection E as <- <-. cbn [fst snd].
    destruct p as [f|s].
    { injection E1 as <- <-. cbn [sack app]. split; [eapply sclosed; eassumption|]. split; [now left|]. split; discriminate. }
    destruct I as [Ho I].
    destruct (step_spec dbg ps Ho T w [] (Opened s) (ORead id, flt) r1 p1 (conj decr_nil I) Hc Logic.I E1)
      as (B & C & _ & _ & D & F & _).
    assert (exists s1, p1 = Opened s1) as [s1 ->].
    { unfold step in E1. cbn [fst snd] in E1. destruct (pf_read dbg ps id (plan flt s)). injection E1 as _ <-. eauto. }
    split; [|split; [exact C|split; [|discriminate]]].
    + cbn [sack app]. split; cbn [fst snd contents]; [exact (keeps_kept _ _ _ D A)|].
      eexists. split; [exact Ho|]. apply pinv_nil in B. apply B.
    + intros id0 d ps0 d' Ei Er Hin. injection Ei as <-. subst r1.
      rewrite Forall_forall in A. destruct (A _ Hin) as (_ & _ & [V _] & _). cbn [contents] in V.
      assert (of_be id + HEADER < u64_max) as Hl.
      { destruct I as ((_ & M & _) & _). destruct V as (_ & V & _). unfold HEADER, max_file, u64_max in *. lia. }
      eapply blob_unique; [|exact V]. exact (F id d eq_refl eq_refl Hl).
  - destruct (step dbg ps' p (OReopen, flt)) as [r1 p1] eqn:E1. injection E as <- <-. cbn [fst snd].
    cbn [sack app]. split; [|split; [|split; discriminate]].
    all: assert (exists w', cinv 8 T w' [] (contents p)) as [w1 C1]
      by (destruct p as [f|s]; [eauto|]; destruct I as [Ho I]; eapply (cinv_size ps); [lia|];
          exact (cinv_of_iinv ps Ho T w [] (Opened s) (conj decr_nil I))).
    all: destruct (N.eq_dec (ps' mod 8) 0) as [H8|H8];
      [|rewrite open_refused in E1 by exact H8; injection E1 as <- <-].
    2:{ eapply sclosed; eassumption. }
    3:{ now left. }
    all: assert (8 <= ps') as H8' by (destruct Hc; pose proof (N.div_mod ps' 8 ltac:(lia)); lia).
    all: assert (page_size_ok ps') as Ho by (split; [exact H8|]; split; [exact H8'|apply Hc]).
    all: destruct (cinv_size 8 ps' w1 (contents p) H8' C1) as [w2 C2].
    all: assert (step dbg ps' (Closed (contents p)) (OReopen, flt) = (r1, p1)) as E2
      by (rewrite <- E1; now destruct p).
    all: destruct (step_spec dbg ps' Ho T w2 [] (Closed (contents p)) (OReopen, flt) r1 p1 (conj decr_nil C2) Logic.I Logic.I E2)
      as (B & C & _ & _ & D & _).
    + split; cbn [fst snd]; [exact (keeps_kept _ _ _ D A)|]. apply pinv_nil in B. destruct B as [_ B].
      destruct p1 as [f1|s1]; [|eauto]. apply (cinv_size ps' 8) in B; [|lia]. exact B.
    + exact C.
Qed.

Lemma swritten_app a b : swritten (a ++ b) = swritten a ++ swritten b.
Proof.
  induction a as [|[[ps o] r] a IH]; [reflexivity|]. cbn [app swritten]. rewrite IH. now destruct o, r.
Qed.

Definition sgood (acks : list entry) (evs : list sevent) : Prop :=
  (forall pre e post, evs = pre ++ e :: post -> snd e = Err \/ exists a, snd e = Ok a) /\
  (forall pre ps id d post ps0 d0, evs = pre ++ (ps, SRead id, Ok d) :: post ->
     In (ps0, id, d0) (acks ++ swritten pre) -> d = d0) /\
  (forall pre ps d id post ps0 id0 d0, evs = pre ++ (ps, SWrite d, Ok id) :: post ->
     In (ps0, id0, d0) (acks ++ swritten pre) -> of_be id0 < of_be id).

Lemma srun_spec cs : forall acks q evs q',
  sinv acks q -> shistory dbg cs -> srun dbg q cs = (evs, q') ->
  sgood acks evs /\ (exists acks', sinv acks' q' /\ forall e, In e (acks ++ swritten evs) -> In e acks').
Proof.
  induction cs as [|c cs IH]; intros acks q evs q' I Hh E; cbn [srun] in E.
  - injection E as <- <-. split; [|exists acks; split; [exact I|]; cbn; rewrite app_nil_r; auto].
    repeat split; intros; destruct pre; discriminate.
  - destruct (sstep dbg q c) as [r q1] eqn:E1. destruct (srun dbg q1 cs) as [evs1 q2] eqn:E2. injection E as <- <-.
    inversion Hh as [|? ? Hc Hcs]; subst.
    destruct (sstep_spec acks q c r q1 I Hc E1) as (I1 & B1 & B2 & B3).
    destruct (IH _ _ _ _ I1 Hcs E2) as ((G1 & G2 & G3) & acks' & I2 & S).
    assert (swritten ((fst q1, fst c, r) :: evs1) = sack (fst q1) (fst c) r ++ swritten evs1) as Ew
      by (cbn [swritten]; destruct (fst c), r; reflexivity).
    assert (forall e pre, In e (acks ++ swritten ((fst q1, fst c, r) :: pre)) ->
              In e ((sack (fst q1) (fst c) r ++ acks) ++ swritten pre)) as Hin.
    { intros e pre H. change ((fst q1, fst c, r) :: pre) with ([(fst q1, fst c, r)] ++ pre) in H.
      rewrite swritten_app in H. apply in_app_or in H.
      rewrite <- app_assoc. apply in_or_app.
      assert (swritten [(fst q1, fst c, r)] = sack (fst q1) (fst c) r) as X by (cbn [swritten]; destruct (fst c), r; reflexivity).
      rewrite X in H. destruct H as [H|H]; [right; apply in_or_app; now left|].
      apply in_app_or in H. destruct H as [H|H]; [now left|right; apply in_or_app; now right]. }
    split; [split; [|split]|].
    + intros [|e0 pre] e post H; injection H; intros; subst; [exact B1|]. eapply G1; reflexivity.
    + intros [|e0 pre] ps id d post ps0 d0 H Hi; injection H as H1 H2.
      * cbn [swritten] in Hi. rewrite app_nil_r in Hi. eapply B2; [|eassumption|exact Hi]. assumption.
      * subst e0. eapply G2; [exact H2|]. apply Hin. exact Hi.
    + intros [|e0 pre] ps d id post ps0 id0 d0 H Hi; injection H as H1 H2.
      * cbn [swritten] in Hi. rewrite app_nil_r in Hi. specialize (B3 d id ltac:(assumption) ltac:(assumption)).
        rewrite Forall_forall in B3. exact (B3 _ Hi).
      * subst e0. eapply G3; [exact H2|]. apply Hin. exact Hi.
    + exists acks'. split; [exact I2|]. intros e He. apply S, Hin. exact He.
Qed.

Lemma snew_inv : sinv [] snew.
Proof. split; [constructor|]. exists 0. left. split; reflexivity. Qed.

Lemma sizes_kept cs evs q :
  shistory dbg cs -> srun dbg snew cs = (evs, q) ->
  (forall ps o r, In (ps, o, r) evs -> r = Err \/ exists a, r = Ok a) /\
  (forall pre ps id d post ps0 d0, evs = pre ++ (ps, SRead id, Ok d) :: post ->
     In (ps0, id, d0) (swritten pre) -> d = d0) /\
  (forall pre ps d id post ps0 id0 d0, evs = pre ++ (ps, SWrite d, Ok id) :: post ->
     In (ps0, id0, d0) (swritten pre) -> of_be id0 < of_be id) /\
  (forall ps id d, In (ps, id, d) (swritten evs) -> sread dbg (sopened dbg q ps) id = Ok d).
Proof.
  intros Hh E. destruct (srun_spec cs [] snew evs q snew_inv Hh E) as ((G1 & G2 & G3) & acks & I & S).
  split; [|split; [exact G2|split; [exact G3|]]].
  - intros ps o r H. apply in_split in H. destruct H as (a & b & H). exact (G1 _ _ _ H).
  - intros ps id d Hin. apply S in Hin. pose proof I as [A _]. rewrite Forall_forall in A.
    destruct (A _ Hin) as (Ho & Hl & _ & _). clear A.
    unfold sread, sopened. destruct (sstep dbg q (SOpen ps, None)) as [r1 q1] eqn:E1.
    assert (sop_ok dbg (SOpen ps, None)) as Hc.
    { destruct Ho as (_ & Ho). cbn. lia. }
    destruct (sstep_spec acks q (SOpen ps, None) r1 q1 I Hc E1) as (I1 & _). cbn [sack fst app] in I1. cbn [snd].
    assert (exists s1, q1 = (ps, Opened s1)) as [s1 ->].
    { destruct I as [_ [w I]]. destruct q as [ps0 p0]. cbn [snd fst] in *.
      assert (exists w', cinv 8 T w' [] (contents p0)) as [w1 C1]
      by (destruct p0 as [f|s]; [eauto|]; destruct I as [Ho' I]; eapply (cinv_size ps0); [lia|];
          exact (cinv_of_iinv ps0 Ho' T w [] (Opened s) (conj decr_nil I))).
      destruct (cinv_size 8 ps w1 (contents p0)) as [w2 C2]; [apply Ho|exact C1|].
      unfold sstep in E1. cbn [fst snd] in E1. match type of E1 with (let (_, _) := ?t in _) = _ => destruct t as [r2 p2] eqn:E2 end. injection E1 as <- <-.
      assert (step dbg ps (Closed (contents p0)) (OReopen, None) = (r2, p2)) as E3
        by (rewrite <- E2; now destruct p0).
      destruct (step_spec dbg ps Ho T w2 [] (Closed (contents p0)) (OReopen, None) r2 p2 (conj decr_nil C2) Logic.I Logic.I E3)
        as (_ & _ & _ & F & _).
      specialize (F eq_refl). cbn [fst snd] in F. destruct F as [_ [s ->]]. eauto. }
    destruct I1 as [A1 [w1 I1]]. cbn [fst snd contents] in A1, I1. destruct I1 as [_ I1].
    rewrite Forall_forall in A1. destruct (A1 _ Hin) as (_ & _ & V & _).
    unfold sstep. cbn [fst snd]. match goal with |- fst (let (_, _) := ?t in _) = _ => destruct t as [r2 p2] eqn:E2 end. cbn [fst].
    assert (op_ok dbg (ORead id, None)) as Hop.
    { split; [exact Hl|]. intros _. destruct V as [(V1 & V2 & _) _]. destruct I1 as ((_ & M & _) & _).
      unfold HEADER, max_file, u64_max in *. lia. }
    destruct (step_spec dbg ps Ho T w1 [] (Opened s1) (ORead id, None) r2 p2 (conj decr_nil I1) Hop Logic.I E2)
      as (_ & _ & _ & F & _).
    specialize (F eq_refl). cbn [fst snd] in F. destruct F as [_ F]. exact (F d V).
Qed.
End Sizes.
