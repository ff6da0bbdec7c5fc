(** Histories that delete open directories, seen from another directory. *)
From Verif Require Import Base BaseLemmas Header Node U64 File Chunk WebFile WebFs WebFsSpec WebFsSim WebFsProofs WebFsStaleSpec WebFsStale.
Local Open Scope N_scope.

Lemma effect_changes e r W W' : fs_effect e r W W' -> changes W' <= changes W + 1.
Proof. intros []; cbn; lia. Qed.
Definition changing (c : cmd) : Prop := match c with KWrite _ _ _ _ | KAppend _ _ _ | KTruncate _ _ _ => True | _ => False end.
Lemma effect_unchanged c t r W W' : ~ changing c -> fs_effect (Call c t) r W W' -> changes W' = changes W.
Proof.
  intros Hc H. inversion H; subst; try reflexivity;
    match goal with K : change _ _ _ _ _ |- _ => exfalso; apply Hc; now inversion K end.
Qed.

(** [s] is like [s1], in which deleted directories other than [d] still have their names. *)
Definition like (d : bytes) (s s1 : fs) : Prop :=
  exists D l, alike D s s1 /\ (forall x, D x = existsb (bytes_eqb x) l) /\ D d = false.
Definition Inv_but (d : bytes) (s : fs) (W : world) : Prop := exists s1, Inv s1 W /\ like d s s1.
Lemma like_call d c t s s1 r s' : like d s s1 -> fs_call c t s = (r, s') -> (forall d', c = KDeleteDir d' -> get d' (fs_dirs s) = None) ->
  exists s1', fs_call c t s1 = (r, s1') /\ like d s' s1'.
Proof.
  intros (D & l & A & H1 & H2) E Hc. destruct (call_alike _ _ _ _ _ _ _ A E Hc) as (s1' & E1 & A'). exists s1'. split; [exact E1|].
  exists D, l. auto.
Qed.
Lemma like_chunks d f s s1 : like d s s1 -> open_chunks s1 d f = open_chunks s d f.
Proof. intros (D & l & A & _). unfold open_chunks. now rewrite (al_dirs _ _ _ A). Qed.
Lemma like_obj d s s1 : like d s s1 -> obj s1 d = obj s d.
Proof. intros (D & l & A & _ & H). unfold obj. now rewrite (al_names _ _ _ A d H), (al_objs _ _ _ A). Qed.
Lemma but_restart d s W : Inv_but d s W -> exists W', Inv_but d (fs_restart s) W' /\ changes W' = changes W.
Proof.
  intros (s1 & I & D & l & A & HD & Hd).
  assert (Inv_any s (W, D)) as IA by (exists s1, l; auto).
  destruct (event_any Restart s (W, D) (Ok RUnit) (fs_restart s) IA Logic.I eq_refl) as ((W' & D') & HE & s2 & l2 & I2 & A2 & HD2).
  cbn [fst snd] in *. exists W'. inversion HE; subst. split; [|assumption]. exists s2. split; [exact I2|]. eexists _, l2.
  split; [exact A2|]. split; [exact HD2|reflexivity].
Qed.

(** Deleting another directory, open or not. *)
Lemma but_delete d d' t s W r s' : Inv_but d s W -> d' <> d -> fs_call (KDeleteDir d') t s = (r, s') ->
  exists W', Inv_but d s' W' /\ changes W' = changes W /\
    (forall f, open_chunks s' d f = open_chunks s d f) /\ obj s' d = obj s d.
Proof.
  intros (s1 & I & D & l & A & HDl & Hdd) Hne E.
  assert (Inv_any s (W, D)) as IA by (exists s1, l; auto).
  assert (fs_run [Call (KDeleteDir d') t] s = ([r], s')) as E' by (cbn [fs_run]; now rewrite E).
  destruct (event_any (Call (KDeleteDir d') t) s (W, D) r s' IA Logic.I E') as ((W' & D') & HE & s2 & l2 & I2 & A2 & HD2). cbn [fst snd] in *.
  assert (changes W' = changes W /\ D' d = false) as [HC HD'].
  { inversion HE as [? ? ? ? ? ? Hx Hy| |  |]; subst.
    - split; [|exact Hdd]. exact (effect_unchanged (KDeleteDir d') t _ _ _ (fun x => x) Hy).
    - split; [reflexivity|]. unfold upd1. now rewrite beq_neq by exact Hne.
    - auto. }
  exists W'. split; [exists s2; split; [exact I2|]; exists D', l2; auto|]. split; [exact HC|].
  assert (exists N, s' = with_names N s /\ get d N = get d (fs_names s)) as (N & -> & HN).
  { clear - E Hne. unfold fs_call in E. destruct s as [a b c u]. cbn [fs_up] in E. destruct u.
    - cbn [fs_exec] in E. destruct t as [|[] t]; cbn [fs_js] in E; injection E as _ <-; [exists (del d' b)|exists b|exists (del d' b)];
        (split; [reflexivity|]); cbn [fs_names]; [|reflexivity|]; now rewrite get_del, beq_neq by exact Hne.
    - injection E as _ <-. now exists b. }
  split; [reflexivity|]. unfold obj. cbn [with_names fs_names fs_objs]. now rewrite HN.
Qed.

Lemma any_like d s WD : Inv_any s WD -> snd WD d = false -> exists s1, Inv s1 (fst WD) /\ like d s s1.
Proof. intros (s1 & l & I & A & HD) Hd. exists s1. split; [exact I|]. exists (snd WD), l. auto. Qed.
