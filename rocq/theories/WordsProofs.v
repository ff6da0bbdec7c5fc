(** The names of numbers can be read back. *)
From Coq Require Import ZArith String.
From Verif Require Import Base Words.
Local Open Scope Z_scope.

Definition is_sep (c : byte) : bool := Byte.eqb c " "%byte || Byte.eqb c "-"%byte || Byte.eqb c ","%byte.
Definition emit (cur : bytes) (l : list bytes) : list bytes := match cur with [] => l | _ => cur :: l end.
Fixpoint tok (cur s : bytes) : list bytes :=
  match s with
  | [] => emit cur []
  | c :: s => if is_sep c then emit cur (tok [] s) else tok (cur ++ [c])%list s
  end.
Lemma tok_app c : is_sep c = true -> forall a cur b, tok cur (a ++ c :: b) = (tok cur a ++ tok [] b)%list.
Proof.
  intros H. induction a as [|x a IH]; intros cur b; cbn [tok app].
  - rewrite H. destruct cur; reflexivity.
  - destruct (is_sep x); [|apply IH]. rewrite IH. destruct cur; reflexivity.
Qed.

Inductive kind : Type := Small (v : Z) | Hundred | Big (m : Z) | Minus.
Fixpoint beqb (a b : bytes) : bool :=
  match a, b with [], [] => true | x :: a, y :: b => Byte.eqb x y && beqb a b | _, _ => false end.
Definition table : list (bytes * kind) :=
  (combine low_names (map (fun i => Small (Z.of_nat i)) (seq 0 20)) ++
   combine tens_names (map (fun i => Small (10 * Z.of_nat i)) (seq 2 8)) ++
   [(str "hundred", Hundred); (str "thousand", Big 1000); (str "million", Big 1000000); (str "billion", Big 1000000000); (str "minus", Minus)])%list.
Definition kind_of (w : bytes) : kind := match find (fun e => beqb (fst e) w) table with Some e => snd e | None => Small 0 end.
Definition st3 : Type := bool * Z * Z.
Definition estep (x : st3) (w : bytes) : st3 :=
  let '(b, a, c) := x in
  match kind_of w with
  | Small v => (b, a, c + v)
  | Hundred => (b, a, c * 100)
  | Big m => (b, a + c * m, 0)
  | Minus => (true, a, c)
  end.
Definition total (x : st3) : bool * Z := let '(b, a, c) := x in (b, a + c).
Definition small (w : bytes) : bool := match kind_of w with Small _ | Hundred => true | _ => false end.
Definition cstep (c : Z) (w : bytes) : Z := match kind_of w with Small v => c + v | Hundred => c * 100 | _ => c end.
Lemma small_fold : forall ws b a c, forallb small ws = true -> fold_left estep ws (b, a, c) = (b, a, fold_left cstep ws c).
Proof.
  induction ws as [|w ws IH]; intros b a c H; [reflexivity|]. cbn [forallb] in H. apply andb_true_iff in H as [H1 H2].
  cbn [fold_left]. unfold estep at 2, cstep at 2. unfold small in H1. destruct (kind_of w); try discriminate; now apply IH.
Qed.

Definition group_ok (g : Z) : bool :=
  match convert999 g with
  | Ok s => forallb small (tok [] s) && (fold_left cstep (tok [] s) 0 =? g) && match s with [] => false | _ => true end
  | _ => false
  end.
Lemma groups_ok : forallb (fun i => group_ok (Z.of_nat i)) (seq 0 1000) = true.
Proof. vm_compute. reflexivity. Qed.
Lemma group g : 0 <= g < 1000 -> exists s, convert999 g = Ok s /\ s <> [] /\
  forall b a, fold_left estep (tok [] s) (b, a, 0) = (b, a, g).
Proof.
  intros H. pose proof groups_ok as A. rewrite forallb_forall in A. specialize (A (Z.to_nat g)).
  rewrite Z2Nat.id in A by lia. assert (In (Z.to_nat g) (seq 0 1000)) as I by (apply in_seq; lia). specialize (A I). clear I.
  unfold group_ok in A. destruct (convert999 g) as [s| | |]; try discriminate. apply andb_true_iff in A as [A A3].
  apply andb_true_iff in A as [A1 A2]. apply Z.eqb_eq in A2. exists s. split; [reflexivity|]. split; [now destruct s|].
  intros b a. rewrite small_fold by exact A1. now rewrite A2.
Qed.

(** [s] says [v]. *)
Definition says (s : bytes) (v : Z) : Prop := forall b a, total (fold_left estep (tok [] s) (b, a, 0)) = (b, a + v).
Lemma says_empty v : says [] v -> v = 0.
Proof. intros H. specialize (H true 0). cbn in H. injection H as H. lia. Qed.
Lemma big t : 1 <= t <= 3 -> exists w, index big_names (t - 1) = Ok w /\ tok [] w = [w] /\ kind_of w = Big (1000 ^ t).
Proof.
  intros H. assert (t = 1 \/ t = 2 \/ t = 3) as [->|[->| ->]] by lia; eexists; (split; [vm_compute; reflexivity|split; vm_compute; reflexivity]).
Qed.
Lemma sep_tok a b : tok [] (a ++ str " " ++ b) = (tok [] a ++ tok [] b)%list.
Proof. exact (tok_app " "%byte eq_refl a [] b). Qed.
Lemma comma_tok a b : tok [] (a ++ str ", " ++ b) = (tok [] a ++ tok [] b)%list.
Proof. exact (tok_app ","%byte eq_refl a [] (" "%byte :: b)). Qed.

(** One round. *)
Definition round (n t : Z) (s : bytes) : res bytes :=
  if n mod 1000 =? 0 then Ok s else
  s2 <- convert999 (n mod 1000) ;;
  s2 <- (if 0 <? t then b <- index big_names (t - 1) ;; Ok (s2 ++ str " " ++ b)%list else Ok s2) ;;
  Ok (match s with [] => s2 | _ => s2 ++ str ", " ++ s end)%list.
Lemma loop_round fuel n t s : 0 < n -> groups_loop (Datatypes.S fuel) n t s = (s' <- round n t s ;; groups_loop fuel (n / 1000) (t + 1) s').
Proof. intros H. cbn [groups_loop]. destruct (Z.leb_spec n 0); [lia|]. reflexivity. Qed.
Lemma round_ok n t s v : 1 <= t <= 3 -> says s v -> exists s', round n t s = Ok s' /\ says s' (v + n mod 1000 * 1000 ^ t).
Proof.
  intros Ht Hs. unfold round. destruct (Z.eqb_spec (n mod 1000) 0) as [E|E].
  - exists s. split; [reflexivity|]. rewrite E, Z.mul_0_l, Z.add_0_r. exact Hs.
  - destruct (group (n mod 1000)) as (g & -> & _ & G); [apply Z.mod_pos_bound; lia|]. cbn [bind].
    destruct (Z.ltb_spec 0 t); [|lia]. destruct (big t Ht) as (w & -> & T & K). cbn [bind].
    eexists. split; [reflexivity|]. intros b a.
    assert (fold_left estep (tok [] (g ++ str " " ++ w)) (b, a, 0) = (b, a + n mod 1000 * 1000 ^ t, 0)) as F.
    { rewrite sep_tok, fold_left_app, G, T. cbn [fold_left]. unfold estep. now rewrite K. }
    destruct s as [|c s].
    + rewrite F. rewrite (says_empty _ Hs). unfold total. f_equal. lia.
    + rewrite comma_tok, fold_left_app, F, Hs. f_equal. lia.
Qed.
Lemma round_first n : exists s, round n 0 [] = Ok s /\ says s (n mod 1000).
Proof.
  unfold round. destruct (Z.eqb_spec (n mod 1000) 0) as [E|E].
  - exists []. split; [reflexivity|]. rewrite E. intros b a. cbn [tok emit fold_left]. reflexivity.
  - destruct (group (n mod 1000)) as (g & -> & _ & G); [apply Z.mod_pos_bound; lia|]. cbn [bind].
    eexists. split; [reflexivity|]. intros b a. now rewrite G.
Qed.

Lemma pow_step t : 0 <= t -> 1000 ^ (t + 1) = 1000 * 1000 ^ t.
Proof. intros. rewrite Z.pow_add_r by lia. change (1000 ^ 1) with 1000. lia. Qed.
Lemma pow_down t : t <= 3 -> 1000 ^ (4 - t) = 1000 * 1000 ^ (4 - (t + 1)).
Proof. intros. replace (4 - t) with ((4 - (t + 1)) + 1) by lia. apply pow_step. lia. Qed.

Lemma loop_ok : forall fuel n t s v, 0 <= n < 1000 ^ (4 - t) -> 1 <= t <= 4 -> 4 - t <= Z.of_nat fuel -> says s v ->
  exists s', groups_loop fuel n t s = Ok s' /\ says s' (v + n * 1000 ^ t).
Proof.
  induction fuel as [|fuel IH]; intros n t s v Hn Ht Hf Hs.
  - assert (t = 4) by lia. subst t. change (1000 ^ (4 - 4)) with 1 in Hn. assert (n = 0) by lia. subst n.
    exists s. split; [reflexivity|]. now rewrite Z.mul_0_l, Z.add_0_r.
  - destruct (Z.eq_dec n 0) as [->|N0].
    + exists s. split; [reflexivity|]. now rewrite Z.mul_0_l, Z.add_0_r.
    + assert (t <= 3) as Ht3. { assert (t = 4 \/ t <= 3) as [->|] by lia; [|assumption]. change (1000 ^ (4 - 4)) with 1 in Hn. lia. }
      rewrite loop_round by lia. destruct (round_ok n t s v ltac:(lia) Hs) as (s1 & -> & H1). cbn [bind].
      rewrite pow_down in Hn by lia.
      destruct (IH (n / 1000) (t + 1) s1 _ ltac:(split; [apply Z.div_pos; lia|apply Z.div_lt_upper_bound; lia]) ltac:(lia) ltac:(lia) H1)
        as (s' & -> & H'). exists s'. split; [reflexivity|]. rewrite pow_step in H' by lia.
      replace (v + n * 1000 ^ t) with (v + n mod 1000 * 1000 ^ t + n / 1000 * (1000 * 1000 ^ t)); [exact H'|].
      rewrite (Z.div_mod n 1000) at 3 by lia. ring.
Qed.

Lemma loop_top : forall fuel n t s, 0 < n < 1000 ^ Z.of_nat fuel -> 4 <= t -> groups_loop fuel n t s = Panic.
Proof.
  induction fuel as [|fuel IH]; intros n t s Hn Ht; [cbn [Z.of_nat] in Hn; change (1000 ^ 0) with 1 in Hn; lia|]. rewrite loop_round by lia. unfold round.
  destruct (Z.eqb_spec (n mod 1000) 0) as [E|E].
  - cbn [bind]. apply IH; [|lia]. rewrite Nat2Z.inj_succ, <- Z.add_1_r, pow_step in Hn by lia.
    assert (n = 1000 * (n / 1000)) as D by (rewrite (Z.div_mod n 1000) at 1 by lia; lia).
    split; [lia|]. apply Z.div_lt_upper_bound; lia.
  - destruct (group (n mod 1000)) as (g & -> & _); [apply Z.mod_pos_bound; lia|]. cbn [bind].
    destruct (Z.ltb_spec 0 t); [|lia]. unfold index. destruct (Z.ltb_spec (t - 1) 0); [lia|].
    change (Z.of_nat (length big_names)) with 3. destruct (Z.leb_spec 3 (t - 1)); [reflexivity|lia].
Qed.
Lemma loop_panics : forall fuel n t s v, 1000 ^ (4 - t) <= n < 1000 ^ Z.of_nat fuel -> 1 <= t <= 4 -> says s v ->
  groups_loop fuel n t s = Panic.
Proof.
  induction fuel as [|fuel IH]; intros n t s v Hn Ht Hs.
  - assert (0 < 1000 ^ (4 - t)) by (apply Z.pow_pos_nonneg; lia). cbn [Z.of_nat] in Hn. change (1000 ^ 0) with 1 in Hn. lia.
  - assert (0 < 1000 ^ (4 - t)) by (apply Z.pow_pos_nonneg; lia).
    assert (t = 4 \/ t <= 3) as [->|Ht3] by lia; [apply loop_top; lia|].
    rewrite loop_round by lia. destruct (round_ok n t s v ltac:(lia) Hs) as (s1 & -> & H1). cbn [bind].
    rewrite pow_down in Hn by lia. rewrite Nat2Z.inj_succ, <- Z.add_1_r, pow_step in Hn by lia.
    eapply IH; [|lia|exact H1]. split; [apply Z.div_le_lower_bound; lia|apply Z.div_lt_upper_bound; lia].
Qed.

Definition pos_words (n : Z) : res bytes := if n <=? 999 then convert999 n else groups_loop 8 n 0 [].
Lemma pos_ok n : 0 <= n < 1000 ^ 4 -> exists s, pos_words n = Ok s /\ says s n.
Proof.
  intros H. unfold pos_words. destruct (Z.leb_spec n 999).
  - destruct (group n) as (s & -> & _ & G); [lia|]. exists s. split; [reflexivity|]. intros b a. now rewrite G.
  - rewrite loop_round by lia. destruct (round_first n) as (s & -> & G). cbn [bind].
    change (1000 ^ 4) with (1000 * 1000 ^ (4 - 1)) in H.
    destruct (loop_ok 7 (n / 1000) (0 + 1) s _ ltac:(split; [apply Z.div_pos; lia|apply Z.div_lt_upper_bound; [lia|exact (proj2 H)]]) ltac:(lia) ltac:(lia) G)
      as (s' & -> & G'). exists s'. split; [reflexivity|].
    replace n with (n mod 1000 + n / 1000 * 1000 ^ (0 + 1)); [exact G'|]. change (1000 ^ (0 + 1)) with 1000.
    pose proof (Z.div_mod n 1000 ltac:(lia)). lia.
Qed.
Lemma pos_panics n : 1000 ^ 4 <= n < 1000 ^ 8 -> pos_words n = Panic.
Proof.
  intros H. unfold pos_words. assert (1000 < 1000 ^ 4) by reflexivity. destruct (Z.leb_spec n 999); [lia|].
  rewrite loop_round by lia. destruct (round_first n) as (s & -> & G). cbn [bind].
  change (1000 ^ 4) with (1000 * 1000 ^ (4 - 1)) in H. change (1000 ^ 8) with (1000 * 1000 ^ Z.of_nat 7) in H.
  apply (loop_panics 7 (n / 1000) (0 + 1) s (n mod 1000)); [|lia|exact G].
  split; [apply Z.div_le_lower_bound; [lia|exact (proj1 H)]|apply Z.div_lt_upper_bound; [lia|exact (proj2 H)]].
Qed.

Lemma words_eq n : number_to_words n = if n <? 0 then s <- pos_words (- n) ;; Ok (str "minus " ++ s)%list else pos_words n.
Proof. reflexivity. Qed.
Lemma words_ok n : Z.abs n < 1000 ^ 4 -> exists s, number_to_words n = Ok s /\
  total (fold_left estep (tok [] s) (false, 0, 0)) = (n <? 0, Z.abs n).
Proof.
  intros H. rewrite words_eq. destruct (Z.ltb_spec n 0).
  - destruct (pos_ok (- n)) as (s & -> & G); [lia|]. cbn [bind]. eexists. split; [reflexivity|].
    change (str "minus " ++ s)%list with (str "minus" ++ " "%byte :: s)%list. rewrite tok_app by reflexivity.
    rewrite fold_left_app. change (fold_left estep (tok [] (str "minus")) (false, 0, 0)) with (true, 0, 0). rewrite G. f_equal. lia.
  - destruct (pos_ok n) as (s & -> & G); [lia|]. exists s. split; [reflexivity|]. rewrite G. f_equal. lia.
Qed.

Lemma words_named n : Z.abs n < 1000000000000 -> exists s, number_to_words n = Ok s.
Proof. intros H. destruct (words_ok n H) as (s & E & _). eauto. Qed.
Lemma words_apart n n' s : Z.abs n < 1000000000000 -> Z.abs n' < 1000000000000 -> number_to_words n = Ok s -> number_to_words n' = Ok s -> n = n'.
Proof.
  intros H H' E E'. destruct (words_ok n H) as (s1 & E1 & T). destruct (words_ok n' H') as (s2 & E2 & T').
  rewrite E in E1. rewrite E' in E2. injection E1 as <-. injection E2 as <-. rewrite T in T'. injection T' as A B.
  destruct (Z.ltb_spec n 0), (Z.ltb_spec n' 0); try discriminate; lia.
Qed.
Lemma words_panic n : 1000000000000 <= Z.abs n < 2 ^ 63 -> number_to_words n = Panic.
Proof.
  intros H. assert (2 ^ 63 < 1000 ^ 8) by reflexivity. change 1000000000000 with (1000 ^ 4) in H.
  rewrite words_eq. destruct (Z.ltb_spec n 0).
  - rewrite pos_panics by lia. reflexivity.
  - apply pos_panics. lia.
Qed.
