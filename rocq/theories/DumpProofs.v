(** What [dump] prints. *)
From Coq Require Import String.
From Coq Require Import List.
From Verif Require Import Base BaseLemmas Header Node Combine Iter Api Tree Rep Entries IterProofs Canon Spec Client Top TopOps
  MemLemmas Store StoreSpec StoreProofs World WorldProofs StoreTop FailSpec FailProofs DumpSpec Dump.
Local Open Scope list_scope.

(* ------------------------------------------------------------------ *)
(** Text. *)

Lemma hex_spec x : hex_encode x = in_hex x.
Proof.
  unfold hex_encode, in_hex. apply flat_map_ext. intros b. destruct b; reflexivity.
Qed.

Lemma two_digits_inj a b : two_digits a = two_digits b -> a = b.
Proof.
  assert (forall c, Byte.of_N (Byte.to_N c / 16 * 16 + Byte.to_N c mod 16) = Some c) as K
    by (intros c; destruct c; reflexivity).
  assert (forall i j, (i < 16)%N -> (j < 16)%N -> nth (N.to_nat i) (txt "0123456789abcdef") x00 =
    nth (N.to_nat j) (txt "0123456789abcdef") x00 -> i = j) as D.
  { assert (NoDup (txt "0123456789abcdef")) as ND.
    { unfold txt. cbn. repeat constructor; cbn; intuition discriminate. }
    intros i j Hi Hj E. apply N2Nat.inj. rewrite NoDup_nth in ND. apply (ND (N.to_nat i) (N.to_nat j)); [| |exact E].
    - change (length (txt "0123456789abcdef")) with 16. lia.
    - change (length (txt "0123456789abcdef")) with 16. lia. }
  unfold two_digits. intros [= E1 E2].
  assert (forall c, (Byte.to_N c / 16 < 16)%N /\ (Byte.to_N c mod 16 < 16)%N) as Hc.
  { intros c. split; [|apply N.mod_lt; discriminate]. destruct c; reflexivity. }
  apply D in E1; [|apply Hc..]. apply D in E2; [|apply Hc..].
  pose proof (K a) as Ka. pose proof (K b) as Kb. rewrite E1, E2 in Ka. congruence.
Qed.

Lemma in_hex_inj x : forall y, in_hex x = in_hex y -> x = y.
Proof.
  induction x as [|a x IH]; intros [|b y]; [reflexivity|discriminate..|].
  change (two_digits a ++ in_hex x = two_digits b ++ in_hex y -> a :: x = b :: y). intros E.
  assert (two_digits a = two_digits b /\ in_hex x = in_hex y) as [E1 E2].
  { split; [exact (f_equal (firstn 2) E)|exact (f_equal (skipn 2) E)]. }
  apply two_digits_inj in E1. apply IH in E2. congruence.
Qed.

Lemma hex_all_inj x y : hex_all x = hex_all y -> x = y.
Proof.
  unfold hex_all. rewrite !hex_spec. intros E. apply app_inv_head in E. apply app_inv_tail in E. now apply in_hex_inj.
Qed.

Lemma unindent n l : unindented (repeat x20 n ++ l) = unindented l.
Proof. induction n as [|n IH]; [reflexivity|exact IH]. Qed.

(* ------------------------------------------------------------------ *)
(** The lines that show values. *)

Lemma value_lines_app a b : value_lines (a ++ b) = value_lines a ++ value_lines b.
Proof. unfold value_lines. now rewrite map_app, filter_app. Qed.

Lemma value_lines_head i r : value_lines (dump_head i r) =
  match r_value_opt r with None => [] | Some b => [txt "value=" ++ blob_text (Some b)] end.
Proof.
  unfold value_lines, dump_head. cbn [map]. rewrite !unindent.
  change (unindented (lit "TreeNode")) with (lit "TreeNode").
  change (unindented (lit "  prefix=" ++ blob_text (blob_opt (r_prefix r)))) with (txt "prefix=" ++ blob_text (blob_opt (r_prefix r))).
  change (unindented (lit "  value=" ++ blob_text (r_value_opt r))) with (txt "value=" ++ blob_text (r_value_opt r)).
  cbn [filter].
  assert (forall x, starts_with (txt "value=") (txt "prefix=" ++ x) = false) as -> by reflexivity.
  assert (forall x, starts_with (txt "value=") (txt "value=" ++ x) = true) as -> by reflexivity.
  change (starts_with (txt "value=") (lit "TreeNode")) with false. cbn [andb].
  destruct (r_value_opt r) as [[x|x]|].
  - unfold beq. destruct list_eq_dec as [E|]; [discriminate E|reflexivity].
  - unfold beq. destruct list_eq_dec as [E|]; [discriminate E|reflexivity].
  - unfold beq. destruct list_eq_dec as [E|N]; [reflexivity|now destruct N].
Qed.

Lemma value_lines_mid i r o : value_lines (dump_mid i r o) = [].
Proof.
  unfold value_lines, dump_mid. destruct r, o; cbn [map]; rewrite ?unindent; try reflexivity.
  - rewrite <- (app_nil_r (repeat x20 i)), unindent. reflexivity.
  - rewrite <- (app_nil_r (repeat x20 i)), unindent. reflexivity.
Qed.

(* ------------------------------------------------------------------ *)
(** The call ends, and shows the values in the order of the keys. *)

Section Values.
Context (ids : bool) (rd : reader).
Notation NR := (NRep ids rd True).
Notation IR := (IRepT ids rd True).

Definition fine (i : nat) (r : noderef) (t : tree) : Prop :=
  exists ls, (forall fuel, size t < fuel -> r_dump rd fuel i r = Ok (ls, true)) /\
    Forall2 (shows rd) (value_lines ls) (vals t).

Lemma loop_fine i cs : Forall (fun c => forall i r, NR r c -> fine i r c) cs -> forall it, IR it cs ->
  exists ls, (forall f fuel, sizes cs < f -> sizes cs < fuel -> dump_loop (r_dump rd f i) fuel it = Ok (ls, true)) /\
    Forall2 (shows rd) (value_lines ls) (flat_map vals cs).
Proof.
  induction 1 as [|c cs Hc _ IH]; intros it I.
  - destruct (IRepT_nil _ _ _ _ I) as [E _]. exists []. split; [|constructor].
    intros f fuel _ Hf. destruct fuel; [lia|]. cbn. now rewrite E.
  - destruct (IRepT_cons _ _ _ _ _ _ I) as (r & it' & E & Hr & I' & _).
    destruct (Hc i r Hr) as (l1 & D1 & V1). destruct (IH _ I') as (l2 & D2 & V2).
    exists (l1 ++ l2). split.
    + intros f fuel Lf Lfu. rewrite sizes_cons in *. pose proof (size_pos c). destruct fuel; [lia|]. cbn [dump_loop]. rewrite E.
      rewrite D1 by lia. cbn [bind fst snd]. rewrite D2 by lia. reflexivity.
    + rewrite value_lines_app. cbn [flat_map]. apply Forall2_app; assumption.
Qed.

Lemma shows_value r p v cs : NR r (T p v cs) -> forall i,
  Forall2 (shows rd) (value_lines (dump_head i r)) (match v with Some x => [x] | None => [] end).
Proof.
  intros Hr i. rewrite value_lines_head. pose proof (NRep_value _ _ _ _ _ _ _ Hr) as Hv.
  destruct v as [x|].
  - destruct Hv as (b & -> & Rv). constructor; [|constructor]. destruct Rv as [->|(c & id & -> & Hrd)].
    + left. unfold value_line, blob_text, hex_all. rewrite hex_spec. reflexivity.
    + right. exists (c :: id). split; [|exact Hrd]. unfold blob_text, hex_all. rewrite hex_spec. reflexivity.
  - rewrite Hv. constructor.
Qed.

Lemma dump_fine t : forall i r, NR r t -> fine i r t.
Proof.
  induction t as [p v cs IH] using tree_ind'. intros i r Hr.
  destruct (NRep_children ids rd True (or_intror I) r p v cs Hr) as (o & E & Ho).
  pose proof (shows_value r p v cs Hr i) as Hv.
  destruct o as [it|].
  - destruct Ho as [Hne Hi]. destruct (loop_fine (i + 4) cs IH it Hi) as (ls & D & V).
    exists (dump_head i r ++ dump_mid i r (Some it) ++ ls). split.
    + intros fuel Hf. rewrite size_T in Hf. destruct fuel; [lia|]. cbn [r_dump]. rewrite E.
      rewrite D by lia. reflexivity.
    + rewrite !value_lines_app, value_lines_mid. cbn [vals app]. apply Forall2_app; assumption.
  - cbn in Ho. subst cs. exists (dump_head i r ++ dump_mid i r None). split.
    + intros fuel Hf. rewrite size_T in Hf. destruct fuel; [lia|]. cbn [r_dump]. rewrite E. reflexivity.
    + rewrite value_lines_app, value_lines_mid. cbn [vals flat_map]. apply Forall2_app; [assumption|constructor].
Qed.
End Values.

(* ------------------------------------------------------------------ *)
(** The exact text of a tree in memory. *)

Fixpoint shown (t : tree) (i : nat) {struct t} : list bytes :=
  match t with
  | T p v cs =>
      [repeat x20 i ++ lit "TreeNode";
       repeat x20 i ++ lit "  prefix=" ++ blob_text (Some (Data p));
       repeat x20 i ++ lit "  value=" ++ blob_text (option_map Data v)] ++
      match cs with [] => [] | _ => [repeat x20 i ++ lit "  children "] end ++
      flat_map (fun c => shown c (i + 4)) cs
  end.

Lemma dump_shown t : forall i n, Rep false mem n t -> forall fuel, size t < fuel ->
  r_dump mem fuel i (ROwned n) = Ok (shown t i, true).
Proof.
  induction t as [p v cs IH] using tree_ind'. intros i n R fuel Hf. apply Rep_inv in R as (RP & RV & ns & RK & F).
  rewrite size_T in Hf. destruct fuel as [|fuel]; [lia|].
  assert (dump_head i (ROwned n) = [repeat x20 i ++ lit "TreeNode";
       repeat x20 i ++ lit "  prefix=" ++ blob_text (Some (Data p));
       repeat x20 i ++ lit "  value=" ++ blob_text (option_map Data v)]) as Hh.
  { unfold dump_head. cbn [r_prefix r_value_opt]. destruct RP as [->|(? & _)]; [|discriminate].
    destruct v as [x|]; cbn in RV.
    - destruct RV as [->|(c & id & _ & ?)]; [reflexivity|discriminate].
    - now rewrite RV. }
  cbn [r_dump]. change (r_load_children mem (ROwned n)) with (load_children mem n).
  assert (forall f fuel, sizes cs < f -> sizes cs < fuel -> dump_loop (r_dump mem f (i + 4)) fuel (IOwned ns) =
    Ok (flat_map (fun c => shown c (i + 4)) cs, true)) as L.
  { clear - IH F. revert ns F. induction IH as [|c cs Hc _ IHcs]; intros ns F f fuel Hf Hfu; inversion F as [|n ? ns' ? Rn F']; subst.
    - destruct fuel; [lia|reflexivity].
    - rewrite sizes_cons in *. pose proof (size_pos c). destruct fuel; [lia|]. cbn [dump_loop it_next].
      rewrite (Hc _ _ Rn) by lia. cbn [bind fst snd]. rewrite (IHcs _ F') by lia. reflexivity. }
  unfold load_children. destruct RK as [E|[[E E']|(r & id & data & _ & ? & _)]]; [| |discriminate].
  - rewrite E. destruct ns as [|m ns].
    + inversion F; subst. rewrite Hh. reflexivity.
    + rewrite L by lia. cbn [bind fst snd dump_mid]. rewrite Hh. inversion F; subst. reflexivity.
  - subst ns. inversion F; subst. rewrite E, Hh. reflexivity.
Qed.

Definition low (i : nat) (rest : list bytes) : Prop :=
  rest = [] \/ exists j l, j <= i /\ rest = (repeat x20 j ++ lit "TreeNode") :: l.

Lemma head_shown t i : exists l, shown t i = (repeat x20 i ++ lit "TreeNode") :: l.
Proof. destruct t. eexists. reflexivity. Qed.

Lemma data_text x y : blob_text (Some (Data x)) = blob_text (Some (Data y)) -> x = y.
Proof. cbn [blob_text]. intros E. apply app_inv_head in E. now apply hex_all_inj. Qed.

Lemma value_text v w : blob_text (option_map Data v) = blob_text (option_map Data w) -> v = w.
Proof.
  destruct v, w; cbn [option_map].
  - intros E. apply data_text in E. congruence.
  - intros E. discriminate E.
  - intros E. discriminate E.
  - reflexivity.
Qed.

Lemma children_line i rest : low i rest -> hd_error rest <> Some (repeat x20 i ++ lit "  children ").
Proof.
  intros [->|(j & l & _ & ->)]; [discriminate|]. cbn [hd_error]. intros [= E].
  apply (f_equal unindented) in E. rewrite !unindent in E. discriminate E.
Qed.

Lemma node_line i j l : j < i -> hd_error ((repeat x20 j ++ lit "TreeNode") :: l) <> Some (repeat x20 i ++ lit "TreeNode").
Proof.
  cbn [hd_error]. intros L [= E]. apply (f_equal (@length byte)) in E. rewrite !app_length, !repeat_length in E. lia.
Qed.

Lemma shown_inj t : forall t' i rest rest', low i rest -> low i rest' ->
  shown t i ++ rest = shown t' i ++ rest' -> t = t' /\ rest = rest'.
Proof.
  induction t as [p v cs IH] using tree_ind'. intros [p' v' cs'] i rest rest' Lr Lr' E.
  pose proof (f_equal (fun l => nth 1 l []) E) as Ep. pose proof (f_equal (fun l => nth 2 l []) E) as Ev.
  apply (f_equal (skipn 3)) in E.
  change (repeat x20 i ++ (lit "  prefix=" ++ blob_text (Some (Data p))) =
    repeat x20 i ++ (lit "  prefix=" ++ blob_text (Some (Data p')))) in Ep.
  change (repeat x20 i ++ (lit "  value=" ++ blob_text (option_map Data v)) =
    repeat x20 i ++ (lit "  value=" ++ blob_text (option_map Data v'))) in Ev.
  change ((match cs with [] => [] | _ => [repeat x20 i ++ lit "  children "] end ++
      flat_map (fun c => shown c (i + 4)) cs) ++ rest =
    (match cs' with [] => [] | _ => [repeat x20 i ++ lit "  children "] end ++
      flat_map (fun c => shown c (i + 4)) cs') ++ rest') in E.
  rewrite <- !app_assoc in E.
  apply app_inv_head in Ep, Ev. apply app_inv_head in Ep, Ev.
  apply data_text in Ep. apply value_text in Ev. subst p' v'.
  assert (forall cs', flat_map (fun c => shown c (i + 4)) cs ++ rest = flat_map (fun c => shown c (i + 4)) cs' ++ rest' ->
    cs = cs' /\ rest = rest') as K.
  { clear E cs'. assert (forall r cs, low i r -> low (i + 4) (flat_map (fun c => shown c (i + 4)) cs ++ r)) as Lk.
    { intros r [|c l] [->|(j & l' & Hj & ->)]; cbn [flat_map app]; try (now left); right.
      - exists j, l'. split; [lia|reflexivity].
      - destruct (head_shown c (i + 4)) as [z ->]. do 2 eexists. split; [|reflexivity]. lia.
      - destruct (head_shown c (i + 4)) as [z ->]. do 2 eexists. split; [|reflexivity]. lia. }
    assert (forall c l r r', low i r -> r <> flat_map (fun c => shown c (i + 4)) (c :: l) ++ r') as Nk.
    { intros c l r r' Hr Er. cbn [flat_map] in Er. destruct (head_shown c (i + 4)) as [z Ez]. rewrite Ez in Er.
      destruct Hr as [->|(j & l' & Hj & ->)]; [discriminate|]. apply (node_line (i + 4) j l'); [lia|]. rewrite Er. reflexivity. }
    induction IH as [|c cs Hc _ IHcs]; intros [|c' cs'] E.
    - auto.
    - now apply Nk in E.
    - symmetry in E. now apply Nk in E.
    - cbn [flat_map] in E. rewrite <- !app_assoc in E. apply Hc in E; [|now apply Lk..].
      destruct E as [-> E]. apply IHcs in E. destruct E as [-> ->]. auto. }
  destruct cs as [|c cs], cs' as [|c' cs'].
  - auto.
  - exfalso. cbn [flat_map app] in E. apply (children_line i rest Lr). rewrite E. reflexivity.
  - exfalso. cbn [flat_map app] in E. apply (children_line i rest' Lr'). rewrite <- E. reflexivity.
  - apply (f_equal (@tl bytes)) in E. apply (K (c' :: cs')) in E. destruct E as [E ->]. split; [|reflexivity]. now rewrite E.
Qed.

(* ------------------------------------------------------------------ *)
(** A store that sometimes cannot be read. *)

Lemma loop_more rec rec' : (forall r x, rec r = Ok x -> rec' r = Ok x) -> forall fuel it x,
  dump_loop rec fuel it = Ok x -> dump_loop rec' (S fuel) it = Ok x.
Proof.
  intros Hr. induction fuel as [|fuel IH]; intros it x E; [discriminate|].
  change (match it_next it with None => Ok ([], true) | Some (r, it') => y <- rec' r ;;
    if snd y then z <- dump_loop rec' (S fuel) it' ;; Ok (fst y ++ fst z, snd z) else Ok (fst y, false) end = Ok x).
  cbn [dump_loop] in E. destruct (it_next it) as [[r it']|]; [|exact E].
  destruct (rec r) as [y| | |] eqn:Er; try discriminate E. apply Hr in Er. rewrite Er. cbn [bind] in *.
  destruct (snd y); [|exact E]. destruct (dump_loop rec fuel it') as [z| | |] eqn:El; try discriminate E.
  now rewrite (IH _ _ El).
Qed.

Lemma dump_more rd fuel : forall i r x, r_dump rd fuel i r = Ok x -> r_dump rd (S fuel) i r = Ok x.
Proof.
  induction fuel as [|fuel IH]; intros i r x E; [discriminate|].
  change (match r_load_children rd r with
      | Err => Ok (dump_head i r, false) | Panic => Panic | Fuel => Fuel
      | Ok None => Ok (dump_head i r ++ dump_mid i r None, true)
      | Ok (Some it) => x <- dump_loop (r_dump rd (S fuel) (i + 4)) (S fuel) it ;;
          Ok (dump_head i r ++ dump_mid i r (Some it) ++ fst x, snd x) end = Ok x).
  cbn [r_dump] in E. destruct (r_load_children rd r) as [[it|]| | |]; try exact E.
  destruct (dump_loop (r_dump rd fuel (i + 4)) fuel it) as [y| | |] eqn:El; try discriminate E.
  now rewrite (loop_more _ _ (IH (i + 4)) _ _ _ El).
Qed.

Lemma dump_conv rd t n x : t_dump rd t n = Ok x -> t_dump rd t ⇓ Ok x.
Proof.
  intros E. split; [discriminate|]. exists n. intros k L. induction L as [|k L IH]; [exact E|].
  now apply dump_more.
Qed.

(** [x'] is [x], or stops with an error after the first lines of [x]. *)
Definition cut (x' x : list bytes * bool) : Prop :=
  x' = x \/ (snd x' = false /\ exists rest, fst x = fst x' ++ rest).

Lemma cut_app a x' x : cut x' x -> cut (a ++ fst x', snd x') (a ++ fst x, snd x).
Proof.
  intros [->|(E & rest & E')]; [now left|]. right. cbn. split; [exact E|]. exists rest. now rewrite E', app_assoc.
Qed.

Section Cut.
Context (rd' rd : reader) (K : flaky rd' rd).

Lemma flaky_children r : r_load_children rd' r = Err \/ r_load_children rd' r = r_load_children rd r.
Proof.
  assert (forall id, it_load rd' id = Err \/ it_load rd' id = it_load rd id) as L.
  { intros [|c id]; [now right|]. unfold it_load. destruct (K id) as [->| ->]; [now left|now right]. }
  destruct r as [[p v [ns|id]]|[p v [c|c]]].
  - now right.
  - apply L.
  - now right.
  - unfold r_load_children, b_load_children. cbn [b_children]. destruct c; [now right|apply L].
Qed.

Lemma loop_cut rec' rec : (forall r x, rec r = Ok x -> exists x', rec' r = Ok x' /\ cut x' x) -> forall fuel it x,
  dump_loop rec fuel it = Ok x -> exists x', dump_loop rec' fuel it = Ok x' /\ cut x' x.
Proof.
  intros Hr. induction fuel as [|fuel IH]; intros it x E; [discriminate|].
  cbn [dump_loop] in *. destruct (it_next it) as [[r it']|]; [|exists x; split; [exact E|now left]].
  destruct (rec r) as [y| | |] eqn:Er; try discriminate E. apply Hr in Er as (y' & -> & Cy). cbn [bind] in *.
  destruct Cy as [->|(Ef & rest & Ey)].
  - destruct (snd y) eqn:Ey.
    + destruct (dump_loop rec fuel it') as [z| | |] eqn:El; try discriminate E.
      apply IH in El as (z' & -> & Cz). cbn [bind] in *. injection E as <-. eexists. split; [reflexivity|]. now apply cut_app.
    + eexists. split; [reflexivity|]. left. congruence.
  - rewrite Ef. eexists. split; [reflexivity|]. right. split; [reflexivity|]. cbn [fst].
    destruct (snd y).
    + destruct (dump_loop rec fuel it') as [z| | |]; try discriminate E. cbn [bind] in E. injection E as <-. cbn [fst].
      exists (rest ++ fst z). now rewrite Ey, app_assoc.
    + injection E as <-. cbn [fst]. eauto.
Qed.

Lemma dump_cut fuel : forall i r x, r_dump rd fuel i r = Ok x -> exists x', r_dump rd' fuel i r = Ok x' /\ cut x' x.
Proof.
  induction fuel as [|fuel IH]; intros i r x E; [discriminate|]. cbn [r_dump] in *.
  destruct (flaky_children r) as [->| ->].
  - exists (dump_head i r, false). split; [reflexivity|]. right. split; [reflexivity|]. cbn [fst].
    destruct (r_load_children rd r) as [[it|]| | |]; try discriminate E.
    + destruct (dump_loop (r_dump rd fuel (i + 4)) fuel it) as [y| | |]; try discriminate E. cbn [bind] in E.
      injection E as <-. eexists. reflexivity.
    + injection E as <-. eexists. reflexivity.
    + injection E as <-. exists []. now rewrite app_nil_r.
  - destruct (r_load_children rd r) as [[it|]| | |]; try discriminate E.
    + destruct (dump_loop (r_dump rd fuel (i + 4)) fuel it) as [y| | |] eqn:El; try discriminate E. cbn [bind] in E.
      apply (loop_cut _ _ (IH (i + 4))) in El as (y' & -> & Cy).
      assert (x = (dump_head i r ++ dump_mid i r (Some it) ++ fst y, snd y)) as -> by congruence. cbn [bind].
      eexists. split; [reflexivity|]. rewrite !app_assoc. now apply cut_app.
    + exists x. split; [exact E|now left].
    + exists x. split; [exact E|now left].
Qed.
End Cut.

(* ------------------------------------------------------------------ *)
(** The theorems. *)

Lemma dump_in_memory dbg t m : reachable dbg t -> holds mem t m ->
  exists ls l, t_dump mem t ⇓ Ok (ls, true) /\ lists l m /\ value_lines ls = map value_line (map snd l).
Proof.
  intros R H. destruct (reachable_good dbg t R) as (g & Rg & C & _).
  pose proof (holds_lookup _ _ _ _ _ Rg C H) as Em.
  destruct (dump_fine false mem g 0 (ROwned t) (Rep_NRep _ _ _ _ _ Rg)) as (ls & D & V).
  exists ls, (entries [] g). split; [|split].
  - apply dump_conv with (n := S (size g)). apply D. lia.
  - now apply lists_entries.
  - rewrite <- vals_entries. clear - V. induction V as [|x y xs ys Hxy _ IH]; [reflexivity|]. cbn [map]. rewrite IH. f_equal.
    destruct Hxy as [E|(id & _ & E)]; [exact E|discriminate].
Qed.

Lemma dump_same dbg t u m mu lt lu : reachable dbg t -> reachable dbg u -> holds mem t m -> holds mem u mu ->
  t_dump mem t ⇓ Ok (lt, true) -> t_dump mem u ⇓ Ok (lu, true) -> (lt = lu <-> same m mu).
Proof.
  intros R R' H H' D D'. destruct (reachable_good dbg t R) as (g & Rg & C & _).
  destruct (reachable_good dbg u R') as (gu & Ru & Cu & _).
  pose proof (holds_lookup _ _ _ _ _ Rg C H) as Em. pose proof (holds_lookup _ _ _ _ _ Ru Cu H') as Em'.
  assert (t_dump mem t ⇓ Ok (shown g 0, true)) as S1.
  { apply dump_conv with (n := S (size g)). apply dump_shown; [exact Rg|lia]. }
  assert (t_dump mem u ⇓ Ok (shown gu 0, true)) as S2.
  { apply dump_conv with (n := S (size gu)). apply dump_shown; [exact Ru|lia]. }
  pose proof (conv_unique _ _ _ D S1) as E1. pose proof (conv_unique _ _ _ D' S2) as E2.
  injection E1 as ->. injection E2 as ->. split.
  - intros E. assert (g = gu) as ->.
    { apply (shown_inj g gu 0 [] []); [now left..|now rewrite !app_nil_r]. }
    intros k. now rewrite Em, Em'.
  - intros E. assert (g = gu) as ->; [|reflexivity]. apply canon_unique; auto. intros k. now rewrite <- Em, <- Em', E.
Qed.

Lemma dump_attached dbg S inv s t m : lawful S inv -> attached dbg S inv s t m ->
  exists ls l, t_dump (st_read S s) t ⇓ Ok (ls, true) /\ lists l m /\
    Forall2 (shows (st_read S s)) (value_lines ls) (map snd l).
Proof.
  intros L A. destruct (at_good dbg S inv L s t m A) as (ids & g & (Rg & C & _) & H).
  pose proof (holds_lookup _ _ _ _ _ Rg C H) as Em.
  destruct (dump_fine ids (st_read S s) g 0 (ROwned t) (Rep_NRep _ _ _ _ _ Rg)) as (ls & D & V).
  exists ls, (entries [] g). split; [|split].
  - apply dump_conv with (n := Datatypes.S (size g)). apply D. lia.
  - now apply lists_entries.
  - now rewrite <- vals_entries.
Qed.

Lemma dump_flaky rd' rd t ls : flaky rd' rd -> t_dump rd t ⇓ Ok (ls, true) ->
  t_dump rd' t ⇓ Ok (ls, true) \/ exists ls' rest, t_dump rd' t ⇓ Ok (ls', false) /\ ls = ls' ++ rest.
Proof.
  intros K (_ & n & E). specialize (E n (le_n n)).
  destruct (dump_cut rd' rd K n 0 (ROwned t) _ E) as (x' & E' & Cx).
  assert (t_dump rd' t ⇓ Ok x') as D by (apply dump_conv with (n := n); exact E').
  destruct Cx as [->|(Ef & rest & Er)]; [now left|]. right. exists (fst x'), rest. split; [|exact Er].
  destruct x' as [l b]. cbn in *. now subst b.
Qed.
