(** Programs for the theorems about trees in memory. *)
From Verif Require Export MemExamples.
From Coq Require Import String.
From Verif Require Import Base Header Node Combine Api Spec Client Store Heap HeapSpec HeapIter HeapTree HeapTreeSpec HeapTreeMono.

(** The second value wins unless it is empty; then the entry is deleted. *)
Definition newer (_ y : bytes) : option bytes := match y with [] => None | _ => Some y end.
Definition concat2 (x y : bytes) : option bytes := Some (x ++ y).
Definition nonempty (y : bytes) : bool := match y with [] => false | _ => true end.
Definition big : bytes := B"long value".

(** Trees that share memory: clones, and new trees made from others. *)
Definition grow : list tinstr :=
  [TEmpty; TInsert 0 (B"ab") (B"1"); TInsert 0 (B"abc") big; TInsert 0 (B"abd") (B"3");
   TClone 0; TInsert 1 (B"abce") (B"4"); TInsert 0 (B"x") (B"5"); TSingle (B"abc") (B"6");
   TOuterWith concat2 0 1; TOuterWith concat2 2 0; TClone 2;
   TOuter concat2 0 3; TInner concat2 1 1;
   TFilterPrefix 0 (B"ab") (B"y"); TGet 0 (B"abc"); TGet 3 (B"q")].
(** And on: both are changed, one of the clones is left alone. *)
Definition change : list tinstr :=
  [TRemove 0 (B"abd"); TInnerWith newer 2 1; TLeftWith concat2 0 1; TRemovePrefixWith nonempty 1 2;
   TLeaf (B"7"); TInsert 9 (B"abc") (B""); TRetainPrefixWith nonempty 0 9; TRemovePrefix 2 (B"abce");
   TLeft newer 3 9; TRemove 4 (B"abc"); TInsert 6 (B"yc") (B"8"); TFilterPrefix 6 (B"") (B"z");
   TDrop 1; TDrop 1].

(** Questions decide what is done; the last one takes a shortened copy of a node. *)
Definition ask : list tinstr :=
  [TIf (QInner beq 0 1) (TInsert 1 (B"i") (B"8")); TIf (QLeft (fun _ _ => false) 1 0) (TInsert 1 (B"j") (B"9"));
   TIf (QContains 0 (B"abd")) (TIf (QPrefix 0 (B"x")) (TRemove 0 (B"abd"))); TIf (QEmpty 0) (TDrop 0);
   TSingle (B"abce") (B"4"); TIf (QInner beq 9 1) (TDrop 2)].

(** The entries of the trees in the variables, read from memory. *)
Fixpoint entries_of (fuel : nat) (pre : bytes) (h : heap) (c : cnode) : list (bytes * bytes) :=
  match fuel with
  | 0 => []
  | S fuel =>
      match blob_read (c_ph c) (c_p c) h with
      | Done (p, _) =>
          (match h_load_value c h with Done (Some v, _) => [(pre ++ p, v)] | _ => [] end) ++
          (match h_slice c h with Done (Some it, _) => flat_map (entries_of fuel (pre ++ p) h) (bi_rest it) | _ => [] end)
      | _ => []
      end
  end.
Definition look (r : out (env * heap)) : option (list (list (string * string))) :=
  match r with
  | Done (e, h) => Some (map (fun s => match s with
      | SNode c => map (fun e => (string_of_list_byte (fst e), string_of_list_byte (snd e))) (entries_of 10 [] h c)
      | SValue hd w => match blob_read hd w h with Done (b, _) => [("value"%string, string_of_list_byte b)] | _ => [] end
      | _ => [] end) e)
  | _ => None
  end.

Ltac okay := first [exact I | intros ? _; left; discriminate].
Ltac runs := repeat (eapply m_next; [okay|reflexivity|]); apply m_done.
Definition grown : list (option mval) :=
  Eval cbv [grow m_step m_update m_update2 m_new2 mvar mat nth upd app Nat.eqb fold_left] in
  match fold_left (fun o i => match o with Some e => m_step i e | None => None end) grow (Some []) with Some e => e | None => [] end.
Lemma grow_runs : m_runs may grow [] grown.
Proof. unfold grow, grown. runs. Qed.
Definition changed_to : list (option mval) :=
  Eval cbv [change grown m_step m_update m_update2 m_new2 mvar mat nth upd app Nat.eqb fold_left] in
  match fold_left (fun o i => match o with Some e => m_step i e | None => None end) change (Some grown) with Some e => e | None => [] end.
Lemma change_runs : m_runs may change grown changed_to.
Proof.
  unfold change, grown, changed_to. do 6 (eapply m_next; [exact I|reflexivity|]).
  eapply m_next; [|reflexivity|].
  - cbn [may]. intros b E. injection E as <-. intros q r x y. unfold m_insert, m_empty, beq.
    destruct (list_eq_dec Byte.byte_eq_dec q (B "abc")) as [->|Hq].
    + intros _. destruct (list_eq_dec Byte.byte_eq_dec (B "abc" ++ r) (B "abc")); [intros E _; now injection E as <-|].
      destruct (list_eq_dec Byte.byte_eq_dec (B "abc" ++ r) []); [|discriminate]. discriminate.
    + destruct (list_eq_dec Byte.byte_eq_dec q []); [|discriminate]. intros E _ H. injection E as <-. discriminate H.
  - do 4 (eapply m_next; [okay|reflexivity|]).
    eapply m_next; [|reflexivity|].
    { intros m E. right. right. injection E as <-. exists (B "yc"). vm_compute. discriminate. }
    runs.
Qed.
Lemma grow_grows : m_runs grows grow [] grown.
Proof.
  unfold grow, grown. do 8 (eapply m_next; [exact I|reflexivity|]).
  eapply m_next; [|reflexivity|].
  { split; [discriminate|]. exists 0. eexists. exists (B "ab"). split; [now left|]. split; [reflexivity|]. vm_compute. discriminate. }
  eapply m_next; [|reflexivity|].
  { split; [discriminate|]. exists 2. eexists. exists (B "abc"). split; [now left|]. split; [reflexivity|]. vm_compute. discriminate. }
  runs.
Qed.
Definition asked : list (option mval) :=
  Eval cbv [grown m_step m_update mvar mat nth upd app Nat.eqb fold_left] in
  match fold_left (fun o i => match o with Some e => m_step i e | None => None end)
    [TInsert 1 (B"i") (B"8"); TInsert 1 (B"j") (B"9"); TRemove 0 (B"abd"); TSingle (B"abce") (B"4"); TDrop 2] (Some grown)
  with Some e => e | None => [] end.
Lemma ask_runs : m_runs may ask grown asked.
Proof.
  unfold ask, grown, asked.
  eapply m_yes; [exact I|reflexivity|exists (B"abce"), (B"4"), (B"4"); split; [|split]; vm_compute; reflexivity|].
  eapply m_next; [exact I|reflexivity|].
  eapply m_yes; [exact I|reflexivity|exists (B"i"), (B"8"); split; vm_compute; [reflexivity|exact I]|].
  eapply m_next; [exact I|reflexivity|].
  eapply m_yes; [exact I|reflexivity|vm_compute; discriminate|].
  eapply m_yes; [intros m _; left; discriminate|reflexivity|exists (B"x"); split; vm_compute; [discriminate|reflexivity]|].
  eapply m_next; [exact I|reflexivity|].
  eapply m_no; [exact I|reflexivity|intros H; specialize (H (B"x")); vm_compute in H; discriminate H|].
  eapply m_next; [exact I|reflexivity|].
  eapply m_yes; [exact I|reflexivity|exists (B"abce"), (B"4"), (B"4"); split; [|split]; vm_compute; reflexivity|].
  runs.
Qed.

(** Inserting an entry and removing it again; combining two empty trees. *)
Definition in_out : list tinstr := [TEmpty; TInsert 0 (B"a") (B"1"); TRemove 0 (B"a")].
Definition two_empty : list tinstr := [TEmpty; TEmpty; TOuterWith concat2 0 1].
Definition left (r : out (env * heap)) : option (list (nat * cell)) := match r with Done (_, h) => Some (in_use h) | _ => None end.
Lemma not_all_freed : ~ t_all_freed.
Proof.
  intros A. assert (exists ms, m_runs may in_out [] ms /\ length ms = 1) as (ms & R & L).
  { eexists. split; [|shelve]. unfold in_out. runs. Unshelve. reflexivity. }
  specialize (A false in_out ms R). rewrite L in A.
  destruct (t_run false 10 (in_out ++ t_drop_all 1) [] []) as [[e h]| | |] eqn:E; try (vm_compute in E; discriminate E).
  specialize (A e h). assert (left (t_run false 10 (in_out ++ t_drop_all 1) [] []) = Some [(1, CNodes [])]) as E1 by (vm_compute; reflexivity).
  rewrite E in E1. cbn [left] in E1. rewrite A in E1; [discriminate E1|]. exists 10. intros fuel Hf.
  destruct (t_run_sim false 10 fuel (in_out ++ t_drop_all 1) [] Hf []) as [H|H]; [rewrite E in H; discriminate H|].
  rewrite <- H. exact E.
Qed.
