(** Programs for the theorems about memory. *)
From Verif Require Import Base BaseLemmas Header Node Store Heap HeapSpec HeapProofs HeapOps HeapRun HeapTop.

Definition long (n : nat) : bytes := repeat x61 n.

(** A node with a long prefix and a value of 200 bytes is cloned; the clone is split,
    cloned again and changed below the split, gets another child, loses it, and is
    merged again.  One children vector is shared by two variables all the time. *)
Definition sharing : list instr :=
  [INode; IMut 0 [] (OPrefix (long 11)); IMut 0 [] (OValue (Some (long 200)));
   IClone 0 []; IMut 1 [] (OSplit (long 11) 5); IClone 1 []; IShare 1 [];
   IMut 1 [0] (OValue (Some (long 8)));
   INode; IMut 4 [] (OPrefix [x62]); IMut 4 [] (OValueBorrowed x89 (long 9)); IMut 1 [] (OPush 4);
   IGetValue 1 [1]; IMut 1 [0] (OValueOwned 5);
   IMut 1 [] (ORemove 0); IMut 1 [] OCanonicalize].

Definition sharing_result : fenv :=
  [FNode (Node (Data (long 11)) (Data (long 200)) (KId []));
   FNode (Node (Data (long 5 ++ [x62])) (Id (long 9)) (KId []));
   FNode (Node (Data (long 5)) bnone (KArc [Node (Data (long 6)) (Data (long 200)) (KId [])]));
   FArc [Node (Data (long 6)) (Data (long 200)) (KId [])];
   FGone; FValue (Id (long 9));
   FNode (Node (Data (long 6)) (Id (long 9)) (KId []))].
Lemma sharing_runs : f_run false sharing [] = Some (sharing_result, 0).
Proof. vm_compute. reflexivity. Qed.

(** What [insert("a", v)] and then [remove("a")] do to the root of an empty tree
    (lines 2690-2720: the value is taken, the children are loaded, then
    [canonicalize]); [s] is the number of variables so far. *)
Definition insert_remove (s : nat) : list instr :=
  [IMut 0 [] (OPrefix [x61]); IMut 0 [] (OValue (Some [x76]));
   IMut 0 [] OTakeValue; IDrop s; IMut 0 [] (OValue None);
   INewArc []; IMut 0 [] (OChildrenArc (S s)); IMut 0 [] OCanonicalize].
Fixpoint insert_removes (n s : nat) : list instr :=
  match n with 0 => [] | S n => insert_remove s ++ insert_removes n (S (S s)) end.

Lemma upd_last {A} (l : list A) x y : upd (length l) x (l ++ [y]) = l ++ [x].
Proof. induction l as [|z l IH]; cbn; congruence. Qed.
Lemma upd_last1 {A} (l : list A) x y z : upd (S (length l)) x ((l ++ [z]) ++ [y]) = (l ++ [z]) ++ [x].
Proof. replace (S (length l)) with (length (l ++ [z])) by (rewrite app_length; cbn; lia). apply upd_last. Qed.
Lemma f_cons dbg i p fe fe1 l1 r : f_step dbg i fe = Some (fe1, l1) ->
  (exists fe2 l2, f_run dbg p fe1 = Some (fe2, l2) /\ r = Some (fe2, l1 + l2)) -> f_run dbg (i :: p) fe = r.
Proof. intros E (fe2 & l2 & F & ->). cbn [f_run]. now rewrite E, F. Qed.
Lemma nth_last {A} (l : list A) x d : nth (length l) (l ++ [x]) d = x.
Proof. rewrite app_nth2 by lia. now rewrite Nat.sub_diag. Qed.
Lemma nth_last1 {A} (l : list A) x y d : nth (S (length l)) ((l ++ [y]) ++ [x]) d = x.
Proof. replace (S (length l)) with (length (l ++ [y])) by (rewrite app_length; cbn; lia). apply nth_last. Qed.

Lemma insert_remove_runs dbg g :
  f_run dbg (insert_remove (S (length g))) (FNode n_empty :: g) = Some (FNode n_empty :: (g ++ [FGone]) ++ [FGone], 1).
Proof.
  set (bare := Node (Data [x61]) bnone (KId [])).
  assert (f_step dbg (IDrop (S (length g))) (FNode bare :: g ++ [FValue (Data [x76])]) = Some (FNode bare :: g ++ [FGone], 0)) as D.
  { cbn [f_step upd]. now rewrite upd_last. }
  assert (f_step dbg (IMut 0 [] (OChildrenArc (S (S (length g))))) (FNode bare :: (g ++ [FGone]) ++ [FArc []]) =
    Some (FNode (Node (Data [x61]) bnone (KArc [])) :: (g ++ [FGone]) ++ [FGone], 0)) as C.
  { set (X := (g ++ [FGone]) ++ [FArc []]). cbn [f_step moved f_clear].
    change (upd (S (S (length g))) FGone (FNode bare :: X)) with (FNode bare :: upd (S (length g)) FGone X).
    unfold X at 1. rewrite upd_last1. unfold fvar at 1. cbn [nth f_mut f_op].
    change (fvar (S (S (length g))) (FNode bare :: X)) with (nth (S (length g)) X FGone).
    unfold X at 1. rewrite nth_last1. unfold X. rewrite upd_last1. cbn [upd]. now rewrite app_nil_r. }
  unfold insert_remove.
  erewrite (f_cons dbg _ _ _ (FNode (Node (Data [x61]) bnone (KId [])) :: g) 0); [reflexivity| |].
  { cbn. now rewrite app_nil_r. }
  do 2 eexists. split; [|reflexivity].
  erewrite (f_cons dbg _ _ _ (FNode (Node (Data [x61]) (Data [x76]) (KId [])) :: g) 0); [reflexivity| |].
  { cbn. now rewrite app_nil_r. }
  do 2 eexists. split; [|reflexivity].
  erewrite (f_cons dbg _ _ _ (FNode bare :: g ++ [FValue (Data [x76])]) 0); [reflexivity|reflexivity|].
  do 2 eexists. split; [|reflexivity].
  erewrite (f_cons dbg _ _ _ _ _ _ D); [reflexivity|]. do 2 eexists. split; [|reflexivity].
  erewrite (f_cons dbg _ _ _ (FNode bare :: g ++ [FGone]) 0); [reflexivity| |].
  { cbn. now rewrite app_nil_r. }
  do 2 eexists. split; [|reflexivity].
  erewrite (f_cons dbg _ _ _ (FNode bare :: (g ++ [FGone]) ++ [FArc []]) 0); [reflexivity|reflexivity|].
  do 2 eexists. split; [|reflexivity].
  erewrite (f_cons dbg _ _ _ _ _ _ C); [reflexivity|]. do 2 eexists. split; [|reflexivity].
  erewrite (f_cons dbg _ _ _ (FNode n_empty :: (g ++ [FGone]) ++ [FGone]) 1); [reflexivity| |].
  { destruct dbg; cbn; now rewrite app_nil_r. }
  do 2 eexists. split; reflexivity.
Qed.
Lemma insert_removes_run dbg n : forall g, exists g',
  f_run dbg (insert_removes n (S (length g))) (FNode n_empty :: g) = Some (FNode n_empty :: g', n) /\
  length g' = length g + 2 * n.
Proof.
  induction n as [|n IH]; intros g; cbn [insert_removes].
  - exists g. split; [reflexivity|lia].
  - destruct (IH ((g ++ [FGone]) ++ [FGone])) as (g' & F & L). rewrite !app_length in F, L. cbn [length] in F, L.
    exists g'. split; [|lia].
    apply (f_run_app dbg _ _ _ _ _ 1 n (insert_remove_runs dbg g)).
    replace (S (S (S (length g)))) with (S (length g + 1 + 1)) by lia. exact F.
Qed.

(** [n] insertions of a key, each followed by its removal. *)
Definition churn (n : nat) : list instr := INode :: insert_removes n 1.
Lemma churn_runs dbg n : exists fe, f_run dbg (churn n) [] = Some (fe, n) /\ length fe = S (2 * n).
Proof.
  destruct (insert_removes_run dbg n []) as (g & F & L). exists (FNode n_empty :: g). split.
  - unfold churn. cbn [f_run f_step app]. cbn [length] in F. now rewrite F.
  - cbn [length]. rewrite L. reflexivity.
Qed.
Lemma churn_leaks dbg n : exists e h, h_run dbg (churn n ++ drop_all (S (2 * n))) [] [] = Done (e, h) /\
  Forall (fun x => snd x = CNodes []) (in_use h) /\ list_sum (map fst (in_use h)) = n.
Proof. destruct (churn_runs dbg n) as (fe & F & L). rewrite <- L. apply (run_freed dbg (churn n) fe n F). Qed.
Lemma not_all_freed : ~ all_freed.
Proof.
  intros A. destruct (churn_runs true 1) as (fe & F & L). destruct (A true (churn 1) fe 1 F) as (e & h & D & U).
  rewrite L in D. vm_compute in D. injection D as _ <-. discriminate U.
Qed.
