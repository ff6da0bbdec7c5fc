(** Iterators over groups in memory that is shared and modified (C86).

    [g_run] (HeapGroup.v) runs a program with trees and iterators, also over groups, on
    reference counted memory; an iterator holds raw pointers into vectors of nodes, and
    the trees that it gives share their children with the tree it was made from.
    [fg_run] (HeapGroupSpec.v) runs the same program where such an iterator is the list
    of the trees that it has still to give, and nothing is shared.  [x_shows h f x]: in
    memory [h], all variables and keys are as in [f]. *)
From Verif Require Import HeapGroupExamples Base Header Node Store Spec Client GroupSpec Heap HeapSpec HeapIter HeapIterSpec HeapGroup HeapGroupSpec HeapGroupTop.

(** C86: no program that groups has undefined behaviour, and all trees, values and keys are as if nothing were shared. *)
Theorem C86_values :
  forall dbg p f l, fg_run dbg p fg_start = Some (f, l) ->
  exists fuel s h, (forall fuel', fuel <= fuel' -> g_run fuel' dbg p g_start [] = Done (s, h)) /\ x_shows h (fg_x f) (g_x s).
Proof. exact g_values. Qed.
Print Assumptions C86_values.
Example C86_values_example :
  fg_run true (map GDo build ++ GGroup 0 short :: g_meddle) fg_start = Some (g_meddled, 0) /\
  match g_run 60 true (map GDo build ++ GGroup 0 short :: g_meddle) g_start [] with
  | Done (s, h) => x_shows h (fg_x g_meddled) (g_x s) | _ => False
  end.
Proof.
  assert (fg_run true (map GDo build ++ GGroup 0 short :: g_meddle) fg_start = Some (g_meddled, 0)) as F by (vm_compute; reflexivity).
  split; [exact F|]. destruct (g_values _ _ _ _ F) as (fuel & s & h & D & Sh).
  destruct (g_run 60 true (map GDo build ++ GGroup 0 short :: g_meddle) g_start []) as [[s' h']| | |] eqn:E; try (vm_compute in E; discriminate E).
  assert (Done (s, h) = Done (s', h')) as Eq.
  { rewrite <- (D (fuel + 60)) by apply Nat.le_add_r. apply (g_run_more true _ 60 (fuel + 60)); [|exact E]. rewrite Nat.add_comm. apply Nat.le_add_r. }
  injection Eq as <- <-. exact Sh.
Qed.

(** C86: when everything is dropped, memory that is left consists of empty children vectors with as many references as [canonicalize] forgot (C58); without these, nothing is left. *)
Theorem C86_freed :
  forall dbg p f l, fg_run dbg p fg_start = Some (f, l) ->
  exists fuel s h, (forall fuel', fuel <= fuel' -> g_run fuel' dbg (p ++ g_drop_all f) g_start [] = Done (s, h)) /\
    Forall (fun e => snd e = CNodes []) (in_use h) /\ list_sum (map fst (in_use h)) = l /\ (l = 0 -> in_use h = []).
Proof. exact g_freed. Qed.
Print Assumptions C86_freed.
Example C86_freed_example :
  match g_run 60 true (map GDo build ++ GGroup 0 short :: g_meddle) g_start [] with Done (_, h) => 0 < length (in_use h) | _ => False end /\
  match g_run 60 true ((map GDo build ++ GGroup 0 short :: g_meddle) ++ g_drop_all g_meddled) g_start [] with Done (_, h) => in_use h = [] | _ => False end.
Proof. split; vm_compute; [repeat constructor|reflexivity]. Qed.

(** C86: an iterator over groups gives the groups of the tree at the time it was made, in order and then the end, whatever is done in between to the tree, to clones of it, to trees it gave and to other iterators. *)
Theorem C86_snapshot :
  forall dbg p r d q f l n gs f1 l1 f2 l2, fg_run dbg p fg_start = Some (f, l) ->
  fvar r (fx_env (fg_x f)) = FNode n -> grouping d [] n = Some gs ->
  fg_step dbg (GGroup r d) f = Some (f1, l1) ->
  Forall (leaves_groups (length (fg_groups f))) q -> fg_run dbg q f1 = Some (f2, l2) ->
  exists fuel s h, (forall fuel', fuel <= fuel' ->
    g_run fuel' dbg (p ++ GGroup r d :: q ++ repeat (GNext (length (fg_groups f))) (S (length gs))) g_start [] = Done (s, h)) /\
    Forall2 (slot_shows h) (map FNode gs ++ [FGone]) (skipn (length (fx_env (fg_x f2))) (x_env (g_x s))).
Proof. exact g_snapshot. Qed.
Print Assumptions C86_snapshot.
Example C86_snapshot_example :
  fg_run true (map GDo build) fg_start = Some (g_built, 0) /\ fvar 0 (fx_env (fg_x g_built)) = FNode ex_t /\
  fg_step true (GGroup 0 short) g_built = Some (g_snap, 0) /\ grouping short [] ex_t = Some g_first /\
  Forall (leaves_groups (length (fg_groups g_built))) g_meddle /\ fg_run true g_meddle g_snap = Some (g_meddled, 0) /\
  map (listing []) g_first = [Some [(B "ab", Data (B "1")); (B "abc", Data (B "2")); (B "abd", Data (B "3"))]; Some [(B "b", Data [])]] /\
  match g_run 60 true (map GDo build ++ GGroup 0 short :: g_meddle ++ repeat (GNext 0) 3) g_start [] with
  | Done (s, _) => length (x_env (g_x s)) = length (fx_env (fg_x g_meddled)) + 3 | _ => False
  end.
Proof.
  destruct g_runs as (H1 & H2 & H3 & H4 & H5 & H6). repeat (split; [assumption|]). split; vm_compute; reflexivity.
Qed.

(** C86: these groups are where the predicate says to cut, and together they hold the map, in order. *)
Theorem C86_grouping :
  forall dbg t m d, reachable dbg t -> holds mem t m ->
  exists ts ls, grouping d [] t = Some ts /\
    Forall2 (fun u l => exists mu, holds mem u mu /\ lists l mu) ts ls /\ lists (concat ls) m /\ Forall (group_of d m) ls.
Proof. exact grouping_map. Qed.
Print Assumptions C86_grouping.
Example C86_grouping_example : reachable true ex_t /\ holds mem ex_t ex_m /\
  option_map (map (listing [])) (grouping every [] ex_t) =
  Some [Some [(B "ab", Data (B "1"))]; Some [(B "abc", Data (B "2"))]; Some [(B "abd", Data (B "3"))]; Some [(B "b", Data [])]].
Proof. split; [exact ex_reachable|]. split; [exact ex_holds|]. vm_compute. reflexivity. Qed.
