(** Iterators over memory that is shared and modified (C66).

    [x_run] (HeapIter.v) runs a program with trees, iterators, values and keys on
    reference counted memory; an iterator is a raw pointer into a vector of nodes.
    [fx_run] (HeapIterSpec.v) runs the same program where an iterator is the list of
    what it has still to give and nothing is shared.  [x_shows h f x]: in memory [h],
    all variables and keys are as in [f]. *)
From Verif Require Import HeapIterExamples Base Header Node Store Spec Client Heap HeapSpec HeapIter HeapIterSpec HeapIterTop.

(** C66: no program with iterators has undefined behaviour, and all values and keys are as if nothing were shared. *)
Theorem C66_values :
  forall dbg p f l, fx_run dbg p fx_start = Some (f, l) ->
  exists fuel x h, (forall fuel', fuel <= fuel' -> x_run fuel' dbg p x_start [] = Done (x, h)) /\ x_shows h f x.
Proof. exact x_values. Qed.
Print Assumptions C66_values.
Example C66_values_example :
  fx_run true (build ++ XIter 0 [] :: meddle) fx_start = Some (meddled, 0) /\
  observe (x_run 60 true (build ++ XIter 0 [] :: meddle) x_start []) =
  Some ([Some (B "ab"); Some (B "abc"); Some (B "zz")],
        [None; None; None; None; None; None; None; Some (B "1"); Some (B "2"); Some (B "1"); None; Some (B "1")]).
Proof. split; vm_compute; reflexivity. Qed.

(** C66: when everything is dropped, memory that is left consists of empty children vectors with as many references as [canonicalize] forgot (C58); without these, nothing is left. *)
Theorem C66_freed :
  forall dbg p f l, fx_run dbg p fx_start = Some (f, l) ->
  exists fuel x h, (forall fuel', fuel <= fuel' -> x_run fuel' dbg (p ++ x_drop_all f) x_start [] = Done (x, h)) /\
    Forall (fun e => snd e = CNodes []) (in_use h) /\ list_sum (map fst (in_use h)) = l /\ (l = 0 -> in_use h = []).
Proof. exact x_freed. Qed.
Print Assumptions C66_freed.
Example C66_freed_example :
  match x_run 60 true (build ++ XIter 0 [] :: meddle) x_start [] with Done (_, h) => 0 < length (in_use h) | _ => False end /\
  match x_run 60 true ((build ++ XIter 0 [] :: meddle) ++ x_drop_all meddled) x_start [] with Done (_, h) => in_use h = [] | _ => False end.
Proof. split; vm_compute; [repeat constructor|reflexivity]. Qed.

(** C66: an iterator gives the entries of the tree at the time it was made, in order and then the end, whatever is done in between to the tree, to clones of it and to other iterators. *)
Theorem C66_snapshot :
  forall dbg p r pre q f l n es f1 l1 f2 l2, fx_run dbg p fx_start = Some (f, l) ->
  fvar r (fx_env f) = FNode n -> listing pre n = Some es ->
  fx_step dbg (XIter r pre) f = Some (f1, l1) ->
  Forall (leaves_iter (length (fx_iters f))) q -> fx_run dbg q f1 = Some (f2, l2) ->
  exists fuel x h, (forall fuel', fuel <= fuel' ->
    x_run fuel' dbg (p ++ XIter r pre :: q ++ repeat (XNext (length (fx_iters f))) (S (length es))) x_start [] = Done (x, h)) /\
    Forall2 (key_shows h) (map (fun e => Some (fst e)) es ++ [None]) (skipn (length (fx_keys f2)) (x_keys x)) /\
    Forall2 (slot_shows h) (map (fun e => FValue (snd e)) es ++ [FGone]) (skipn (length (fx_env f2)) (x_env x)).
Proof. exact x_snapshot. Qed.
Print Assumptions C66_snapshot.
Example C66_snapshot_example :
  fx_run true build fx_start = Some (built, 0) /\ fvar 0 (fx_env built) = FNode ex_t /\
  listing [] ex_t = Some (map (fun e => (fst e, Data (snd e))) ex_es) /\
  fx_step true (XIter 0 []) built = Some (snap, 0) /\
  Forall (leaves_iter (length (fx_iters built))) meddle /\ fx_run true meddle snap = Some (meddled, 0) /\
  option_map fst (observe (x_run 60 true (build ++ XIter 0 [] :: meddle ++ repeat (XNext 0) 5) x_start [])) =
  Some [Some (B "ab"); Some (B "abc"); Some (B "zz"); Some (B "ab"); Some (B "abc"); Some (B "abd"); Some (B "b"); None].
Proof.
  destruct build_runs as [H1 H2]. destruct meddle_runs as (H3 & H4 & H5 & H6 & _). repeat (split; [assumption|]). vm_compute. reflexivity.
Qed.

(** C66: these are the entries of the map that the tree holds, by ascending key. *)
Theorem C66_listing :
  forall dbg n m, reachable dbg n -> holds mem n m ->
  exists l, lists l m /\ listing [] n = Some (map (fun e => (fst e, Data (snd e))) l).
Proof. exact listing_map. Qed.
Print Assumptions C66_listing.
Example C66_listing_example : reachable true ex_t /\ holds mem ex_t ex_m /\
  listing [] ex_t = Some (map (fun e => (fst e, Data (snd e))) ex_es).
Proof. split; [exact ex_reachable|]. split; [exact ex_holds|]. vm_compute. reflexivity. Qed.
