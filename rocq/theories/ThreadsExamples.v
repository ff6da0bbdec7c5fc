(** Two threads that save trees to one store at the same time. *)
From Verif Require Import MemExamples StoreExamples Base BaseLemmas Header Node Combine Iter Api Spec Client Top TopOps MemLemmas
  Store StoreSpec World U64 MemStore MemStoreProofs ThreadsSpec.

(** The store of thread [i], which also remembers the first write that is not in the log. *)
Definition asking (i : nat) : store := {|
  st := shared mem_store * option bytes;
  st_read := fun x => st_read (thread mem_store i) (fst x);
  st_write := fun x d =>
    let (r, x') := st_write (thread mem_store i) (fst x) d in
    (r, (x', match snd x, next i (coming (fst x)) with None, None => Some d | o, _ => o end))
|}.
Definition ask (l : log) (i : nat) (h : list cmd) : option bytes :=
  match exec true (asking i) (start (S := asking i) (Shared (S := mem_store) [] l [] true, None)) h 400 with
  | Ok (_, w) => snd (w_st w)
  | _ => None
  end.
(** The log that arises if the threads come to write in the given order. *)
Fixpoint build (l : log) (order : list nat) (hs : list (list cmd)) : log :=
  match order with
  | [] => l
  | i :: order => build (match ask l i (nth i hs []) with Some d => l ++ [(i, d)] | None => l end) order hs
  end.

Lemma runs_eval dbg S s l i h ms n oks x ts ids :
  exec dbg (thread S i) (start (S := thread S i) (Shared s l ms true)) h n = Ok (oks, World x ts ids) ->
  as_logged x = true -> next i (coming x) = None -> runs dbg S s l i h oks ts ids.
Proof.
  intros E A N. exists ms, x. split; [|split; [exact A|exact N]].
  apply conv_mono with (n := n); [apply exec_mono|exact E].
Qed.
Section Ends.
Context (dbg : bool) (S : store) (s : st S) (l : log) (i : nat) (h : list cmd) (ms : list (bytes -> nat)) (n : nat).
Let r := exec dbg (thread S i) (start (S := thread S i) (Shared s l ms true)) h n.
Definition ends : list bool * world (thread S i) :=
  match r with Ok x => x | _ => ([], start (S := thread S i) (Shared s l ms true)) end.
(** All calls succeeded and the log was followed. *)
Definition well : bool :=
  match r with
  | Ok (oks, w) => forallb (fun b => b) oks && as_logged (w_st w) && match next i (coming (w_st w)) with None => true | _ => false end
  | _ => false
  end.
Lemma runs_ends : well = true -> runs dbg S s l i h (fst ends) (w_trees (snd ends)) (w_ids (snd ends)).
Proof.
  unfold well, ends. destruct r as [[o [x t ids]]| | |] eqn:E; try discriminate. cbn [w_st w_trees w_ids fst snd].
  intros H. apply andb_prop in H. destruct H as [H N]. apply andb_prop in H. destruct H as [_ A].
  subst r. apply (runs_eval dbg S s l i h ms n _ _ _ _ E A). destruct (next i (coming x)); [discriminate|reflexivity].
Qed.
End Ends.

Definition th_p (c : byte) : prog :=
  PCollect (map (fun b => ([c; b], repeat b 200)) [x01; x02; x03]).
Definition th_h (c : byte) : list cmd :=
  [CAttach (th_p c); CInsert 0 [c; x02; x05] (repeat c 300); CReattach 0; CInsert 0 [c] (B"unsaved")].
Lemma th_ok c dbg : history_ok dbg (th_h c).
Proof. left. unfold th_h. repeat (apply Forall_cons; [cbn; try tauto; left; discriminate|]). apply Forall_nil. Qed.

Definition th_order : list nat := [0; 1; 1; 0; 0; 1; 0; 1; 1; 0; 1; 0; 1; 1; 0; 0; 1; 0; 1; 0; 1; 0; 1; 0].
Definition th_log : log := Eval vm_compute in build [] th_order [th_h x41; th_h x42].
Lemma th_log_order : map fst th_log = [0; 1; 1; 0; 0; 1; 0; 1; 1; 0; 1; 0; 1; 1; 0; 0].
Proof. reflexivity. Qed.

(** Here every read sees one more write of the other thread if there is one. *)
Definition th_ms : list (bytes -> nat) := repeat (fun _ => 1) 20.
Definition th_end (i : nat) (c : byte) := ends true mem_store [] th_log i (th_h c) th_ms 400.
Lemma th_runs0 : runs true mem_store [] th_log 0 (th_h x41) (fst (th_end 0 x41)) (w_trees (snd (th_end 0 x41))) (w_ids (snd (th_end 0 x41))).
Proof. apply runs_ends. vm_compute. reflexivity. Qed.
Lemma th_runs1 : runs true mem_store [] th_log 1 (th_h x42) (fst (th_end 1 x42)) (w_trees (snd (th_end 1 x42))) (w_ids (snd (th_end 1 x42))).
Proof. apply runs_ends. vm_compute. reflexivity. Qed.
