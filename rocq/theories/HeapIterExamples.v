(** Programs for the theorems about iterators in memory. *)
From Verif Require Export MemExamples.
From Verif Require Import Base Header Node Store Heap HeapSpec HeapIter HeapIterSpec.

(** The tree [ex_t] built in memory, node by node. *)
Definition build : list xinstr := map XOp
  [INode; INode; IMut 1 [] (OPrefix (B"ab")); IMut 1 [] (OValue (Some (B"1")));
   INode; IMut 2 [] (OPrefix (B"c")); IMut 2 [] (OValue (Some (B"2")));
   INode; IMut 3 [] (OPrefix (B"d")); IMut 3 [] (OValue (Some (B"3")));
   INewArc [2; 3]; IMut 1 [] (OChildrenArc 4);
   INode; IMut 5 [] (OPrefix (B"b")); IMut 5 [] (OValue (Some (B"")));
   INewArc [1; 5]; IMut 0 [] (OChildrenArc 6)].
Definition built : fxst := Eval vm_compute in match fx_run true build fx_start with Some (f, _) => f | None => fx_start end.
Lemma build_runs : fx_run true build fx_start = Some (built, 0) /\ fvar 0 (fx_env built) = FNode ex_t.
Proof. split; vm_compute; reflexivity. Qed.

(** With the iterator in place: a second iterator on the same nodes is advanced, values
    and edges below the root are changed, a node is removed, the tree is dropped. *)
Definition meddle : list xinstr :=
  [XIter 0 []; XNext 1; XNext 1; XValues 0; XNextValue 0;
   XOp (IMut 0 [0; 1] (OValue (Some (repeat "x"%byte 200)))); XOp (IMut 0 [0] (OPrefix (B"zz")));
   XOp (IMut 0 [] (ORemove 1)); XIter 0 []; XNext 2; XOp (IDrop 0)].
Definition ex_es : list (bytes * bytes) := [(B"ab", B"1"); (B"abc", B"2"); (B"abd", B"3"); (B"b", B"")].
Definition snap : fxst := Eval vm_compute in
  match fx_step true (XIter 0 []) built with Some (f, _) => f | None => fx_start end.
Definition meddled : fxst := Eval vm_compute in
  match fx_run true meddle snap with Some (f, _) => f | None => fx_start end.
Lemma meddle_runs : fx_step true (XIter 0 []) built = Some (snap, 0) /\
  Forall (leaves_iter (length (fx_iters built))) meddle /\ fx_run true meddle snap = Some (meddled, 0) /\
  listing [] ex_t = Some (map (fun e => (fst e, Data (snd e))) ex_es) /\
  fx_keys meddled = [Some (B"ab"); Some (B"abc"); Some (B"zz")].
Proof.
  split; [vm_compute; reflexivity|]. split; [repeat constructor; discriminate|]. split; [vm_compute; reflexivity|].
  split; vm_compute; reflexivity.
Qed.

(** What a run gives: the keys, and the values of variables. *)
Definition observe (r : out (xst * heap)) : option (list (option bytes) * list (option bytes)) :=
  match r with
  | Done (x, h) =>
      Some (map (fun a => match a with
                          | Some a => match arc_get a h with Done ((_, CBytes k), _) => Some k | _ => None end
                          | None => None end) (x_keys x),
            map (fun s => match s with
                          | SValue hd w => match blob_read hd w h with Done (v, _) => Some v | _ => None end
                          | _ => None end) (x_env x))
  | _ => None
  end.
