(** A program for the theorems about grouping in memory. *)
From Verif Require Export HeapIterExamples.
From Verif Require Import Base Header Node Store Heap HeapSpec HeapIter HeapIterSpec HeapGroup HeapGroupSpec.

(** Descend below paths of at most one byte; descend everywhere. *)
Definition short (p : bytes) (v : option bytes) : bool := length p <=? 1.
Definition every (p : bytes) (v : option bytes) : bool := true.
Definition g_built : fgst := Eval vm_compute in
  match fg_run true (map GDo build) fg_start with Some (f, _) => f | None => fg_start end.
Definition g_snap : fgst := Eval vm_compute in
  match fg_step true (GGroup 0 short) g_built with Some (f, _) => f | None => fg_start end.
(** With the iterator in place: a second one is advanced, the tree that it gave and the
    tree itself are changed, and the tree is dropped. *)
Definition g_meddle : list ginstr :=
  [GGroup 0 every; GNext 1; GNext 1; GDo (XOp (IMut 7 [] (OValue (Some (repeat "x"%byte 200)))));
   GDo (XOp (IMut 0 [0; 1] (OValue None))); GDo (XOp (IMut 0 [0] (OPrefix (B"zz"))));
   GDo (XOp (IMut 0 [] (ORemove 1))); GDo (XOp (IDrop 0)); GDrop 1].
Definition g_meddled : fgst := Eval vm_compute in
  match fg_run true g_meddle g_snap with Some (f, _) => f | None => fg_start end.
(** The first group is the tree below "ab" as it was. *)
Definition g_first : list node := Eval vm_compute in
  match grouping short [] ex_t with Some gs => gs | None => [] end.
Lemma g_runs : fg_run true (map GDo build) fg_start = Some (g_built, 0) /\ fvar 0 (fx_env (fg_x g_built)) = FNode ex_t /\
  fg_step true (GGroup 0 short) g_built = Some (g_snap, 0) /\ grouping short [] ex_t = Some g_first /\
  Forall (leaves_groups (length (fg_groups g_built))) g_meddle /\ fg_run true g_meddle g_snap = Some (g_meddled, 0).
Proof.
  split; [vm_compute; reflexivity|]. split; [vm_compute; reflexivity|]. split; [vm_compute; reflexivity|].
  split; [vm_compute; reflexivity|]. split; [repeat constructor; discriminate|]. vm_compute. reflexivity.
Qed.
