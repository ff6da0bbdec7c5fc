(** The memory representation of nodes (C42, C57, C58).

    [h_run] (Heap.v) runs a program on reference counted memory with unions, where
    [Undefined] is undefined behaviour; [f_run] (HeapSpec.v) runs the same program on
    plain values, together with the number of pointers that [canonicalize] forgets.
    [slot_shows h f s]: in memory [h], the accessors see the value [f] in the variable
    [s], down to the leaves.  [in_use h]: counts and contents of memory not freed. *)
From Verif Require Import HeapExamples Base Header Node Store Heap HeapSpec HeapOps HeapTop.

(** C42: data of any length put into an 8 byte field reads back, and the header tells whether the field is a pointer. *)
Theorem C42_data :
  forall d h, exists w h', blob_word d h = Done (w, h') /\
    blob_read (hdr_data (length d)) w h' = Done (d, h') /\ hdr_is_id (hdr_data (length d)) = false /\
    (is_arc (hdr_data (length d)) = true <-> exists a, w = Ptr a).
Proof. exact (fun d h => field_back (Data d) _ h eq_refl). Qed.
Print Assumptions C42_data.
Example C42_data_example :
  map (fun n => match blob_word (long n) [] with
                | Done (w, h) => match blob_read (hdr_data n) w h with Done (d, _) => Some (length d, is_arc (hdr_data n)) | _ => None end
                | _ => None end) [0; 1; 8; 9; 126; 127; 128; 1000] =
  [Some (0, false); Some (1, false); Some (8, false); Some (9, true); Some (126, true); Some (127, true);
   Some (128, true); Some (1000, true)].
Proof. vm_compute. reflexivity. Qed.

(** C42: the same for ids, which have at most 127 bytes. *)
Theorem C42_id :
  forall d hdr h, hdr_id (length d) = Ok hdr -> exists w h', blob_word d h = Done (w, h') /\
    blob_read hdr w h' = Done (d, h') /\ hdr_is_id hdr = true /\
    (is_arc hdr = true <-> exists a, w = Ptr a).
Proof. exact (fun d hdr h => field_back (Id d) hdr h). Qed.
Print Assumptions C42_id.
Example C42_id_example : hdr_id (length (long 127)) = Ok xff /\ hdr_id (length (long 8)) = Ok x88 /\
  match blob_word (long 127) [] with Done (w, h) => blob_read xff w h = Done (long 127, h) | _ => False end.
Proof. repeat split; vm_compute; reflexivity. Qed.

(** C57: no program on nodes has undefined behaviour, and all variables have the values they would have without any sharing. *)
Theorem C57_values :
  forall dbg p fe l, f_run dbg p [] = Some (fe, l) ->
  exists e h, h_run dbg p [] [] = Done (e, h) /\ Forall2 (slot_shows h) fe e.
Proof. exact run_shows. Qed.
Print Assumptions C57_values.
Example C57_values_example : f_run false sharing [] = Some (sharing_result, 0) /\
  match h_run false sharing [] [] with
  | Done (e, h) => length e = 7 /\ map fst (in_use h) = [1; 2; 2; 3]
  | _ => False
  end.
Proof. split; [exact sharing_runs|]. vm_compute. split; reflexivity. Qed.

(** C57: a variable keeps its value, whatever is done to clones of it or to nodes that share memory with it. *)
Theorem C57_clones_independent :
  forall dbg p q r fe l fe' l', f_run dbg p [] = Some (fe, l) -> f_run dbg q fe = Some (fe', l') ->
  r < length fe -> ~ In r (flat_map changed q) ->
  exists e h, h_run dbg (p ++ q) [] [] = Done (e, h) /\ slot_shows h (fvar r fe) (var r e).
Proof. exact run_untouched. Qed.
Print Assumptions C57_clones_independent.
Example C57_clones_independent_example :
  match f_run false (firstn 6 sharing) [] with
  | Some (fe, _) => fvar 2 fe = fvar 1 fe /\ 2 < length fe /\ ~ In 2 (flat_map changed (skipn 6 sharing)) /\
      match f_run false (skipn 6 sharing) fe with Some (fe', _) => fvar 2 fe' <> fvar 1 fe' | None => False end
  | None => False
  end.
Proof.
  vm_compute. split; [reflexivity|]. split; [lia|]. split; [|discriminate].
  intros H. repeat destruct H as [H|H]; try discriminate H. exact H.
Qed.

(** C58: not all memory is freed when all variables are dropped. *)
Theorem C58_all_freed_refuted : ~ all_freed.
Proof. exact not_all_freed. Qed.
Print Assumptions C58_all_freed_refuted.

(** C58: what is proved: memory that is left consists of empty children vectors, and there are as many references to them as [canonicalize] forgot; without these, nothing is left. *)
Theorem C58_freed_partial :
  forall dbg p fe l, f_run dbg p [] = Some (fe, l) ->
  exists e h, h_run dbg (p ++ drop_all (length fe)) [] [] = Done (e, h) /\
    Forall (fun x => snd x = CNodes []) (in_use h) /\ list_sum (map fst (in_use h)) = l.
Proof. exact run_freed. Qed.
Print Assumptions C58_freed_partial.
Theorem C58_freed_all_partial :
  forall dbg p fe, f_run dbg p [] = Some (fe, 0) ->
  exists e h, h_run dbg (p ++ drop_all (length fe)) [] [] = Done (e, h) /\ in_use h = [].
Proof. exact run_freed_all. Qed.
Print Assumptions C58_freed_all_partial.
Example C58_freed_example : f_run false sharing [] = Some (sharing_result, 0) /\
  match h_run false sharing [] [] with Done (_, h) => map fst (in_use h) = [1; 2; 2; 3] | _ => False end.
Proof. split; [exact sharing_runs|]. vm_compute. reflexivity. Qed.

(** C58: each removal of the only key leaks the vector that [load_children_mut] made, for any number of removals. *)
Theorem C58_leak_refuted :
  forall dbg n, exists e h, h_run dbg (churn n ++ drop_all (S (2 * n))) [] [] = Done (e, h) /\
    Forall (fun x => snd x = CNodes []) (in_use h) /\ list_sum (map fst (in_use h)) = n.
Proof. exact churn_leaks. Qed.
Print Assumptions C58_leak_refuted.
Example C58_leak_example :
  match h_run true (churn 3 ++ drop_all 7) [] [] with
  | Done (e, h) => e = repeat SGone 7 /\ in_use h = [(1, CNodes []); (1, CNodes []); (1, CNodes [])]
  | _ => False
  end.
Proof. vm_compute. split; reflexivity. Qed.
