(** What programs on nodes mean: values that are copied, moved and changed without
    any sharing.  This file is part of the statements. *)
From Verif Require Import Base Header Node Store Heap.

(** What a variable holds, as a value. *)
Inductive fslot : Type :=
| FNode (n : node)
| FValue (b : blob)
| FArc (ns : list node)
| FGone.
Definition fenv := list fslot.
Definition fvar (r : nat) (e : fenv) : fslot := nth r e FGone.

(** A field read from a buffer: header byte and as many bytes as it says. *)
Definition borrowed (h : byte) (d : bytes) : option blob :=
  if length d =? hdr_len h then Some (if hdr_is_id h then Id d else Data d) else None.

(** The node at a path; [None]: the program is not valid (index out of range,
    children not loaded). *)
Fixpoint f_at (n : node) (path : list nat) : option node :=
  match path with
  | [] => Some n
  | i :: path =>
      match n_kids n with
      | KArc ns => match nth_error ns i with Some x => f_at x path | None => None end
      | KId _ => None
      end
  end.
Definition f_place (s : fslot) (path : list nat) : option node :=
  match s, path with
  | FNode n, _ => f_at n path
  | FArc ns, i :: path => match nth_error ns i with Some x => f_at x path | None => None end
  | _, _ => None
  end.

(** Mutation at a path changes the node there and nothing else; besides new
    variables, operations report how many [Arc]s they leak. *)
Fixpoint f_mut (f : node -> option (node * list fslot * nat)) (path : list nat) (n : node)
  : option (node * list fslot * nat) :=
  match path with
  | [] => f n
  | i :: path =>
      match n_kids n with
      | KArc ns =>
          match nth_error ns i with
          | Some x =>
              match f_mut f path x with
              | Some (y, s, l) => Some (set_kids n (KArc (upd i y ns)), s, l)
              | None => None
              end
          | None => None
          end
      | KId _ => None
      end
  end.

(** [canonicalize] forgets the pointer to the (empty) children vector of a node
    without value and children. *)
Definition forgets (n : node) : nat :=
  let n1 := match blob_opt (n_value n), n_kids n with
            | None, KArc [c] => c
            | _, _ => n
            end in
  match blob_opt (n_value n1), n_kids n1 with None, KArc [] => 1 | _, _ => 0 end.

Definition f_op (dbg : bool) (e : fenv) (o : op) (n : node) : option (node * list fslot * nat) :=
  match o with
  | OPrefix d => Some (set_prefix_slice n d, [], 0)
  | OValue v => Some (set_value n (opt_value (option_map Data v)), [], 0)
  | OValueOwned r => match fvar r e with FValue b => Some (set_value n b, [], 0) | _ => None end
  | OPrefixBorrowed h d =>
      match borrowed h d with
      | Some b => Some (Node b (n_value n) (n_kids n), [], 0)
      | None => None
      end
  | OValueBorrowed h d =>
      match borrowed h d with Some b => Some (set_value n b, [], 0) | None => None end
  | OChildrenBorrowed h d =>
      match borrowed h d with Some (Id x) => Some (set_kids n (KId x), [], 0) | _ => None end
  | OChildrenId id => if length id <? 128 then Some (set_kids n (KId id), [], 0) else None
  | OChildrenArc r => match fvar r e with FArc ns => Some (set_kids n (KArc ns), [], 0) | _ => None end
  | OTakeValue => Some (set_value n bnone, [FValue (n_value n)], 0)
  | OSplit p k =>
      if k <=? length p then
        Some (Node (Data (firstn k p)) bnone
                (KArc [Node (Data (skipn k p)) (n_value n) (n_kids n)]), [], 0)
      else None
  | OCanonicalize =>
      match canonicalize dbg n with Ok n' => Some (n', [], forgets n) | _ => None end
  | OPush r =>
      match fvar r e, n_kids n with
      | FNode x, KArc ns => Some (set_kids n (KArc (ns ++ [x])), [], 0)
      | _, _ => None
      end
  | ORemove i =>
      match n_kids n with
      | KArc ns =>
          match nth_error ns i with
          | Some x => Some (set_kids n (KArc (firstn i ns ++ skipn (S i) ns)), [FNode x], 0)
          | None => None
          end
      | KId _ => None
      end
  end.

Fixpoint f_clear (rs : list nat) (e : fenv) : fenv :=
  match rs with [] => e | r :: rs => f_clear rs (upd r FGone e) end.
Fixpoint f_nodes (rs : list nat) (e : fenv) : option (list node) :=
  match rs with
  | [] => Some []
  | r :: rs =>
      match fvar r e, f_nodes rs (upd r FGone e) with
      | FNode n, Some ns => Some (n :: ns)
      | _, _ => None
      end
  end.

(** [None]: the program is not one that Rust accepts (a variable of the wrong type or
    one that was moved away), or it panics. *)
Definition f_step (dbg : bool) (i : instr) (e : fenv) : option (fenv * nat) :=
  match i with
  | INode => Some (e ++ [FNode n_empty], 0)
  | INewArc rs =>
      match f_nodes rs e with
      | Some ns => Some (f_clear rs e ++ [FArc ns], 0)
      | None => None
      end
  | IClone r path =>
      match f_place (fvar r e) path with Some n => Some (e ++ [FNode n], 0) | None => None end
  | IGetValue r path =>
      match f_place (fvar r e) path with
      | Some n => Some (e ++ [FValue (n_value n)], 0)
      | None => None
      end
  | IShare r path =>
      match f_place (fvar r e) path with
      | Some n => match n_kids n with KArc ns => Some (e ++ [FArc ns], 0) | KId _ => None end
      | None => None
      end
  | IMut r path o =>
      let e1 := f_clear (moved o) e in
      match fvar r e1 with
      | FNode n =>
          let e2 := upd r FGone e1 in
          match f_mut (f_op dbg (match o with OValueOwned _ => e2 | _ => e end) o) path n with
          | Some (n', s, l) => Some (upd r (FNode n') e2 ++ s, l)
          | None => None
          end
      | _ => None
      end
  | IDrop r => Some (upd r FGone e, 0)
  end.

Fixpoint f_run (dbg : bool) (p : list instr) (e : fenv) : option (fenv * nat) :=
  match p with
  | [] => Some (e, 0)
  | i :: p =>
      match f_step dbg i e with
      | Some (e', l) =>
          match f_run dbg p e' with Some (e'', l') => Some (e'', l + l') | None => None end
      | None => None
      end
  end.

(** What the accessors return in heap [h]: [slice()] and [is_id()] of the fields,
    [get_children()], and so on downwards. *)
Definition blob_shows (h : heap) (b : blob) (hdr : byte) (w : word) : Prop :=
  blob_read hdr w h = Done (blob_slice b, h) /\ hdr_is_id hdr = blob_is_id b.
Fixpoint shows (h : heap) (n : node) (c : cnode) : Prop :=
  match n with
  | Node p v k =>
      blob_shows h p (c_ph c) (c_p c) /\ blob_shows h v (c_vh c) (c_v c) /\
      match k with
      | KId id => h_children c h = Done (RId id, h)
      | KArc ns =>
          exists a cs, h_children c h = Done (RArc a, h) /\ vec_get a h = Done (cs, h) /\
          (fix all (ns : list node) (cs : list cnode) : Prop :=
             match ns, cs with
             | [], [] => True
             | n :: ns, c :: cs => shows h n c /\ all ns cs
             | _, _ => False
             end) ns cs
      end
  end.
Definition slot_shows (h : heap) (f : fslot) (s : slot) : Prop :=
  match f, s with
  | FNode n, SNode c => shows h n c
  | FValue b, SValue hdr w => blob_shows h b hdr w
  | FArc ns, SArc a => exists cs, vec_get a h = Done (cs, h) /\ Forall2 (shows h) ns cs
  | FGone, SGone => True
  | _, _ => False
  end.

(** The memory in use: addresses that are not freed. *)
Definition in_use (h : heap) : list (nat * cell) :=
  flat_map (fun e => match e with Some x => [x] | None => [] end) h.

(** The variables that an instruction changes, moves or drops. *)
Definition changed (i : instr) : list nat :=
  match i with
  | INewArc rs => rs
  | IMut r _ o => r :: moved o
  | IDrop r => [r]
  | INode | IClone _ _ | IGetValue _ _ | IShare _ _ => []
  end.
(** The end of all scopes. *)
Definition drop_all (n : nat) : list instr := map IDrop (seq 0 n).
(** When all variables are dropped, all memory is freed. *)
Definition all_freed : Prop :=
  forall dbg p fe l, f_run dbg p [] = Some (fe, l) ->
  exists e h, h_run dbg (p ++ drop_all (length fe)) [] [] = Done (e, h) /\ in_use h = [].
