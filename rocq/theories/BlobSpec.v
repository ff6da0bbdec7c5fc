(** What blobs should do.  This file is part of the statements. *)
From Verif Require Import Base BaseLemmas Blob.
Local Open Scope N_scope.

(** A blob shows the bytes [v_bytes], a part of the [v_src]-th piece of memory from
    [v_off] on; [v_owned]: it keeps that memory alive. *)
Record view : Type := View { v_src : nat; v_off : nat; v_bytes : bytes; v_owned : bool }.
Definition nothing : view := View 0 0 [] false.

(** The positions of a sequence of [len] elements that a range selects: from [s] to
    before [e].  [None]: not a range inside. *)
Definition first_pos (lo : bound) : N := match lo with Included n => n | Excluded n => n + 1 | Unbounded => 0 end.
Definition end_pos (len : N) (hi : bound) : N := match hi with Included n => n + 1 | Excluded n => n | Unbounded => len end.
Definition inside (len : N) (lo hi : bound) : bool := (first_pos lo <=? end_pos len hi) && (end_pos len hi <=? len).
Definition part (s n : nat) (d : bytes) : bytes := firstn n (skipn s d).
Definition v_part (v : view) (s n : nat) : view :=
  if (n =? 0)%nat then nothing else View (v_src v) (v_off v + s) (part s n (v_bytes v)) (v_owned v).
Definition v_slice (v : view) (lo hi : bound) : option view :=
  let len := N.of_nat (length (v_bytes v)) in
  if inside len lo hi then Some (v_part v (N.to_nat (first_pos lo)) (N.to_nat (end_pos len hi - first_pos lo))) else None.

(** The number of pieces of memory made so far, and the blobs. *)
Record vstate : Type := VState { vs_srcs : nat; vs_blobs : list (option view) }.
Definition view_no (s : vstate) (i : nat) : option view :=
  match nth_error (vs_blobs s) i with Some (Some v) => Some v | _ => None end.
Definition vpush (v : view) (s : vstate) : vstate := VState (vs_srcs s) (vs_blobs s ++ [Some v]).
Definition vnew (d : bytes) (o : bool) (s : vstate) : vstate :=
  VState (S (vs_srcs s)) (vs_blobs s ++ [Some (View (vs_srcs s) 0 d o)]).
Definition vdrop (i : nat) (s : vstate) : vstate := VState (vs_srcs s) (set_nth i None (vs_blobs s)).
(** One call: the result and the new state; [None] if a blob does not exist. *)
Definition vstep (c : bcall) (s : vstate) : option (out unit * vstate) :=
  match c with
  | BVec _ d => Some (Good tt, vnew d true s)
  | BBorrow _ d => Some (Good tt, vnew d false s)
  | BClone i => match view_no s i with Some v => Some (Good tt, vpush v s) | None => None end
  | BSlice i lo hi =>
      match view_no s i with
      | Some v => Some (match v_slice v lo hi with Some w => (Good tt, vpush w s) | None => (Panics, s) end)
      | None => None
      end
  | BSliceRef i j a n =>
      match view_no s i, view_no s j with
      | Some v, Some w =>
          (* the subset has to be a part of the blob, unless it is empty *)
          if (a + n <=? length (v_bytes w))%nat &&
             ((n =? 0)%nat ||
              ((v_src v =? v_src w)%nat && (v_off v <=? v_off w + a)%nat &&
               (v_off w + a + n <=? v_off v + length (v_bytes v))%nat))
          then Some (Good tt, vpush (if (n =? 0)%nat then nothing
                                     else View (v_src w) (v_off w + a) (part a n (v_bytes w)) (v_owned v)) s)
          else Some (Panics, s)
      | _, _ => None
      end
  | BOwned i _ =>
      match view_no s i with
      | Some v => Some (Good tt, if v_owned v then vpush v (vdrop i s) else vnew (v_bytes v) true (vdrop i s))
      | None => None
      end
  | BDrop i => match view_no s i with Some _ => Some (Good tt, vdrop i s) | None => None end
  end.
Fixpoint vrun (cs : list bcall) (s : vstate) : option (list (out unit) * vstate) :=
  match cs with
  | [] => Some ([], s)
  | c :: cs =>
      match vstep c s with
      | Some (r, s) => match vrun cs s with Some (rs, s) => Some (r :: rs, s) | None => None end
      | None => None
      end
  end.

(** The range bounds are numbers of the machine; without overflow checks (release
    builds) a range must not start after the largest of them. *)
Definition bound_ok (b : bound) : Prop := match b with Included n | Excluded n => n <= usize_max | Unbounded => True end.
Definition call_ok (dbg : bool) (c : bcall) : Prop :=
  match c with
  | BSlice _ lo hi => bound_ok lo /\ bound_ok hi /\ (dbg = true \/ lo <> Excluded usize_max)
  | _ => True
  end.
(** The allocator gives memory that is not in use: all pieces of memory that a call
    takes while others are live are apart from them, and end below [2^64]. *)
Definition live (g : region) : Prop := r_refs g <> Some 0%nat.
Definition apart (base : N) (d : bytes) (g : region) : Prop :=
  base + N.of_nat (length d) <= r_base g \/ r_base g + N.of_nat (length (r_data g)) <= base.
Definition taken (c : bcall) (s : bstate) : option (N * bytes) :=
  match c with
  | BVec base d | BBorrow base d => Some (base, d)
  | BOwned i base =>
      match blob_no s i with
      | Some b => match b_owner b, b_read (bs_mem s) b with None, Good d => Some (base, d) | _, _ => None end
      | None => None
      end
  | _ => None
  end.
Definition fresh_memory (c : bcall) (s : bstate) : Prop :=
  match taken c s with
  | Some (base, d) => base + N.of_nat (length d) <= usize_max /\ Forall (fun g => live g -> apart base d g) (bs_mem s)
  | None => True
  end.
Fixpoint allocates (dbg : bool) (cs : list bcall) (s : bstate) : Prop :=
  match cs with
  | [] => True
  | c :: cs => fresh_memory c s /\ allocates dbg cs (snd (bstep dbg c s))
  end.
(** Memory is alive as long as a blob needs it: the [r]-th piece of memory is freed when
    it was owned and no blob owns it any more. *)
Definition owners (r : nat) (l : list (option view)) : nat :=
  length (filter (fun v => match v with Some v => v_owned v && (v_src v =? r)%nat | None => false end) l).
