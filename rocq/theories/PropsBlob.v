(** The properties of blobs (C50, C61).

    [vrun cs (VState 0 []) = Some (rs, v)]: by BlobSpec.v the calls [cs] have the results
    [rs] and leave the blobs [v].  [allocates]: the allocator gives memory that is not
    in use. *)
From Verif Require Import BlobExamples Base BaseLemmas Blob BlobSpec BlobProofs.
Local Open Scope N_scope.

(** C50, partly: for every program that makes, clones, slices and drops blobs, [slice] returns the requested bytes for ranges inside the blob and panics for the others, [slice_ref] returns the given bytes if they are part of the blob and panics if not, and each blob shows its bytes until it is dropped.  Missing: in release builds a range that starts after the largest number, see C50_refuted. *)
Theorem C50_programs_partial :
  forall dbg cs rs v, Forall (call_ok dbg) cs -> allocates dbg cs (BState [] []) -> vrun cs (VState 0 []) = Some (rs, v) ->
  exists s, brun dbg cs (BState [] []) = (rs, s) /\
  forall i w, view_no v i = Some w -> exists b, blob_no s i = Some b /\ b_read (bs_mem s) b = Good (v_bytes w).
Proof. exact blob_programs. Qed.
Print Assumptions C50_programs_partial.
Example C50_programs_example : Forall (call_ok true) blob_calls /\ allocates true blob_calls (BState [] []) /\
  match vrun blob_calls (VState 0 []) with
  | Some (rs, v) =>
      rs = [Good tt; Good tt; Good tt; Good tt; Panics; Good tt; Panics; Good tt; Panics; Good tt; Good tt; Good tt; Good tt; Good tt] /\
      vs_blobs v = [None; None; None; None; None; Some (View 2 0 (B "static") true); Some nothing]
  | None => False
  end.
Proof. exact blob_calls_ok. Qed.

(** C50: a slice of a slice shows the bytes at the sum of the two starts. *)
Theorem C50_compose :
  forall v lo hi w lo' hi' x, v_slice v lo hi = Some w -> v_slice w lo' hi' = Some x ->
  v_bytes x = part (N.to_nat (first_pos lo) + N.to_nat (first_pos lo'))
    (N.to_nat (end_pos (N.of_nat (length (v_bytes w))) hi' - first_pos lo')) (v_bytes v).
Proof. exact slice_of_slice. Qed.
Print Assumptions C50_compose.
Example C50_compose_example :
  v_slice (View 0 0 (B "hello") true) (Included 1) (Included 4) = Some (View 0 1 (B "ello") true) /\
  v_slice (View 0 1 (B "ello") true) (Excluded 0) Unbounded = Some (View 0 2 (B "llo") true).
Proof. vm_compute; auto. Qed.

(** C50 fails in release builds: a range that starts after [usize::MAX] gives the whole blob instead of a panic. *)
Theorem C50_refuted :
  exists s, brun false [BVec 1000 (B "abc"); BSlice 0 (Excluded usize_max) Unbounded] (BState [] []) = ([Good tt; Good tt], s) /\
  inside 3 (Excluded usize_max) Unbounded = false /\
  exists b, blob_no s 1 = Some b /\ b_read (bs_mem s) b = Good (B "abc").
Proof. exact slice_wraps. Qed.
Print Assumptions C50_refuted.

(** C61: no such program reads or frees memory that was freed; each piece of memory has as many references as there are blobs that own a part of it, so it is freed when the last of them is dropped, and not before. *)
Theorem C61_memory :
  forall dbg cs rs v, Forall (call_ok dbg) cs -> allocates dbg cs (BState [] []) -> vrun cs (VState 0 []) = Some (rs, v) ->
  exists s, brun dbg cs (BState [] []) = (rs, s) /\ ~ In Undefined rs /\ length (bs_mem s) = vs_srcs v /\
  forall r g k, nth_error (bs_mem s) r = Some g -> r_refs g = Some k -> k = owners r (vs_blobs v).
Proof. exact blob_memory. Qed.
Print Assumptions C61_memory.
Example C61_memory_example :
  match vrun blob_calls (VState 0 []) with
  | Some (_, v) => owners 0 (vs_blobs v) = 0%nat /\ owners 2 (vs_blobs v) = 1%nat
  | None => False
  end /\ map r_refs (bs_mem (snd (brun true blob_calls (BState [] [])))) = [Some 0; None; Some 1]%nat.
Proof. vm_compute; auto. Qed.
