(** A program with blobs, and what goes wrong. *)
From Verif Require Export MemExamples.
From Verif Require Import Base BaseLemmas Blob BlobSpec BlobProofs.
Local Open Scope N_scope.

Definition blob_calls : list bcall :=
  [BVec 1000 (B"hello, world"); BSlice 0 (Included 7) Unbounded; BDrop 0; BSlice 1 (Excluded 0) (Included 2); BSlice 1 (Included 2) (Excluded 9);
   BSliceRef 1 2 1 1; BSliceRef 2 1 0 1; BBorrow 1012 (B"static"); BSliceRef 1 4 0 2; BOwned 4 2000; BSlice 2 (Included 1) (Excluded 1);
   BDrop 1; BDrop 2; BDrop 3].

Lemma blob_calls_ok : Forall (call_ok true) blob_calls /\ allocates true blob_calls (BState [] []) /\
  match vrun blob_calls (VState 0 []) with
  | Some (rs, v) =>
      rs = [Good tt; Good tt; Good tt; Good tt; Panics; Good tt; Panics; Good tt; Panics; Good tt; Good tt; Good tt; Good tt; Good tt] /\
      vs_blobs v = [None; None; None; None; None; Some (View 2 0 (B"static") true); Some nothing]
  | None => False
  end.
Proof.
  split; [repeat constructor; cbn; try (left; reflexivity); discriminate|].
  split; [|vm_compute; auto].
  vm_compute. repeat split; try discriminate; repeat (apply Forall_cons); try apply Forall_nil; vm_compute; intros _;
    first [left; discriminate|right; discriminate].
Qed.

Lemma slice_wraps :
  exists s, brun false [BVec 1000 (B"abc"); BSlice 0 (Excluded usize_max) Unbounded] (BState [] []) = ([Good tt; Good tt], s) /\
  inside 3 (Excluded usize_max) Unbounded = false /\
  exists b, blob_no s 1 = Some b /\ b_read (bs_mem s) b = Good (B"abc").
Proof. eexists. split; [vm_compute; reflexivity|]. split; [vm_compute; reflexivity|]. eexists. split; vm_compute; reflexivity. Qed.
