(** C83: reading stored nodes stays within the block.  Memory, [raw]: Raw.v; [block], [use], [uses]: RawSpec.v; [deserialize],
    [iter]: Node.v. *)
From Verif Require Import MemExamples RawExamples Base Header Node Raw RawSpec RawProofs.

(** C83: whatever bytes a block has and whatever is in the memory around it, any calls on an iterator over the block and any
    reads of the nodes it returned read only bytes of the block, do not panic, and return what the bytes of the block say. *)
Theorem C83_iterator :
  forall m a bs, block m a bs -> forall us,
  raw_uses m (RIter (Slice a (length bs)) 0) [] us = Val (uses (IBorrowed bs) [] us).
Proof. exact raw_iter_safe. Qed.
Print Assumptions C83_iterator.
Example C83_iterator_example : block rw_mem 100 rw_bytes /\ rw_mem 99 = None /\ rw_mem 112 = None /\
  raw_uses rw_mem (RIter (Slice 100 12) 0) [] rw_uses =
    Val (let a := BNode (Data (B "a")) (Data (B "1")) (Id []) in let b := BNode (Data (B "b")) (Id []) (Id []) in
         [SawByte (Some (Some "a"%byte)); SawNode (Some b); SawNode (Some a); SawNode (Some b); SawNode (Some b); SawNode None;
          SawByte None; SawNode None; SawNode (Some b)]) /\
  raw_uses rw_mem (RIter (Slice 100 16) 0) [] [UNext; UNext; UNext] = Undef.
Proof.
  split; [exact rw_block|]. split; [reflexivity|]. split; [reflexivity|]. split; [reflexivity|]. reflexivity.
Qed.

(** C83: the same for loading the root of a tree from a block. *)
Theorem C83_load :
  forall m a bs, block m a bs -> raw_deserialize m (Slice a (length bs)) = Val (deserialize bs).
Proof. exact raw_deserialize_safe. Qed.
Print Assumptions C83_load.
Example C83_load_example : block rw_mem 100 rw_bytes /\ block rw_mem 100 (firstn 5 rw_bytes) /\
  raw_deserialize rw_mem (Slice 100 12) = Val Err /\
  raw_deserialize rw_mem (Slice 100 5) = Val (Ok (Node (Data (B "a")) (Data (B "1")) (KId []))).
Proof.
  split; [exact rw_block|]. split; [|split; reflexivity].
  intros i b E. apply rw_block. do 5 (destruct i as [|i]; [exact E|]). destruct i; discriminate.
Qed.
