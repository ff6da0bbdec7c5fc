From Verif Require Import MemExamples Base Header Node Raw RawSpec.
(** Two nodes, "a" with value "1" and "b" without, and then a header that promises five bytes although two are left; there is
    no memory besides. *)
Definition rw_bytes : bytes :=
  [x01; "a"; x01; "1"; x80; x01; "b"; x80; x80; x05; "c"; "d"]%byte.
Definition rw_mem : memory := fun i => if 100 <=? i then nth_error rw_bytes (i - 100) else None.
Lemma rw_block : block rw_mem 100 rw_bytes.
Proof. intros i b E. unfold rw_mem. replace (100 <=? 100 + i) with true by (symmetry; apply Nat.leb_le; lia). now replace (100 + i - 100) with i by lia. Qed.
Definition rw_uses : list use := [UFirst; UFind "b"; UNext; ULast; UNext; UNext; UFirst; UFind "z"; URead 0]%byte.
