(** The stored format of trees, as a specification.  It is independent of the code
    that writes it.  This file is part of the statements. *)
From Verif Require Import Base Client.

Definition len_byte (n : nat) : byte := byte_of (N.of_nat n).

Section Format.
(** [blob id d]: the store has the data [d] under [id]. *)
Context (blob : bytes -> bytes -> Prop).

(** A prefix of less than 128 bytes is its length and the bytes.  A longer one is
    stored; the field has bit 7 set in the length byte and holds the first byte of
    the prefix, followed by the id. *)
Inductive prefix_field : bytes -> bytes -> Prop :=
| pf_inline p : length p < 128 -> prefix_field p (len_byte (length p) :: p)
| pf_stored c q id : 128 <= length (c :: q) -> 1 <= length id <= 126 -> blob id (c :: q) ->
    prefix_field (c :: q) (len_byte (128 + (1 + length id)) :: c :: id).

(** Values likewise, without the extra byte; 0x80 is no value. *)
Inductive value_field : option bytes -> bytes -> Prop :=
| vf_none : value_field None [x80]
| vf_inline v : length v < 128 -> value_field (Some v) (len_byte (length v) :: v)
| vf_stored v id : 128 <= length v -> 1 <= length id <= 126 -> blob id v ->
    value_field (Some v) (len_byte (128 + length id) :: id).

(** The record size: the length of the records if they all have the same, and it
    fits into a byte; 0 otherwise. *)
Definition uniform (recs : list bytes) (n : nat) : Prop := n <= 255 /\ Forall (fun r => length r = n) recs.
Definition record_size (recs : list bytes) (b : byte) : Prop :=
  (exists n, uniform recs n /\ b = len_byte n) \/ ((forall n, ~ uniform recs n) /\ b = x00).

(** A node is the prefix field, the value field and the children field.  The
    children are the concatenation of their encodings, stored under an id; the
    field holds the record size and the id.  0x80 is no children. *)
Inductive encodes : shape -> bytes -> Prop :=
| enc_leaf p v pb vb : prefix_field p pb -> value_field v vb ->
    encodes (Shape p v []) (pb ++ vb ++ [x80])
| enc_inner p v cs recs pb vb rs id : prefix_field p pb -> value_field v vb ->
    cs <> [] -> Forall2 encodes cs recs -> record_size recs rs ->
    1 <= length id <= 126 -> blob id (concat recs) ->
    encodes (Shape p v cs) (pb ++ vb ++ len_byte (128 + (1 + length id)) :: rs :: id).
End Format.

(** A length-prefixed field: the low 7 bits of the first byte are the length of the
    rest; bit 7 tells whether it is an id. *)
Inductive field : bool -> bytes -> Prop :=
| field_intro h payload : N.of_nat (length payload) = (bnum h mod 128)%N ->
    field (128 <=? bnum h)%N (h :: payload).

(** Three fields after each other, the last one an id or not. *)
Definition three_fields (id_bit : bool) (data : bytes) : Prop :=
  exists i j a b c, field i a /\ field j b /\ field id_bit c /\ data = a ++ b ++ c.
