(** The header byte (src/node/mod.rs:220-314). *)
From Verif Require Import Base.

(** [Header::data], src/node/mod.rs:270-276: lengths above 0x7f are clamped. *)
Definition hdr_data (len : nat) : byte :=
  if len <=? 127 then byte_of (N.of_nat len) else x7f.

(** [Header::id], src/node/mod.rs:265-268: asserts [len < 0x80]. *)
Definition hdr_id (len : nat) : res byte :=
  if len <? 128 then Ok (byte_of (N.lor (N.of_nat len) 128)) else Panic.

(** [Header::NONE], src/node/mod.rs:261. *)
Definition hdr_none : byte := x80.

(** [Header::is_id], src/node/mod.rs:279-281. *)
Definition hdr_is_id (h : byte) : bool := negb (N.eqb (N.land (bnum h) 128) 0).

(** [Header::is_none], src/node/mod.rs:289-291. *)
Definition hdr_is_none (h : byte) : bool := Byte.eqb h hdr_none.

(** [Header::len], src/node/mod.rs:306-313. *)
Definition hdr_len (h : byte) : nat := N.to_nat (N.land (bnum h) 127).
