(** What the text printed by [dump] should show.  This file is part of the statements. *)
From Verif Require Import Base Spec.
From Coq Require Import String.
Local Open Scope list_scope.

Definition txt (s : string) : bytes := list_byte_of_string s.

(** The two lower-case hexadecimal digits of a byte, and of the bytes of a string. *)
Definition two_digits (b : byte) : bytes :=
  [nth (N.to_nat (Byte.to_N b / 16)) (txt "0123456789abcdef") x00;
   nth (N.to_nat (Byte.to_N b mod 16)) (txt "0123456789abcdef") x00].
Definition in_hex (x : bytes) : bytes := flat_map two_digits x.

(** A line without the spaces it starts with. *)
Fixpoint unindented (line : bytes) : bytes :=
  match line with x20 :: rest => unindented rest | _ => line end.

(** The lines, not indented, that show a value. *)
Definition value_lines (ls : list bytes) : list bytes :=
  filter (fun l => starts_with (txt "value=") l && negb (beq l (txt "value=None"))) (map unindented ls).

(** How a value in memory is shown. *)
Definition value_line (v : bytes) : bytes := txt "value=Data[" ++ in_hex v ++ txt "]".

(** How a value is shown: the bytes, or the bytes of an id under which the store has it. *)
Definition shows (rd : reader) (line v : bytes) : Prop :=
  line = value_line v \/ exists id, line = txt "value=Id[" ++ in_hex id ++ txt "]" /\ rd id = Ok v.
