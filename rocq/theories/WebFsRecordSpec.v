(** Records at known positions of a file that is also written elsewhere.  This file is
    part of the statements. *)
From Verif Require Import Base BaseLemmas Header Node Store U64 File Chunk WebFile WebFs WebFsSpec.
Local Open Scope N_scope.

(** The bytes of a record: its length in four bytes, then its data. *)
Definition record (b : bytes) : bytes := to_be 4 (N.of_nat (length b)) ++ b.
Definition record_len (b : bytes) : N := 4 + N.of_nat (length b).

(** The event put the record [b] at position [o] of the file: by one successful write of
    its bytes, or by appending it. *)
Inductive stores (d f : bytes) (o : N) (b : bytes) : event -> res reply -> Prop :=
| St_write t : stores d f o b (Call (KWrite d f o (record b)) t) (Ok RUnit)
| St_append t : stores d f o b (Call (KAppend d f b) t) (Ok (RNum o)).

(** The [n'] bytes at [o'] are before or after the [n] bytes at [o]. *)
Definition apart (o n o' n' : N) : Prop := o' + n' <= o \/ o + n <= o'.

(** The event, with its result, leaves alone the [n] bytes at [o] of the file: it does not
    delete the file or its directory, it does not cut the file before their end, it does
    not write any of them, even without success; and an append says that it went
    elsewhere. *)
Definition leaves (d f : bytes) (o n : N) (e : event) (r : res reply) : Prop :=
  match e with
  | Call (KDeleteDir d') _ => d' = d -> forall x, r <> Ok x
  | Call (KDeleteFile d' f') _ => d' = d -> f' = f -> forall x, r <> Ok x
  | Call (KTruncate d' f' m) _ => d' = d -> f' = f -> o + n <= m
  | Call (KWrite d' f' o' b) _ => d' = d -> f' = f -> apart o n o' (N.of_nat (length b))
  | Call (KAppend d' f' b) _ => d' = d -> f' = f -> exists o', r = Ok (RNum o') /\ apart o n o' (record_len b)
  | _ => True
  end.

(** All calls that change the file succeeded. *)
Definition changed_well (d f : bytes) (e : event) (r : res reply) : Prop :=
  concerns d f e -> exists x, r = Ok x.
