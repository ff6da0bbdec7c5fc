(** Bytes, results, and step-bounded computations. *)
From Coq Require Export List NArith Bool Lia Arith.
From Coq Require Export Strings.Byte.
Export ListNotations.

(** A Rust [u8] slice / [Vec<u8>]. *)
Definition bytes := list byte.

(** Outcome of a Rust call.  [Ok] and [Err] are the two cases of [Result] (the
    error payload is not modelled), [Panic] is a panic.  [Fuel] is not a Rust
    outcome: it means that the step bound handed to the model was too small.
    Theorems exclude it through [converges]. *)
Inductive res (A : Type) : Type :=
| Ok (a : A)
| Err
| Panic
| Fuel.
Arguments Ok {A} a.
Arguments Err {A}.
Arguments Panic {A}.
Arguments Fuel {A}.

(** The [?] operator: errors, panics and running out of steps propagate. *)
Definition bind {A B : Type} (x : res A) (k : A -> res B) : res B :=
  match x with
  | Ok a => k a
  | Err => Err
  | Panic => Panic
  | Fuel => Fuel
  end.

Notation "x <- e ;; k" := (bind e (fun x => k))
  (at level 61, e at next level, right associativity).
Notation "' p <- e ;; k" := (bind e (fun x => match x with p => k end))
  (at level 61, p pattern, e at next level, right associativity).

(** [f ⇓ r]: the computation terminates with outcome [r]; every sufficiently
    large step bound gives [r], and [r] is a genuine Rust outcome. *)
Definition converges {A : Type} (f : nat -> res A) (r : res A) : Prop :=
  r <> Fuel /\ exists n0 : nat, forall n : nat, n0 <= n -> f n = r.

Notation "f ⇓ r" := (converges f r) (at level 70).

(** Reading a blob by id from a store in a fixed state ([BlobStore::read],
    src/store/blob_store.rs:17).  Reads of a [&self] store are modelled as a
    function of the id; that caching inside the stores does not change the
    answer is proved separately for the stores modelled here. *)
Definition reader := bytes -> res bytes.

(** The [Detached] store panics whenever it is used
    (src/store/blob_store.rs:256-261). *)
Definition detached_read : reader := fun _ => Panic.

(** A slice [&l[n..]]; out of range panics. *)
Definition slice_from {A} (n : nat) (l : list A) : res (list A) :=
  if n <=? length l then Ok (skipn n l) else Panic.

(** A slice [&l[..n]]; out of range panics. *)
Definition slice_to {A} (n : nat) (l : list A) : res (list A) :=
  if n <=? length l then Ok (firstn n l) else Panic.

(** [u8] as a number; comparison of [u8]s. *)
Definition bnum (b : byte) : N := Byte.to_N b.

(** Truncating cast to [u8] ([x as u8]). *)
Definition byte_of (n : N) : byte :=
  match Byte.of_N (n mod 256) with Some b => b | None => x00 end.

(** Comparison of [Option<u8>] with the derived [Ord] ([None] is least). *)
Definition cmp_ob (a b : option byte) : comparison :=
  match a, b with
  | None, None => Eq
  | None, Some _ => Lt
  | Some _, None => Gt
  | Some x, Some y => N.compare (bnum x) (bnum y)
  end.

(** Length of the common prefix (src/node/mod.rs:1570-1572). *)
Fixpoint common_prefix (a b : bytes) : nat :=
  match a, b with
  | x :: a', y :: b' => if Byte.eqb x y then S (common_prefix a' b') else 0
  | _, _ => 0
  end.
