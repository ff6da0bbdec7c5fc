(** Which blocks of the store a call needs.  This file is part of the statements; it
    models no code. *)
From Verif Require Import Base Header Node Iter Api Spec Client.

(** The readers give the same answer for the ids in [l]; any other id may be
    unreadable under [rd'], or have other contents. *)
Definition agree (l : list bytes) (rd rd' : reader) : Prop := forall id, In id l -> rd' id = rd id.

(** The outcome [r] of the call [f] with the reader [rd] is determined by at most [n]
    blocks: with every reader that agrees about them the outcome is the same. *)
Definition determined {A} (n : nat) (rd : reader) (f : reader -> nat -> res A) (r : res A) : Prop :=
  exists l, length l <= n /\ forall rd', agree l rd rd' -> f rd' ⇓ r.
Definition needs {A} (n : nat) (rd : reader) (f : reader -> nat -> res A) : Prop :=
  forall r, f rd ⇓ r -> determined n rd f r.

(** The first [j] entries of the iterator, or all if there are fewer. *)
Fixpoint take (rd : reader) (fuel j : nat) (s : kv_iter) : res (list (bytes * blob)) :=
  match j with
  | 0 => Ok []
  | S j =>
      '(y, s') <- kv_next rd fuel s ;;
      match y with
      | YDone => Ok []
      | YItem e => l <- take rd fuel j s' ;; Ok (e :: l)
      | YError => Err
      end
  end.
Definition first_entries (rd : reader) (t : node) (j : nat) (fuel : nat) : res (list (bytes * bytes)) :=
  l <- take rd fuel j (kv_new t) ;; load_entries rd l.

(** The length of the key of an entry, if there is one. *)
Definition key_len (o : option (bytes * bytes)) : nat := match o with Some e => length (fst e) | None => 0 end.

(** The reader [rd], with every block unreadable except those in [l]. *)
Definition only (l : list bytes) (rd : reader) : reader := fun id => if existsb (beq id) l then rd id else Err.
