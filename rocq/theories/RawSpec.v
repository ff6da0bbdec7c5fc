(** What is expected of nodes in a buffer (C83): any use of an iterator over a block. *)
From Verif Require Import Base Header Node Raw.

(** The memory contains the block [bs] at address [a]; nothing is said about the rest of the memory. *)
Definition block (m : memory) (a : nat) (bs : bytes) : Prop :=
  forall i b, nth_error bs i = Some b -> m (a + i) = Some b.

(** Calls on an iterator over the children in a block, and reading (again) the [i]-th node it returned. *)
Inductive use : Type :=
| UNext
| UFirst
| UFind (c : byte)
| ULast
| URead (i : nat).

(** What the caller sees: the node found, fully read, or the first byte. *)
Inductive seen : Type :=
| SawNode (b : option bnode)
| SawByte (b : option (option byte)).

(** Using an iterator over raw memory; [got] are the nodes it has returned. *)
Definition raw_see (m : memory) (n : option rnode) : raw seen :=
  match n with None => Val (SawNode None) | Some n => b <~ rn_read m n ;; Val (SawNode (Some b)) end.
Definition keep {A} (got : list A) (n : option A) : list A :=
  match n with Some n => got ++ [n] | None => got end.
Fixpoint raw_uses (m : memory) (it : riter) (got : list rnode) (us : list use) : raw (list seen) :=
  match us with
  | [] => Val []
  | UNext :: us =>
      x <~ ri_next m it ;; s <~ raw_see m (fst x) ;; l <~ raw_uses m (snd x) (keep got (fst x)) us ;; Val (s :: l)
  | UFirst :: us => x <~ ri_first m it ;; l <~ raw_uses m it got us ;; Val (SawByte x :: l)
  | UFind c :: us =>
      x <~ ri_find m (ri_data it) (S (s_len (ri_data it))) (ri_off it) c ;;
      s <~ raw_see m x ;; l <~ raw_uses m it (keep got x) us ;; Val (s :: l)
  | ULast :: us =>
      x <~ ri_last m (ri_data it) (S (s_len (ri_data it))) (ri_off it) None ;;
      s <~ raw_see m x ;; l <~ raw_uses m it (keep got x) us ;; Val (s :: l)
  | URead i :: us => s <~ raw_see m (nth_error got i) ;; l <~ raw_uses m it got us ;; Val (s :: l)
  end.

(** The same on the byte string, with the functions of Node.v (which the theorems about trees are about). *)
Definition borrowed (r : option noderef) : option bnode :=
  match r with Some (RBorrowed b) => Some b | _ => None end.
Fixpoint uses (it : iter) (got : list bnode) (us : list use) : list seen :=
  match us with
  | [] => []
  | UNext :: us =>
      match it_next it with
      | Some (r, it') => SawNode (borrowed (Some r)) :: uses it' (keep got (borrowed (Some r))) us
      | None => SawNode None :: uses it got us
      end
  | UFirst :: us => SawByte (it_first it) :: uses it got us
  | UFind c :: us => SawNode (borrowed (it_find it c)) :: uses it (keep got (borrowed (it_find it c))) us
  | ULast :: us => SawNode (borrowed (it_last it)) :: uses it (keep got (borrowed (it_last it))) us
  | URead i :: us => SawNode (nth_error got i) :: uses it got us
  end.
