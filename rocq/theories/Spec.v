(** The specification: what the calls are supposed to do, in terms of plain maps
    from keys to values.  Nothing here refers to the model of the code. *)
From Verif Require Import Base.
From Coq Require Import Sorting.Sorted.

(** The contents of a tree. *)
Definition kmap : Type := bytes -> option bytes.

Definition beq (a b : bytes) : bool := if list_eq_dec Byte.byte_eq_dec a b then true else false.

(** [Some r] iff [k] is [p] followed by [r]. *)
Fixpoint strip_prefix (p k : bytes) : option bytes :=
  match p, k with
  | [], _ => Some k
  | x :: p', y :: k' => if Byte.eqb x y then strip_prefix p' k' else None
  | _ :: _, [] => None
  end.
Definition starts_with (p k : bytes) : bool :=
  match strip_prefix p k with Some _ => true | None => false end.

Definition m_empty : kmap := fun _ => None.
Definition m_insert (m : kmap) (k v : bytes) : kmap := fun x => if beq x k then Some v else m x.
Definition m_remove (m : kmap) (k : bytes) : kmap := fun x => if beq x k then None else m x.
Definition m_remove_prefix (m : kmap) (p : bytes) : kmap := fun x => if starts_with p x then None else m x.

(** The keys starting with [p], with [p] replaced by [s]. *)
Definition m_filter_prefix (m : kmap) (p s : bytes) : kmap :=
  fun x => match strip_prefix s x with Some r => m (p ++ r) | None => None end.

(** The joins.  [h] combines two values; [None] deletes. *)
Definition m_outer (h : bytes -> bytes -> option bytes) (a b : kmap) : kmap := fun x =>
  match a x, b x with
  | Some u, Some v => h u v
  | Some u, None => Some u
  | None, Some v => Some v
  | None, None => None
  end.
Definition m_inner (h : bytes -> bytes -> option bytes) (a b : kmap) : kmap := fun x =>
  match a x, b x with
  | Some u, Some v => h u v
  | _, _ => None
  end.
Definition m_left (h : bytes -> bytes -> option bytes) (a b : kmap) : kmap := fun x =>
  match a x, b x with
  | Some u, Some v => h u v
  | Some u, None => Some u
  | None, _ => None
  end.

(** Does [k] start with a key of [b] whose value satisfies [s]? *)
Definition below_selected (s : bytes -> bool) (b : kmap) (k : bytes) : bool :=
  existsb (fun n => match b (firstn n k) with Some v => s v | None => false end)
    (seq 0 (S (length k))).
Definition m_remove_prefix_with (s : bytes -> bool) (a b : kmap) : kmap :=
  fun x => if below_selected s b x then None else a x.
Definition m_retain_prefix_with (s : bytes -> bool) (a b : kmap) : kmap :=
  fun x => if below_selected s b x then a x else None.

(** Pairs inserted one after the other. *)
Definition m_of_list (l : list (bytes * bytes)) : kmap :=
  fold_left (fun m e => m_insert m (fst e) (snd e)) l m_empty.

(** Lexicographic order of keys. *)
Fixpoint lex_lt (a b : bytes) : Prop :=
  match a, b with
  | _, [] => False
  | [], _ :: _ => True
  | x :: a', y :: b' => (Byte.to_N x < Byte.to_N y)%N \/ (x = y /\ lex_lt a' b')
  end.

(** [l] lists exactly the entries of [m] whose key satisfies [P], keys strictly
    ascending (hence each exactly once). *)
Definition lists_where (P : bytes -> Prop) (l : list (bytes * bytes)) (m : kmap) : Prop :=
  StronglySorted (fun a b => lex_lt (fst a) (fst b)) l /\
  forall k v, In (k, v) l <-> m k = Some v /\ P k.
Definition lists (l : list (bytes * bytes)) (m : kmap) : Prop := lists_where (fun _ => True) l m.

(** First and last element. *)
Definition first_of {A} (l : list A) : option A := hd_error l.
Definition last_of {A} (l : list A) : option A := hd_error (rev l).

(** [q] is a common prefix of the keys of [m]. *)
Definition common_prefix_of (m : kmap) (q : bytes) : Prop :=
  forall k, m k <> None -> starts_with q k = true.

(** Two maps have the same entries. *)
Definition same (a b : kmap) : Prop := forall k, a k = b k.
