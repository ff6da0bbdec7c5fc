(** Files in the browser cache that are written page by page, as SQLite does.
    This file is part of the statements. *)
From Verif Require Import Base BaseLemmas Header Node Store U64 File Chunk WebFile WebSpec.
Local Open Scope N_scope.

(** For each page that is in the file, how often it was overwritten since it came to
    be in the file. *)
Definition pages : Type := N -> option N.
Definition no_pages : pages := fun _ => None.
Definition written_once_more (s : pages) (i : N) : pages := fun j =>
  if j =? i then Some (match s i with None => 0 | Some n => n + 1 end) else s j.

Section Pages.
Context (P : N). (* the page size *)

(** Calls that write one whole page, or cut the file after a page. *)
Definition page_call (c : call) : Prop :=
  match c with
  | CWrite o d => (exists i, o = i * P) /\ N.of_nat (length d) = P
  | CAppend d => N.of_nat (length d) = P
  | CTruncate n => exists k, n = k * P
  | COpen => True
  end.

(** [n] is the end of the last of those pages that were overwritten most often. *)
Definition busiest_end (s : pages) (n : N) : Prop :=
  n = 0 /\ (forall i, s i = None) \/
  exists i l, n = (i + 1) * P /\ s i = Some l /\ forall j l', s j = Some l' -> l' < l \/ l' = l /\ j <= i.

(** The call [c] with result [r] may turn the pages [s] into [s']. *)
Inductive turn : call -> res (option N) -> pages -> pages -> Prop :=
| T_write s s' i d : (forall j, s' j = written_once_more s i j) -> turn (CWrite (i * P) d) (Ok None) s s'
| T_write_failed s s' i d : (forall j, s' j = s j) \/ (forall j, s' j = written_once_more s i j) ->
    turn (CWrite (i * P) d) Err s s'
| T_append s s' i d : busiest_end s (i * P) -> (forall j, s' j = written_once_more s i j) ->
    turn (CAppend d) (Ok (Some (i * P))) s s'
| T_append_failed s s' i d : busiest_end s (i * P) ->
    (forall j, s' j = s j) \/ (forall j, s' j = written_once_more s i j) -> turn (CAppend d) Err s s'
| T_truncate s s' k : (forall j, s' j = if j <? k then s j else None) -> turn (CTruncate (k * P)) (Ok None) s s'
| T_truncate_failed s s' k : (forall j, s' j = s j \/ k <= j /\ s' j = None) -> turn (CTruncate (k * P)) Err s s'
| T_open s r : r = Ok None \/ r = Err -> turn COpen r s s
| T_overflow s c : (match c with
                    | CWrite o d => u64_max <= o + P
                    | CAppend d => exists n, busiest_end s n /\ u64_max <= n + P
                    | _ => False
                    end) -> turn c Panic s s.

Inductive turns : list call -> list (res (option N)) -> pages -> pages -> Prop :=
| Ts_nil s : turns [] [] s s
| Ts_cons c cs r rs s s' s'' : turn c r s s' -> turns cs rs s' s'' -> turns (c :: cs) (r :: rs) s s''.
End Pages.
