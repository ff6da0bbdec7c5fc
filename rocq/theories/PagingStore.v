(** A paging file as a blob store.  This file is part of the statements. *)
From Verif Require Import Base BaseLemmas Header Node Store U64 File Chunk WebFile WebSpec Paging PagingSpec.
Local Open Scope N_scope.

(** [size_ok] as a test. *)
Definition fits (ps : N) (d : bytes) : bool :=
  let n := N.of_nat (length d) in
  (n <? usize_lim) && ((n + 12 <=? ps) || (ps mod 8 =? 0) && (n + 9 <=? ps) || (ps <? n + 4)).

(** What others do with the paging file after each of the coming writes of a tree. *)
Definition paging_schedule : Type := list (list pcall).

(** [BlobStore for PagingFile], paging_file.rs:158-174.  The mutex makes each call a
    step.  Simplified: a blob that is so large that it fills a page up to the last
    byte or does not fit behind the alignment ([fits] is false) counts as refused.
    The code accepts it and then panics or loses it, see [C49_panic_refuted] and
    [C49_lost_refuted]; nothing is claimed for trees that write such blobs. *)
Definition paging_store (D : dev) (ps : N) : store := {|
  st := pfile D * paging_schedule;
  st_read := fun s id =>
    if (length id =? 8)%nat then
      match fst (pstep D ps (PLoad (of_be id)) (fst s)) with
      | Ok (OData d) => Ok d
      | Panic => Panic
      | _ => Err
      end
    else Err;
  st_write := fun s d =>
    if fits ps d then
      let (r, f) := pstep D ps (PAppend d) (fst s) in
      (match r with
       | Ok (OId n) => Ok (to_be 8 n)
       | Panic => Panic
       | _ => Err
       end, (snd (prun D ps (hd [] (snd s)) f), tl (snd s)))
    else (Err, s)
|}.

Definition no_open (c : pcall) : Prop := match c with POpen => False | _ => True end.
(** The states of an open paging file that histories starting in the states [P] reach.
    With [any = false] nothing is synced. *)
Definition paging_inv (D : dev) (P : dv D -> Prop) (any : bool) (ps : N) (s : pfile D * paging_schedule) : Prop :=
  (exists s0 cs rs, P s0 /\ Forall (size_ok ps) cs /\ (any = true \/ Forall no_sync cs) /\
     prun D ps cs (s0, None) = (rs, fst s)) /\
  snd (fst s) <> None /\
  Forall (Forall (fun c => size_ok ps c /\ no_open c /\ (any = true \/ no_sync c))) (snd s).
(** New files in the browser cache, with any faults to come. *)
Definition new_file (f : wfile) : Prop := exists t, f = with_faults t new_web_file.
