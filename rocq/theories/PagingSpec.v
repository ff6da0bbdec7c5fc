(** Histories of a paging file and what they should do.
    This file is part of the statements. *)
From Verif Require Import Base BaseLemmas Header Node Store U64 File Chunk WebFile Paging.
Local Open Scope N_scope.

(** ** What the file below does

    [inv s F]: in the state [s] the file has the contents [F].
    - Any call can fail with an error.
    - The length is at most the one of [F]; reads that succeed give the bytes of [F].
    - A write has all of its effect or, when it fails, possibly none.
    - Opening the file again leaves the contents.
    With [any = false] this is only required of writes at the end of the file, and a
    write that fails has no effect. *)
Record file_dev (D : dev) (any : bool) (inv : dv D -> file -> Prop) : Prop := {
  fd_small : forall s F, inv s F -> f_len F < i64_lim;
  fd_length : forall s F r s', inv s F -> dv_length D s = (r, s') ->
    inv s' F /\ (r = Err \/ exists n, r = Ok n /\ n <= f_len F);
  fd_read : forall s F a b r s', inv s F -> a <= b -> dv_read D a b s = (r, s') ->
    inv s' F /\ (r = Err \/ b <= f_len F /\ r = Ok (f_read F a (N.to_nat (b - a))));
  fd_write : forall s F o d r s', inv s F -> any = true \/ o = f_len F -> dv_write D o d s = (r, s') ->
    exists F', inv s' F' /\ (r = Ok tt /\ F' = f_write F o d \/
                             r = Err /\ (F' = F \/ any = true /\ F' = f_write F o d));
  fd_open : forall s F r s', inv s F -> dv_open D s = (r, s') -> inv s' F /\ (r = Ok tt \/ r = Err)
}.
(** The length is the one of the contents. *)
Definition exact_length (D : dev) (inv : dv D -> file -> Prop) : Prop :=
  forall s F n s', inv s F -> dv_length D s = (Ok n, s') -> n = f_len F.
(** In the states [good], reads inside the file succeed. *)
Definition readable (D : dev) (inv : dv D -> file -> Prop) (good : dv D -> Prop) : Prop :=
  forall s F a b, inv s F -> good s -> a <= b -> b <= f_len F -> exists s' d, dv_read D a b s = (Ok d, s').

(** ** Histories *)
(** [POpen] drops the paging file, opens the file below again and makes a new paging
    file; this is also what follows when the page is closed in the middle of a call. *)
Inductive pcall : Type :=
| PAppend (d : bytes)
| PLoad (id : N)
| PSync
| POpen.
Inductive pout : Type := ODone | OId (id : N) | OData (d : bytes).

Section History.
Context (D : dev) (ps : N).
(** [None]: the last attempt to open the file failed. *)
Definition pfile : Type := dv D * option pmem.
Definition on_open {A} (m : wm (pst D) A) (k : A -> pout) (s : pfile) : res pout * pfile :=
  match snd s with
  | None => (Err, s)
  | Some p => let (r, s') := (a <~ m ;; wret (Ok (k a))) (fst s, p) in (r, (fst s', Some (snd s')))
  end.
Definition pstep (c : pcall) (s : pfile) : res pout * pfile :=
  match c with
  | PAppend d => on_open (p_append_lp D ps d) OId s
  | PLoad id => on_open (p_load D ps id) OData s
  | PSync => on_open (p_sync D ps) (fun _ => ODone) s
  | POpen =>
      match (_ <~ dv_open D ;; p_new D ps) (fst s) with
      | (Ok p, d) => (Ok ODone, (d, Some p))
      | (Err, d) => (Err, (d, None))
      | (Panic, d) => (Panic, (d, None))
      | (Fuel, d) => (Fuel, (d, None))
      end
  end.
Fixpoint prun (cs : list pcall) (s : pfile) : list (res pout) * pfile :=
  match cs with
  | [] => ([], s)
  | c :: cs => let (r, s) := pstep c s in
               let (rs, s) := prun cs s in (r :: rs, s)
  end.
End History.

(** ** What should be there: the blobs appended since the file was opened, with their
    ids, and those that were covered by a sync. *)
Record ledger : Type := Ledger { fresh : list (N * bytes); saved : list (N * bytes) }.
Definition note (c : pcall) (r : res pout) (l : ledger) : ledger :=
  match c, r with
  | PAppend d, Ok (OId id) => Ledger ((id, d) :: fresh l) (saved l)
  | PSync, Ok _ => Ledger (fresh l) (fresh l ++ saved l)
  | POpen, _ => Ledger [] (saved l)
  | _, _ => l
  end.
Fixpoint notes (cs : list pcall) (rs : list (res pout)) (l : ledger) : ledger :=
  match cs, rs with
  | c :: cs, r :: rs => notes cs rs (note c r l)
  | _, _ => l
  end.

(** A fresh blob can always be loaded.  With [durable], loading a saved one gives the
    same bytes or an error.  Nothing panics, except loading an id that was never
    returned. *)
Definition right (durable : bool) (l : ledger) (c : pcall) (r : res pout) : Prop :=
  match c with
  | PAppend _ => r = Err \/ exists id, r = Ok (OId id)
  | PSync | POpen => r = Err \/ r = Ok ODone
  | PLoad id => forall d, (In (id, d) (fresh l) -> r = Ok (OData d)) /\
                          (durable = true -> In (id, d) (saved l) -> r = Ok (OData d) \/ r = Err)
  end.
Fixpoint all_right (durable : bool) (l : ledger) (cs : list pcall) (rs : list (res pout)) : Prop :=
  match cs, rs with
  | [], [] => True
  | c :: cs, r :: rs => right durable l c r /\ all_right durable (note c r l) cs rs
  | _, _ => False
  end.

(** The blobs that this works for: those that leave some room in a page, and those
    that are refused.  On wasm32 none has [2^32] bytes. *)
Definition size_ok (ps : N) (c : pcall) : Prop :=
  match c with
  | PAppend d => let n := N.of_nat (length d) in
      n < usize_lim /\ (n + 12 <= ps \/ ps mod 8 = 0 /\ n + 9 <= ps \/ ps < n + 4)
  | _ => True
  end.
(** Page sizes. *)
Definition page_size_ok (ps : N) : Prop := 0 < ps < i32_lim.
Definition no_sync (c : pcall) : Prop := match c with PSync => False | _ => True end.
Definition only_reads (c : pcall) : Prop := match c with PLoad _ | POpen => True | _ => False end.
