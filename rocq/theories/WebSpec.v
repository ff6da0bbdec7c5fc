(** Histories of calls on a file in the browser cache, and what they should do.
    This file is part of the statements. *)
From Verif Require Import Base BaseLemmas Header Node Store U64 File Chunk WebFile.
Local Open Scope N_scope.

(** The calls that change a [WebCacheFile].  [COpen] drops it and opens the file
    again, as after closing the page. *)
Inductive call : Type :=
| CWrite (o : N) (d : bytes)
| CAppend (d : bytes)
| CTruncate (n : N)
| COpen.

Definition with_faults (t : list bool) (f : wfile) : wfile := WFile (w_chunks f) (w_cache f) t.

(** One call; the faults say which of its cache operations fail.  A call that is
    cut short by closing the page is one that fails, followed by [COpen]. *)
Definition step (c : call * list bool) (f : wfile) : res (option N) * wfile :=
  let f := with_faults (snd c) f in
  match fst c with
  | CWrite o d => (_ <~ wf_write o d ;; wret (Ok None)) f
  | CAppend d => (o <~ wf_append d ;; wret (Ok (Some o))) f
  | CTruncate n => (_ <~ wf_truncate n ;; wret (Ok None)) f
  | COpen => (_ <~ wf_open ;; wret (Ok None)) f
  end.
Fixpoint run (cs : list (call * list bool)) (f : wfile) : list (res (option N)) * wfile :=
  match cs with
  | [] => ([], f)
  | c :: cs => let (r, f) := step c f in
               let (rs, f) := run cs f in (r :: rs, f)
  end.
Definition new_web_file : wfile := WFile [] [] [].

(** What reading and the length show, when they are asked now, with any faults. *)
Definition read_now (f : wfile) (t : list bool) (s e : N) : res bytes :=
  fst (wf_read (s, e) (with_faults t f)).
Definition length_now (f : wfile) : res N := fst (wf_length f).

(** ** The intended behaviour, in terms of [File.file]: a length and a byte for each
    position. *)
Definition empty_file : file := File 0 (fun _ => x00).

(** The call [c] with result [r] may turn the contents [F] into [F']. *)
Inductive effect : call -> res (option N) -> file -> file -> Prop :=
| E_write F o d : effect (CWrite o d) (Ok None) F (f_write F o d)
| E_write_failed F F' o d : F' = F \/ F' = f_write F o d -> effect (CWrite o d) Err F F'
| E_append F o d : o <= f_len F -> effect (CAppend d) (Ok (Some o)) F (f_write F o d)
| E_append_failed F F' o d : o <= f_len F -> F' = F \/ F' = f_write F o d -> effect (CAppend d) Err F F'
| E_truncate F n : effect (CTruncate n) (Ok None) F (f_set_len F (N.min n (f_len F)))
| E_truncate_failed F F' n : f_len F' = f_len F ->
    (forall x, f_at F' x = f_at F x \/ n <= x /\ f_at F' x = x00) ->
    effect (CTruncate n) Err F F'
| E_open F r : r = Ok None \/ r = Err -> effect COpen r F F
| E_overflow F c : (match c with
                    | CWrite o d => u64_max <= o + N.of_nat (length d)
                    | CAppend d => u64_max <= f_len F + N.of_nat (length d)
                    | _ => False
                    end) -> effect c Panic F F.

(** The contents a history may lead to. *)
Inductive effects : list call -> list (res (option N)) -> file -> file -> Prop :=
| Es_nil F : effects [] [] F F
| Es_cons c cs r rs F F' F'' : effect c r F F' -> effects cs rs F' F'' ->
    effects (c :: cs) (r :: rs) F F''.

(** Reads that succeed give the bytes of [F]; none panics; those past the end are
    refused; the length is not more than the one of [F]. *)
Definition shows (f : wfile) (F : file) : Prop :=
  (forall t s e, s <= e ->
     read_now f t s e = Err \/
     read_now f t s e = Ok (f_read F s (N.to_nat (e - s))) /\ e <= f_len F) /\
  exists n, length_now f = Ok n /\ n <= f_len F.

(** The state of a file after some history. *)
Definition reachable (f : wfile) : Prop := exists cs rs, run cs new_web_file = (rs, f).
