(** Files of the browser file system that are written page by page, as SQLite does.
    This file is part of the statements. *)
From Verif Require Import Base BaseLemmas Header Node Store U64 File Chunk WebFile WebSpec WebPagesSpec WebFs WebFsSpec.
Local Open Scope N_scope.

Section Pages.
Context (P : N) (d f : bytes). (* the page size and the file *)

(** Events that, if they write to the file, write one whole page or cut it after a page. *)
Definition page_event (e : event) : Prop :=
  match e with
  | Call (KWrite d' f' o b) _ => d' = d -> f' = f -> (exists i, o = i * P) /\ N.of_nat (length b) = P
  | Call (KTruncate d' f' n) _ => d' = d -> f' = f -> exists k, n = k * P
  | Call (KAppend d' f' _) _ => d' = d -> f' <> f
  | _ => True
  end.

(** The event [e] with result [r] may turn the pages [s] of the file into [s']. *)
Inductive page_effect : event -> res reply -> pages -> pages -> Prop :=
| PE_other e r s s' : ~ concerns d f e -> (forall j, s' j = s j) -> page_effect e r s s'
| PE_write i b t s s' : (forall j, s' j = written_once_more s i j) ->
    page_effect (Call (KWrite d f (i * P) b) t) (Ok RUnit) s s'
| PE_write_failed i b t s s' : (forall j, s' j = written_once_more s i j) ->
    page_effect (Call (KWrite d f (i * P) b) t) Err s s'
| PE_truncate k t s s' : (forall j, s' j = if j <? k then s j else None) ->
    page_effect (Call (KTruncate d f (k * P)) t) (Ok RUnit) s s'
| PE_truncate_failed k t s s' : (forall j, s' j = s j \/ k <= j /\ s' j = None) ->
    page_effect (Call (KTruncate d f (k * P)) t) Err s s'
| PE_delete_file t b s s' : (forall j, s' j = None) -> page_effect (Call (KDeleteFile d f) t) (Ok (RBool b)) s s'
| PE_delete_dir t b s s' : (forall j, s' j = None) -> page_effect (Call (KDeleteDir d) t) (Ok (RBool b)) s s'
| PE_failed e r s s' : r = Err \/ r = Panic -> (forall j, s' j = s j) -> page_effect e r s s'.

Inductive page_effects : list event -> list (res reply) -> pages -> pages -> Prop :=
| PEs_nil s : page_effects [] [] s s
| PEs_cons e l r rs s s' s'' : page_effect e r s s' -> page_effects l rs s' s'' ->
    page_effects (e :: l) (r :: rs) s s''.
End Pages.
