(** The file system in the browser cache when open directories are deleted too.  This
    file is part of the statements; it models no code.

    An open directory that is deleted is still there for those who use it, until the
    file system is started again; then it is empty. *)
From Verif Require Import Base BaseLemmas Header Node Store U64 File Chunk WebFile WebSpec WebFs WebFsSpec.

(** [D]: the directories that are deleted but still open. *)
Inductive fs_effect_any : event -> res reply -> world * (bytes -> bool) -> world * (bytes -> bool) -> Prop :=
| A_call W D c t r W' : (forall d, c = KDeleteDir d -> dir_open W d = false) -> fs_effect (Call c t) r W W' ->
    fs_effect_any (Call c t) r (W, D) (W', D)
| A_delete_open W D d t : dir_open W d = true ->
    fs_effect_any (Call (KDeleteDir d) t) (Ok (RBool (negb (D d)))) (W, D) (W, upd1 D d true)
| A_delete_failed W D d t : dir_open W d = true -> fs_effect_any (Call (KDeleteDir d) t) Err (W, D) (W, D)
| A_restart W (D : bytes -> bool) W' :
    (forall d f, contents W' d f = if D d then empty_file else contents W d f) ->
    (forall d f, touched W' d f = if D d then false else touched W d f) ->
    (forall d, dir_open W' d = false) -> (forall d f, file_open W' d f = false) ->
    running W' = true -> changes W' = changes W ->
    fs_effect_any Restart (Ok RUnit) (W, D) (W', fun _ => false).
Inductive fs_effects_any : list event -> list (res reply) -> world * (bytes -> bool) -> world * (bytes -> bool) -> Prop :=
| Any_nil W : fs_effects_any [] [] W W
| Any_cons e l r rs W W' W'' : fs_effect_any e r W W' -> fs_effects_any l rs W' W'' ->
    fs_effects_any (e :: l) (r :: rs) W W''.

(** The directory [d] is not deleted while it is open. *)
Definition deleted_closed (d : bytes) (l : list event) : Prop :=
  forall a b t, l = a ++ Call (KDeleteDir d) t :: b ->
  forall a1 a2 t', a = a1 ++ Call (KOpenDir d) t' :: a2 -> In Restart a2.
