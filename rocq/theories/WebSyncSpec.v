(** What threads see of the file system.  This file is part of the statements. *)
From Verif Require Import Base BaseLemmas Header Node Store U64 File Chunk WebFile WebFs WebFsSpec WebSync.

(** The calls in the order in which they were made. *)
Fixpoint invoked (tr : list label) : list cmd :=
  match tr with
  | [] => []
  | Invoke c :: tr => c :: invoked tr
  | _ :: tr => invoked tr
  end.
(** The calls [cs] with faults [ts], one after the other. *)
Fixpoint calls (cs : list cmd) (ts : list (list bool)) : list event :=
  match cs, ts with
  | c :: cs, t :: ts => Call c t :: calls cs ts
  | _, _ => []
  end.
(** [r] is what a thread may see of a call with the result [r']: a call during which
    the loop panics returns an error, if it returns. *)
Definition seen_as (r r' : res reply) : Prop := r = r' \/ r' = Panic /\ r = Err.
(** Steps of the loop. *)
Definition quiet (l : label) : Prop := match l with Begin | Finish _ => True | _ => False end.
