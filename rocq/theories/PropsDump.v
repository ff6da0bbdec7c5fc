(** C94: what [dump] and [try_dump] print.  Definitions of the statements: DumpSpec.v, FailSpec.v, Spec.v.
    The result of the model of a call: the lines printed, and whether it ended without an error.
    The reference counts that the code appends to some lines are not part of the text here. *)
From Verif Require Import MemExamples StoreExamples InPlaceExamples Base Header Node Combine Iter Api Spec Client Store StoreSpec World
  MemStore MemStoreProofs FailSpec DumpSpec Dump DumpProofs.

(** C94: a tree in memory: the call ends without an error, and the lines that show values show the
    values of all entries, in the order of the keys. *)
Theorem C94_memory :
  forall dbg t m, reachable dbg t -> holds mem t m ->
  exists ls l, t_dump mem t ⇓ Ok (ls, true) /\ lists l m /\ value_lines ls = map value_line (map snd l).
Proof. exact dump_in_memory. Qed.
Print Assumptions C94_memory.
Example C94_memory_example : reachable true ex_t /\ holds mem ex_t ex_m /\
  t_dump mem ex_t 60 = Ok ([B"TreeNode"; B"  prefix=Data[]"; B"  value=None"; B"  children ";
    B"    TreeNode"; B"      prefix=Data[6162]"; B"      value=Data[31]"; B"      children ";
    B"        TreeNode"; B"          prefix=Data[63]"; B"          value=Data[32]";
    B"        TreeNode"; B"          prefix=Data[64]"; B"          value=Data[33]";
    B"    TreeNode"; B"      prefix=Data[62]"; B"      value=Data[]"], true).
Proof. split; [exact ex_reachable|]; split; [exact ex_holds|]; vm_compute; reflexivity. Qed.

(** C94: two trees in memory print the same text exactly if they have the same contents. *)
Theorem C94_same :
  forall dbg t u m mu lt lu, reachable dbg t -> reachable dbg u -> holds mem t m -> holds mem u mu ->
  t_dump mem t ⇓ Ok (lt, true) -> t_dump mem u ⇓ Ok (lu, true) -> (lt = lu <-> same m mu).
Proof. exact dump_same. Qed.
Print Assumptions C94_same.
Example C94_same_example : reachable true ex_t /\ reachable true ex_u /\ holds mem ex_t ex_m /\ holds mem ex_u ex_mu /\
  (exists lt, t_dump mem ex_t ⇓ Ok (lt, true)) /\ (exists lu, t_dump mem ex_u ⇓ Ok (lu, true)).
Proof.
  split; [exact ex_reachable|]. split; [exact ex_reachable_u|]. split; [exact ex_holds|]. split; [exact ex_holds_u|].
  split; [destruct (C94_memory true ex_t ex_m ex_reachable ex_holds) as (ls & _ & D & _)|
    destruct (C94_memory true ex_u ex_mu ex_reachable_u ex_holds_u) as (ls & _ & D & _)]; eauto.
Qed.

(** C94: a tree in a store: the call ends without an error, and the lines that show values show, in the
    order of the keys, the value of each entry or an id under which the store has it. *)
Theorem C94_attached :
  forall dbg S inv s t m, lawful S inv -> attached dbg S inv s t m ->
  exists ls l, t_dump (st_read S s) t ⇓ Ok (ls, true) /\ lists l m /\
    Forall2 (shows (st_read S s)) (value_lines ls) (map snd l).
Proof. exact dump_attached. Qed.
Print Assumptions C94_attached.
Example C94_attached_example : lawful mem_store mem_inv /\ attached true mem_store mem_inv io_s io_t (meaning p_io) /\
  t_dump (mem_read io_s) io_t 60 = Ok ([B"TreeNode"; B"  prefix=Data[]"; B"  value=None"; B"  children ";
    B"    TreeNode"; B"      prefix=Data[61]"; B"      value=Data[31]"; B"    ";
    B"        TreeNode"; B"          prefix=Data[62]"; B"          value=Data[32]"; B"        ";
    B"        TreeNode"; B"          prefix=Data[63]"; B"          value=Data[33]"; B"        ";
    B"    TreeNode"; B"      prefix=Data[62]"; B"      value=Data[34]"; B"    "], true).
Proof. split; [exact mem_lawful|]. split; [apply io_attached|]. vm_compute; reflexivity. Qed.

(** C94: if reads of the store fail, the text is the same or a first part of it, followed by the error. *)
Theorem C94_failing :
  forall rd' rd t ls, flaky rd' rd -> t_dump rd t ⇓ Ok (ls, true) ->
  t_dump rd' t ⇓ Ok (ls, true) \/ exists ls' rest, t_dump rd' t ⇓ Ok (ls', false) /\ ls = ls' ++ rest.
Proof. exact dump_flaky. Qed.
Print Assumptions C94_failing.
Example C94_failing_example : flaky io_rd (mem_read io_s) /\
  (exists ls, t_dump (mem_read io_s) io_t ⇓ Ok (ls, true)) /\
  t_dump io_rd io_t 60 = Ok ([B"TreeNode"; B"  prefix=Data[]"; B"  value=None"; B"  children ";
    B"    TreeNode"; B"      prefix=Data[61]"; B"      value=Data[31]"], false).
Proof.
  split; [exact io_flaky|]. split; [|vm_compute; reflexivity].
  destruct (C94_attached true mem_store mem_inv io_s io_t (meaning p_io) mem_lawful (io_attached true)) as (ls & _ & D & _). eauto.
Qed.
