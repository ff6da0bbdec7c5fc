(** C98: what the program of examples/filesystem.rs prints.  [forks m p] (GroupSpec.v): [p] is a key, or keys that start with [p] go on
    with different bytes.  [print_dirs] (Dirs.v) lists the trees that are printed, one per line. *)
From Verif Require Import MemExamples DirsExamples Base Header Node Combine Iter Api Spec Client GroupSpec Dirs DirsSpec DirsProofs.

(** C98: the wish, that entries of different directories are on different lines ([dirs_apart], DirsSpec.v), does not hold: it fails for the
    tree of the example itself. *)
Theorem C98_dirs_apart_refuted : ~ dirs_apart.
Proof. exact not_apart. Qed.
Print Assumptions C98_dirs_apart_refuted.

(** C98: if the place where the keys first fork has no slash in it after the given depth, the whole tree is printed on one line. *)
Theorem C98_one_line_partial :
  forall dbg t m p depth, reachable dbg t -> holds mem t m -> forks m p ->
  (forall k, m k <> None -> starts_with p k = true) -> depth <= length p -> has_slash (skipn depth p) = false ->
  exists u, print_dirs depth t ⇓ Ok [u] /\ holds mem u m.
Proof. exact dirs_one. Qed.
Print Assumptions C98_one_line_partial.
Example C98_one_line_example : reachable true fs_t /\ holds mem fs_t fs_m /\ forks fs_m [] /\
  (forall k, fs_m k <> None -> starts_with [] k = true) /\ has_slash [] = false /\
  (ts <- print_dirs 0 fs_t 60 ;; Ok (map (fun u => iter_bytes mem u 60) ts))
  = Ok [Ok [(B"etc/passwd", B"bar"); (B"home/user1/file1", B"bar"); (B"home/user2/file1", B"bar")]] /\
  (ts <- print_dirs 5 hm_t 60 ;; Ok (map (fun u => iter_bytes mem u 60) ts))
  = Ok [Ok [(B"home/a", B"1"); (B"home/b", B"2"); (B"home/b/c", B"3")]].
Proof. split; [exact fs_reachable|]. split; [exact fs_holds|]. split; [exact fs_forks|]. split; [reflexivity|]. split; [reflexivity|]. vm_compute; split; reflexivity. Qed.

(** C98: otherwise every entry is printed on a line of its own. *)
Theorem C98_each_line_partial :
  forall dbg t m p depth, reachable dbg t -> holds mem t m -> forks m p ->
  (forall k, m k <> None -> starts_with p k = true) -> depth <= length p -> has_slash (skipn depth p) = true ->
  exists ts l, print_dirs depth t ⇓ Ok ts /\ lists l m /\
    Forall2 (fun u e => holds mem u (m_insert m_empty (fst e) (snd e))) ts l.
Proof. exact dirs_each. Qed.
Print Assumptions C98_each_line_partial.
Example C98_each_line_example : reachable true hm_t /\ holds mem hm_t hm_m /\ forks hm_m (B"home/") /\
  (forall k, hm_m k <> None -> starts_with (B"home/") k = true) /\ has_slash (skipn 4 (B"home/")) = true /\
  (ts <- print_dirs 4 hm_t 60 ;; Ok (map (fun u => iter_bytes mem u 60) ts))
  = Ok [Ok [(B"home/a", B"1")]; Ok [(B"home/b", B"2")]; Ok [(B"home/b/c", B"3")]].
Proof. split; [exact hm_reachable|]. split; [exact hm_holds|]. split; [exact hm_forks|]. split; [exact hm_below|]. split; [reflexivity|]. vm_compute; reflexivity. Qed.

(** C98: with a depth beyond the first fork, or for an empty tree and any depth but 0, the program panics. *)
Theorem C98_deep_refuted :
  forall dbg t m p depth, reachable dbg t -> holds mem t m ->
  (forks m p \/ (p = [] /\ forall k, m k = None)) -> length p < depth -> print_dirs depth t ⇓ Panic.
Proof. exact dirs_deep. Qed.
Print Assumptions C98_deep_refuted.
Example C98_deep_example : reachable true hm_t /\ holds mem hm_t hm_m /\ forks hm_m (B"home/") /\
  print_dirs 6 hm_t 60 = Panic /\ exists ts, print_dirs 5 hm_t 60 = Ok ts.
Proof. split; [exact hm_reachable|]. split; [exact hm_holds|]. split; [exact hm_forks|]. split; [vm_compute; reflexivity|]. eexists. vm_compute; reflexivity. Qed.
