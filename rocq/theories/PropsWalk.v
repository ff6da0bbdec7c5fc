(** C95: the recursive walk through the groups of a tree that examples/dump.rs shows, and the macro
    that makes its tree (C54).  Definitions of the statements: WalkSpec.v, GroupSpec.v, Spec.v. *)
From Verif Require Import MemExamples Base Header Node Combine Iter Api Spec Client GroupSpec WalkSpec Walk WalkProofs.

(** C95: the walk ends, without a panic; the lines show the places at which the keys fork and no others,
    each with its value, if there is one, and indented by the number of forks above it; and they are in order. *)
Theorem C95_walk :
  forall dbg t m, reachable dbg t -> holds mem t m ->
  exists ls, (fun n => walk n 0 t) ⇓ Ok ls /\
    (forall l, In l ls -> exists q, place m q /\ tells m q l /\ indented m q l) /\
    (forall q, place m q -> exists l, In l ls /\ tells m q l) /\ in_order ls.
Proof. exact walk_shows. Qed.
Print Assumptions C95_walk.
Example C95_walk_example : reachable true ex_t /\ holds mem ex_t ex_m /\
  walk 60 0 ex_t = Ok [Line 0 (Data []) None; Line 1 (Data (B"ab")) (Some (Data (B"1")));
    Line 2 (Data (B"ab")) (Some (Data (B"1"))); Line 2 (Data (B"abc")) (Some (Data (B"2")));
    Line 2 (Data (B"abd")) (Some (Data (B"3"))); Line 1 (Data (B"b")) (Some (Data []))].
Proof. split; [exact ex_reachable|]; split; [exact ex_holds|]; vm_compute; reflexivity. Qed.
(** The program of examples/dump.rs:19-29. *)
Example C95_program_example : (t <- macro_map true [(B"std::collections::BTreeMap", B"collection");
    (B"std::collections::BTreeSet", B"collection"); (B"std::collections::HashMap", B"collection");
    (B"std::collections::HashSet", B"collection"); (B"std::fmt::Debug", B"formatting");
    (B"std::fmt::Display", B"formatting")] 200 ;; ls <- walk 200 0 t ;; Ok (map (fun l => (l_depth l, blob_slice (l_path l))) ls)) =
  Ok [(0, B"std::"); (1, B"std::collections::"); (2, B"std::collections::BTree"); (3, B"std::collections::BTreeMap");
    (3, B"std::collections::BTreeSet"); (2, B"std::collections::Hash"); (3, B"std::collections::HashMap");
    (3, B"std::collections::HashSet"); (1, B"std::fmt::D"); (2, B"std::fmt::Debug"); (2, B"std::fmt::Display")].
Proof. vm_compute. reflexivity. Qed.

(** C95: why the walk asks for leaves: a tree with one entry is its own only group. *)
Theorem C95_own_group :
  forall dbg t m k v, reachable dbg t -> holds mem t m -> same m (m_insert m_empty k v) ->
  exists u, t_group_by mem t (fun path _ => Ok (length path <=? length k)) ⇓ Ok [u] /\ holds mem u m /\
    t_prefix t = Data k /\ t_prefix u = Data k.
Proof. exact own_group. Qed.
Print Assumptions C95_own_group.
Example C95_own_group_example : reachable true twice_t /\ holds mem twice_t (m_insert m_empty (B"a") (B"1")) /\
  is_leaf twice_t = false /\
  walk 60 0 twice_t = Ok [Line 0 (Data (B"a")) (Some (Data (B"1"))); Line 1 (Data (B"a")) (Some (Data (B"1")))].
Proof. split; [exact reach_twice|]; split; [exact holds_twice|]; vm_compute; split; reflexivity. Qed.

(** C54: the macro [radixtree!] with keys and values makes a tree that has the last value given for each key. *)
Theorem C54_macro :
  forall dbg l, exists t, macro_map dbg l ⇓ Ok t /\ reachable dbg t /\
    holds mem t (fun k => option_map snd (last_of (filter (fun e => beq (fst e) k) l))).
Proof. exact macro_map_ok. Qed.
Print Assumptions C54_macro.
Example C54_macro_example : ex_run (macro_map true [(B"b", B"1"); (B"a", B"2"); (B"b", B"3")]) = Ok [(B"a", B"2"); (B"b", B"3")].
Proof. vm_compute. reflexivity. Qed.

(** C54: the macro [radixtree!] with keys only makes a tree that has exactly these keys, with empty values. *)
Theorem C54_set :
  forall dbg l, exists t, macro_set dbg l ⇓ Ok t /\ reachable dbg t /\
    exists m, holds mem t m /\ forall k, (In k l -> m k = Some []) /\ (~ In k l -> m k = None).
Proof. exact macro_set_ok. Qed.
Print Assumptions C54_set.
Example C54_set_example : ex_run (macro_set true [B"b"; B"a"; B"b"]) = Ok [(B"a", []); (B"b", [])].
Proof. vm_compute. reflexivity. Qed.
