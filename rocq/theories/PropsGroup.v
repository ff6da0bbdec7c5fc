(** Where [group_by] cuts (C11, C27).  [group_of d m l]: [l] is one of the groups that
    the predicate [d] on paths and values describes.  See GroupSpec.v. *)
From Verif Require Import MemExamples StoreExamples Base Header Node Combine Iter Api Spec Client Top TopOps MemLemmas
  Store StoreSpec World MemStore MemStoreProofs GroupSpec GroupTop.

(** C11: group_by descends exactly where the predicate says so, and stops elsewhere. *)
Theorem C11_groups :
  forall dbg t m d, reachable dbg t -> holds mem t m ->
  exists ts ls, t_group_by mem t (by_path mem d) ⇓ Ok ts /\
    Forall2 (fun u l => exists mu, holds mem u mu /\ lists l mu) ts ls /\ lists (concat ls) m /\
    Forall (group_of d m) ls.
Proof. exact mem_groups. Qed.
Print Assumptions C11_groups.
Example C11_groups_example : reachable true ex_t /\ holds mem ex_t ex_m /\
  map (fun d => ts <- t_group_by mem ex_t (by_path mem d) 60 ;; Ok (map (fun u => iter_bytes mem u 60) ts))
    [fun p _ => length p <=? 1; fun _ _ => true; fun _ _ => false; fun _ v => match v with Some _ => false | None => true end] =
  [Ok [Ok [(B"ab", B"1"); (B"abc", B"2"); (B"abd", B"3")]; Ok [(B"b", B"")]];
   Ok [Ok [(B"ab", B"1")]; Ok [(B"abc", B"2")]; Ok [(B"abd", B"3")]; Ok [(B"b", B"")]];
   Ok [Ok [(B"ab", B"1"); (B"abc", B"2"); (B"abd", B"3"); (B"b", B"")]];
   Ok [Ok [(B"ab", B"1"); (B"abc", B"2"); (B"abd", B"3")]; Ok [(B"b", B"")]]].
Proof. split; [exact ex_reachable|]; split; [exact ex_holds|]; vm_compute; reflexivity. Qed.

(** C27: the same for attached trees; a predicate on values loads them through the store. *)
Theorem C27_groups :
  forall dbg S inv s t m d, lawful S inv -> attached dbg S inv s t m ->
  exists ts ls, t_group_by (st_read S s) t (by_path (st_read S s) d) ⇓ Ok ts /\
    Forall2 (fun u l => exists mu, holds (st_read S s) u mu /\ lists l mu) ts ls /\ lists (concat ls) m /\
    Forall (group_of d m) ls.
Proof. exact at_groups. Qed.
Print Assumptions C27_groups.
Example C27_groups_example : lawful mem_store mem_inv /\ attached true mem_store mem_inv ex_s ex_a ex_am /\
  (ts <- t_group_by (mem_read ex_s) ex_a (by_path (mem_read ex_s) (fun p _ => length p <=? 1)) 400 ;; Ok (length ts)) = Ok 3 /\
  (ts <- t_group_by (mem_read ex_s) ex_a (by_path (mem_read ex_s) (fun _ _ => true)) 400 ;; Ok (length ts)) = Ok 6.
Proof. split; [exact mem_lawful|]; split; [exact ex_attached|]; split; vm_compute; reflexivity. Qed.
