(** Trees that share memory, changed in place or joined into new ones (C69), and what is freed (C58).

    [t_runs dbg p e h] (HeapTreeSpec.v): the program [p] of API calls on trees in
    variables, run on reference counted memory (HeapTree.v), ends with variables [e] and
    memory [h]; not in a panic and not in undefined behaviour.  [m_runs may p [] ms]: the
    same program on plain maps, one per variable, gives [ms]; [may] excludes only
    [retain_prefix_with] where C20 does, and giving an empty tree a prefix with
    [filter_prefix] and asking whether it has the empty prefix where C04 does.  [var_holds dbg h (Some (MTree m)) s]: in memory [h] the
    accessors see in variable [s] a tree that holds the map [m]. *)
From Verif Require Import HeapTreeExamples Base Header Node Combine Api Spec Client Store Heap HeapSpec HeapIter HeapTree HeapTreeSpec HeapTreeTop.

(** C69: whatever memory the trees share, every program of creations, clones, in-place operations, joins into new trees, prefix filters, lookups, questions that decide what is done next, and drops ends without undefined behaviour or panic, and every tree holds what its own history says. *)
Theorem C69_values :
  forall dbg p ms, m_runs may p [] ms ->
  exists e h, t_runs dbg p e h /\ Forall2 (var_holds dbg h) ms e.
Proof. exact trees_values. Qed.
Print Assumptions C69_values.
Example C69_values_example : m_runs may grow [] grown /\ m_runs may change grown changed_to /\
  look (t_run true 30 (grow ++ change) [] []) = Some
    [[("ab", "111"); ("abc", "long valuelong valuelong value"); ("abce", "44"); ("x", "5")]; [];
     [("ab", "1"); ("abc", "long value"); ("abd", "3")];
     [("ab", "11"); ("abc", "6long valuelong value"); ("abce", "4"); ("abd", "33"); ("x", "5")];
     [("ab", "1111"); ("abce", "44"); ("abd", "3333"); ("x", "55")];
     [("ab", "11"); ("abc", "long valuelong value"); ("abce", "44"); ("abd", "33")];
     [("y", "11"); ("yc", "8"); ("yce", "4"); ("yd", "33")];
     [("value", "long valuelong value")]; [];
     [("", "7"); ("abc", "")];
     [("ab", "11"); ("abce", "4"); ("abd", "33"); ("x", "5")];
     [("zy", "11"); ("zyc", "8"); ("zyce", "4"); ("zyd", "33")]]%string.
Proof. split; [exact grow_runs|]. split; [exact change_runs|]. vm_compute. reflexivity. Qed.

(** C69: a tree keeps its entries, whatever is done to its clones and to other trees, and also when it is the second operand. *)
Theorem C69_clones_independent :
  forall dbg p q v m ms ms', m_runs may p [] ms -> m_runs may q ms ms' -> mvar v ms = Some m ->
  ~ In v (flat_map written q) -> exists e h, t_runs dbg (p ++ q) e h /\ var_holds dbg h (Some (MTree m)) (var v e).
Proof. exact trees_independent. Qed.
Print Assumptions C69_clones_independent.
Example C69_clones_independent_example : m_runs may grow [] grown /\ m_runs may change grown changed_to /\
  ~ In 3 (flat_map written change) /\
  (exists m, mvar 3 grown = Some m /\ m (B "abc") = Some (B "6long valuelong value")) /\
  (** variable 3 is a clone of variable 2, which [change] changes *)
  mvar 2 grown = mvar 3 grown /\ In 2 (flat_map written change).
Proof.
  split; [exact grow_runs|]. split; [exact change_runs|]. split; [cbn; intros H; repeat destruct H as [H|H]; try discriminate H; exact H|].
  split; [eexists; split; [reflexivity|]; vm_compute; reflexivity|]. split; [reflexivity|]. cbn. tauto.
Qed.

(** C84: a value that was taken from a tree can be read as long as it is not dropped, and stays the same, whatever happens to the tree it came from and to all others. *)
Theorem C84_values_stay :
  forall dbg p q r k m b ms ms', m_runs may p [] ms -> mvar r ms = Some m -> m k = Some b ->
  m_runs may q (ms ++ [Some (MValue b)]) ms' -> ~ In (length ms) (flat_map written q) ->
  exists e h hdr w, t_runs dbg (p ++ TGet r k :: q) e h /\ var (length ms) e = SValue hdr w /\ blob_read hdr w h = Done (b, h).
Proof. exact values_stay. Qed.
Print Assumptions C84_values_stay.
(** The entry is overwritten and the tree dropped; the value is long enough to be shared. *)
Example C84_values_stay_example : exists ms m ms',
  m_runs may [TSingle (B "a") big] [] ms /\ mvar 0 ms = Some m /\ m (B "a") = Some big /\
  m_runs may [TInsert 0 (B "a") (B "x"); TDrop 0] (ms ++ [Some (MValue big)]) ms' /\
  ~ In (length ms) (flat_map written [TInsert 0 (B "a") (B "x"); TDrop 0]) /\
  option_map (fun l => nth 1 l []) (look (t_run false 20 ([TSingle (B "a") big] ++ TGet 0 (B "a") :: [TInsert 0 (B "a") (B "x"); TDrop 0]) [] [])) = Some [("value", "long value")]%string.
Proof.
  eexists _, _, _. split; [runs|]. split; [reflexivity|]. split; [reflexivity|]. split; [runs|].
  split; [cbn; intros [H|[H|[]]]; discriminate H|]. vm_compute. reflexivity.
Qed.

(** C85: a question to trees that share memory gets the answer that their maps give, and leaves all variables as they are. *)
Theorem C85_questions :
  forall dbg p ms q (P : Prop), m_runs may p [] ms -> may_ask q ms -> q_asks q ms = Some P ->
  exists e h b h', t_runs dbg p e h /\ (exists n0, forall fuel, n0 <= fuel -> t_ask fuel q e h = Done (b, h')) /\
    (b = true <-> P) /\ Forall2 (var_holds dbg h') ms e.
Proof. exact ask_answers. Qed.
Print Assumptions C85_questions.
Example C85_questions_example : m_runs may grow [] grown /\ m_runs may ask grown asked /\
  (may_ask (QInner beq 3 1) grown /\ exists P, q_asks (QInner beq 3 1) grown = Some P) /\
  match t_run true 30 grow [] [] with
  | Done (e, h) => map (fun q => match t_ask 30 q e h with Done (b, _) => Some b | _ => None end)
      [QInner beq 3 1; QInner beq 6 1; QLeft (fun _ _ => false) 1 0; QLeft (fun _ _ => false) 0 1; QContains 0 (B "abd"); QContains 0 (B "a"); QPrefix 0 (B "a");
       QPrefix 0 (B "b"); QEmpty 0]
      = map Some [true; false; false; true; true; false; true; false; false]
  | _ => False
  end /\
  look (t_run true 30 (grow ++ ask) [] []) = Some
    [[("ab", "11"); ("abc", "long valuelong value"); ("abce", "4"); ("x", "5")];
     [("ab", "1"); ("abc", "long value"); ("abce", "4"); ("abd", "3"); ("i", "8"); ("j", "9")]; [];
     [("ab", "11"); ("abc", "6long valuelong value"); ("abce", "4"); ("abd", "33"); ("x", "5")];
     [("ab", "1111"); ("abc", "long valuelong value6long valuelong value"); ("abce", "44"); ("abd", "3333"); ("x", "55")];
     [("ab", "11"); ("abc", "long valuelong value"); ("abce", "44"); ("abd", "33")];
     [("y", "11"); ("yc", "long valuelong value"); ("yce", "4"); ("yd", "33")];
     [("value", "long valuelong value")]; []; [("abce", "4")]]%string.
Proof.
  split; [exact grow_runs|]. split; [exact ask_runs|]. split; [split; [exact Logic.I|eexists; reflexivity]|].
  split; vm_compute; reflexivity.
Qed.

(** C58: not all memory is freed when all trees are dropped: an entry that is inserted and removed again leaves a vector. *)
Theorem C58_trees_freed_refuted : ~ t_all_freed.
Proof. exact not_all_freed. Qed.
Print Assumptions C58_trees_freed_refuted.
Example C58_trees_freed_refuted_example :
  left (t_run false 10 (in_out ++ t_drop_all 1) [] []) = Some [(1, CNodes [])] /\
  left (t_run false 10 (two_empty ++ t_drop_all 2) [] []) = Some [(1, CNodes [])].
Proof. split; vm_compute; reflexivity. Qed.

(** C58: what is proved: of the trees themselves nothing is left but empty children vectors. *)
Theorem C58_trees_leftover_partial :
  forall dbg p ms, m_runs may p [] ms ->
  exists e h, t_runs dbg (p ++ t_drop_all (length ms)) e h /\ Forall (fun x => snd x = CNodes []) (in_use h).
Proof. exact trees_leftover. Qed.
Print Assumptions C58_trees_leftover_partial.
Example C58_trees_leftover_example :
  m_runs may grow [] grown /\ m_runs may change grown changed_to /\ length changed_to = 12 /\
  option_map (fun u => 10 <? length u) (left (t_run true 30 (grow ++ change) [] [])) = Some true /\
  left (t_run true 30 ((grow ++ change) ++ t_drop_all 12) [] []) = Some [(1, CNodes [])].
Proof. split; [exact grow_runs|]. split; [exact change_runs|]. split; [reflexivity|]. split; vm_compute; reflexivity. Qed.

(** C58: and programs that only create, clone, insert, drop, look up, ask, join in place without deleting, join into new trees and filter by prefix leave nothing. *)
Theorem C58_trees_freed_partial :
  forall dbg p ms, m_runs grows p [] ms ->
  exists e h, t_runs dbg (p ++ t_drop_all (length ms)) e h /\ in_use h = [].
Proof. exact trees_freed. Qed.
Print Assumptions C58_trees_freed_partial.
Example C58_trees_freed_example : m_runs grows grow [] grown /\ length grown = 9 /\
  option_map (fun u => 10 <? length u) (left (t_run true 30 grow [] [])) = Some true /\
  left (t_run true 30 (grow ++ t_drop_all 9) [] []) = Some [].
Proof. split; [exact grow_grows|]. split; [reflexivity|]. split; vm_compute; reflexivity. Qed.
