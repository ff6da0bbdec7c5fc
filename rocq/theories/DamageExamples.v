(** Stores with damaged contents, for the theorems about them. *)
From Verif Require Export MemExamples.
From Coq Require Import NArith.
From Verif Require Import Base Header Node Combine Iter Api Spec Client U64 Store StoreSpec MemStore DamageSpec DamageProofs.

Definition id8 (n : N) : bytes := to_be 8 n.
(** A record: edge, value, children in blob [n] (0: none). *)
Definition d_record (edge value : bytes) (n : N) : bytes :=
  edge ++ value ++ (if (n =? 0)%N then [x80] else x89 :: x00 :: id8 n).
Definition d_data (b : bytes) : bytes := byte_of (N.of_nat (length b)) :: b.
(** Blob 2 is the child of the root; its first record has the blob itself as children, its second one refers to a blob that
    is not there, the third one has an edge and a value that are missing, and the last one is cut off. *)
Definition damaged : mem_st :=
  [(1%N, d_record (d_data []) [x80] 2);
   (2%N, d_record (d_data (B"a")) (d_data (B"v")) 2 ++ d_record (d_data (B"b")) [x80] 9
         ++ d_record (x89 :: B"c" ++ id8 7) (x88 :: id8 8) 0 ++ [x05; x64])].
Definition d_children (id : bytes) : Prop := id = id8 2 \/ id = id8 9.
Definition d_root : node := Node (Data []) bnone (KId (x00 :: id8 2)).
Lemma d_loads : t_load mem_store damaged (Some (id8 1)) = Ok d_root.
Proof. vm_compute. reflexivity. Qed.
Lemma mem_calm s id : mem_read s id <> Panic.
Proof. unfold mem_read. destruct (length id =? 8); [|discriminate]. destruct (bt_get (of_be id) s); discriminate. Qed.
Lemma mem_answers s : answering (mem_read s).
Proof. intros id. unfold mem_read. destruct (length id =? 8); [|discriminate]. destruct (bt_get (of_be id) s); discriminate. Qed.
Lemma d_blob id data : d_children id -> mem_read damaged id = Ok data -> id = id8 2.
Proof. intros [->| ->]; [reflexivity|]. vm_compute. discriminate. Qed.
Lemma d_records b : record_in (d_record (d_data (B"a")) (d_data (B"v")) 2 ++ d_record (d_data (B"b")) [x80] 9
         ++ d_record (x89 :: B"c" ++ id8 7) (x88 :: id8 8) 0 ++ [x05; x64]) b ->
  b = BNode (Data (B"a")) (Data (B"v")) (Id (x00 :: id8 2)) \/ b = BNode (Data (B"b")) (Id []) (Id (x00 :: id8 9)) \/
  b = BNode (Id (B"c" ++ id8 7)) (Id (id8 8)) (Id []).
Proof.
  intros H. destruct (record_cases _ _ H) as (a1 & r1 & E1 & H1). vm_compute in E1. injection E1 as <- <-. destruct H1 as [->|H1]; [now left|].
  destruct (record_cases _ _ H1) as (a2 & r2 & E2 & H2). vm_compute in E2. injection E2 as <- <-. destruct H2 as [->|H2]; [right; now left|].
  destruct (record_cases _ _ H2) as (a3 & r3 & E3 & H3). vm_compute in E3. injection E3 as <- <-. destruct H3 as [->|H3]; [right; now right|].
  destruct (record_cases _ _ H3) as (a4 & r4 & E4 & H4). vm_compute in E4. discriminate E4.
Qed.
Lemma d_tolerable : tolerable (mem_read damaged) d_children.
Proof.
  intros id data b Hc E H. pose proof (d_blob id data Hc E) as ->. vm_compute in E. injection E as <-.
  destruct (d_records b H) as [->|[->| ->]]; (split; [|split]); cbn -[id8 mem_read]; try exact Logic.I; try apply mem_calm;
    (eexists; split; [reflexivity|]); cbn -[id8 mem_read]; try exact Logic.I; (split; [apply mem_calm|unfold d_children; auto]).
Qed.
Lemma d_legible : legible (mem_read damaged) d_children.
Proof. intros id data Hc E. pose proof (d_blob id data Hc E) as ->. vm_compute in E. injection E as <-. vm_compute. discriminate. Qed.
Lemma d_edges : edges_there (mem_read damaged) d_children.
Proof.
  intros id data b c e Hc E H Eb. pose proof (d_blob id data Hc E) as ->. vm_compute in E. injection E as <-.
  destruct (d_records b H) as [->|[->| ->]]; cbn in Eb; try discriminate Eb. injection Eb as <- <-. vm_compute. discriminate.
Qed.
Lemma d_root_ok : node_ok (mem_read damaged) d_children d_root.
Proof. constructor; cbn -[id8 mem_read]; auto. split; [apply mem_calm|left; reflexivity]. Qed.

(** ** What does go wrong *)
(** The edge of a record is the id without bytes; a record has its children as data; a blob of children is empty. *)
Definition bad_edge : mem_st := [(1%N, d_record (d_data []) [x80] 2); (2%N, d_record [x80] (d_data (B"v")) 0)].
Definition bad_children : mem_st := [(1%N, d_record (d_data []) [x80] 2); (2%N, d_data (B"a") ++ d_data (B"v") ++ [x00])].
Definition bad_blob : mem_st := [(1%N, d_record (d_data []) [x80] 2); (2%N, [])].
(** A blob that is its own child, with a long edge that turns out to be empty: the search never gets past it. *)
Definition looping : mem_st := [(1%N, d_record (x89 :: B"c" ++ id8 2) [x80] 1); (2%N, [])].
Definition l_root : node := Node (Id (B"c" ++ id8 2)) bnone (KId (x00 :: id8 1)).
Definition l_record : bnode := BNode (Id (B"c" ++ id8 2)) bnone (Id (x00 :: id8 1)).
Lemma looping_find r : r = ROwned l_root \/ r = RBorrowed l_record -> forall fuel, find (mem_read looping) fuel r (B"c") = Fuel.
Proof.
  intros Hr fuel. revert r Hr. induction fuel as [|fuel IH]; intros r Hr; [reflexivity|].
  assert (find (mem_read looping) (S fuel) r (B"c") = find (mem_read looping) fuel (RBorrowed l_record) (B"c")) as -> by (destruct Hr as [->| ->]; reflexivity).
  apply IH. now right.
Qed.
Lemma looping_endless : t_load mem_store looping (Some (id8 1)) = Ok l_root /\ endless (get_bytes (mem_read looping) l_root (B"c")).
Proof.
  split; [vm_compute; reflexivity|]. intros fuel. unfold get_bytes, t_get, get. rewrite looping_find by (now left). reflexivity.
Qed.
Lemma ends_at {A} (f : nat -> res A) n r : r <> Fuel -> (forall k, f (n + k) = r) -> f ⇓ r.
Proof. intros Hr H. split; [exact Hr|]. exists n. intros m Hm. replace m with (n + (m - n)) by lia. apply H. Qed.
Lemma edge_panics : exists s id t, t_load mem_store s (Some id) = Ok t /\ iter_bytes (mem_read s) t ⇓ Panic.
Proof. exists bad_edge, (id8 1), d_root. split; [vm_compute; reflexivity|]. apply (ends_at _ 5); [discriminate|reflexivity]. Qed.
Lemma children_panic : exists s id t, t_load mem_store s (Some id) = Ok t /\ t_contains_key (mem_read s) t (B"a") ⇓ Ok true /\ iter_bytes (mem_read s) t ⇓ Panic.
Proof.
  exists bad_children, (id8 1), d_root. split; [vm_compute; reflexivity|].
  split; (apply (ends_at _ 5); [discriminate|reflexivity]).
Qed.
Lemma blob_panics : exists s id t, t_load mem_store s (Some id) = Ok t /\ iter_bytes (mem_read s) t ⇓ Ok [] /\ first_value_bytes (mem_read s) t ⇓ Panic.
Proof.
  exists bad_blob, (id8 1), d_root. split; [vm_compute; reflexivity|].
  split; (apply (ends_at _ 8); [discriminate|reflexivity]).
Qed.
Lemma endless_lookup : exists s id t, t_load mem_store s (Some id) = Ok t /\ endless (get_bytes (mem_read s) t (B"c")).
Proof. exists looping, (id8 1), l_root. exact looping_endless. Qed.
