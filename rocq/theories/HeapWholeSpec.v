(** The whole in-memory API on plain maps: a tree is a map, an iterator is the list of
    what it has still to give, and nothing is shared.  This is part of the statement of
    the theorems, not a model of code in /repo. *)
From Verif Require Import Base Header Node Api Spec Client RetainSpec ScanSpec GroupSpec Heap HeapSpec HeapIter HeapIterSpec HeapTree HeapTreeSpec HeapGroup HeapWhole.
From Coq Require Import Sorting.Sorted.

(** What [scan_prefix(p)] gives: the entries whose keys start with [p], in order; but if
    the keys fork at [p] then the last edge before [p] comes a second time after [p] in
    each of them (C08). *)
Definition shift (p e : bytes) (x : bytes * bytes) : bytes * bytes := (p ++ e ++ skipn (length p) (fst x), snd x).
Definition scans (m : kmap) (p : bytes) (l : list (bytes * bytes)) : Prop :=
  exists l0 e, lists_where (fun k => starts_with p k = true) l0 m /\ l = map (shift p e) l0 /\
    (fork m p /\ last_edge m p e \/ ~ fork m p /\ e = []).

(** Where [group_by(d)] cuts: at a path [p] that is a fork (or at the start of an empty
    tree) if [d] says to descend at all forks above it.  If [d] says to stop at [p], the
    group is all that starts with [p]; else the entry with key [p] alone. *)
Inductive cut : Type :=
| Whole (p : bytes)
| Own (p : bytes) (v : bytes).
Definition cut_at (c : cut) : bytes := match c with Whole p => p | Own p _ => p end.
Definition cut_ok (d : bytes -> option bytes -> bool) (m : kmap) (c : cut) : Prop :=
  (forks m (cut_at c) \/ cut_at c = [] /\ forall k, m k = None) /\
  (forall q z, z <> [] -> cut_at c = q ++ z -> forks m q -> d q (m q) = true) /\
  match c with
  | Whole p => d p (m p) = false
  | Own p v => d p (m p) = true /\ m p = Some v
  end.
Definition cut_map (m : kmap) (c : cut) : kmap :=
  match c with
  | Whole p => m_filter_prefix m p p
  | Own p v => m_insert m_empty p v
  end.
Definition cuts (d : bytes -> option bytes -> bool) (m : kmap) (cs : list cut) : Prop :=
  (forall c, In c cs <-> cut_ok d m c) /\ StronglySorted (fun a b => lex_lt (cut_at a) (cut_at b)) cs.

Record mst : Type := MS {
  ms_env : list (option mval);
  ms_iters : list (option (list (bytes * bytes)));
  ms_vals : list (option (list bytes));
  ms_keys : list (option bytes);
  ms_groups : list (option (list kmap));
  ms_vecs : list (option bytes);
  ms_blobs : list (option bytes) }.
Definition ms_start : mst := MS [] [] [] [] [] [] [].

Definition m_iter (l : list (bytes * bytes)) (s : mst) : mst :=
  MS (ms_env s) (ms_iters s ++ [Some l]) (ms_vals s) (ms_keys s) (ms_groups s) (ms_vecs s) (ms_blobs s).
Definition m_read (b : option bytes) (s : mst) : mst :=
  MS (ms_env s) (ms_iters s) (ms_vals s) (ms_keys s) (ms_groups s) (ms_vecs s ++ [b]) (ms_blobs s).
Definition m_give (v : option bytes) (s : mst) : mst :=
  MS (ms_env s ++ [option_map MValue v]) (ms_iters s) (ms_vals s) (ms_keys s) (ms_groups s) (ms_vecs s) (ms_blobs s).

(** [w_does i s s']: the instruction takes [s] to [s'].  There is no [s'] if Rust does not
    accept it, because it uses something that was dropped. *)
Inductive w_does : winstr -> mst -> mst -> Prop :=
| do_tree i s e : m_step i (ms_env s) = Some e ->
    w_does (WTree i) s (MS e (ms_iters s) (ms_vals s) (ms_keys s) (ms_groups s) (ms_vecs s) (ms_blobs s))
| do_iter r m l s : mvar r (ms_env s) = Some m -> lists l m -> w_does (WIter r) s (m_iter l s)
| do_scan r p m l s : mvar r (ms_env s) = Some m -> scans m p l -> w_does (WScan r p) s (m_iter l s)
| do_next j k v l s : nth j (ms_iters s) None = Some ((k, v) :: l) ->
    w_does (WNext j) s (MS (ms_env s ++ [Some (MValue v)]) (upd j (Some l) (ms_iters s)) (ms_vals s) (ms_keys s ++ [Some k])
                           (ms_groups s) (ms_vecs s) (ms_blobs s))
| do_end j s : nth j (ms_iters s) None = Some [] ->
    w_does (WNext j) s (MS (ms_env s ++ [None]) (ms_iters s) (ms_vals s) (ms_keys s ++ [None]) (ms_groups s) (ms_vecs s) (ms_blobs s))
| do_drop_iter j s :
    w_does (WDropIter j) s (MS (ms_env s) (upd j None (ms_iters s)) (ms_vals s) (ms_keys s) (ms_groups s) (ms_vecs s) (ms_blobs s))
| do_values r m l s : mvar r (ms_env s) = Some m -> lists l m ->
    w_does (WValues r) s (MS (ms_env s) (ms_iters s) (ms_vals s ++ [Some (map snd l)]) (ms_keys s) (ms_groups s) (ms_vecs s) (ms_blobs s))
| do_next_value j v l s : nth j (ms_vals s) None = Some (v :: l) ->
    w_does (WNextValue j) s (MS (ms_env s ++ [Some (MValue v)]) (ms_iters s) (upd j (Some l) (ms_vals s)) (ms_keys s)
                                (ms_groups s) (ms_vecs s) (ms_blobs s))
| do_end_value j s : nth j (ms_vals s) None = Some [] -> w_does (WNextValue j) s (m_give None s)
| do_drop_values j s :
    w_does (WDropValues j) s (MS (ms_env s) (ms_iters s) (upd j None (ms_vals s)) (ms_keys s) (ms_groups s) (ms_vecs s) (ms_blobs s))
| do_read_key k b s : nth k (ms_keys s) None = Some b -> w_does (WReadKey k) s (m_read (Some b) s)
| do_drop_key k s :
    w_does (WDropKey k) s (MS (ms_env s) (ms_iters s) (ms_vals s) (upd k None (ms_keys s)) (ms_groups s) (ms_vecs s) (ms_blobs s))
| do_blob k b s : nth k (ms_keys s) None = Some b ->
    w_does (WBlob k) s (MS (ms_env s) (ms_iters s) (ms_vals s) (ms_keys s) (ms_groups s) (ms_vecs s) (ms_blobs s ++ [Some b]))
| do_read_blob j b s : nth j (ms_blobs s) None = Some b -> w_does (WReadBlob j) s (m_read (Some b) s)
| do_drop_blob j s :
    w_does (WDropBlob j) s (MS (ms_env s) (ms_iters s) (ms_vals s) (ms_keys s) (ms_groups s) (ms_vecs s) (upd j None (ms_blobs s)))
| do_group r d m cs s : mvar r (ms_env s) = Some m -> cuts d m cs ->
    w_does (WGroup r d) s (MS (ms_env s) (ms_iters s) (ms_vals s) (ms_keys s) (ms_groups s ++ [Some (map (cut_map m) cs)])
                              (ms_vecs s) (ms_blobs s))
| do_next_group j g l s : nth j (ms_groups s) None = Some (g :: l) ->
    w_does (WNextGroup j) s (MS (ms_env s ++ [Some (MTree g)]) (ms_iters s) (ms_vals s) (ms_keys s) (upd j (Some l) (ms_groups s))
                                (ms_vecs s) (ms_blobs s))
| do_end_group j s : nth j (ms_groups s) None = Some [] -> w_does (WNextGroup j) s (m_give None s)
| do_drop_group j s :
    w_does (WDropGroup j) s (MS (ms_env s) (ms_iters s) (ms_vals s) (ms_keys s) (upd j None (ms_groups s)) (ms_vecs s) (ms_blobs s))
| do_first r m l s : mvar r (ms_env s) = Some m -> lists l m -> w_does (WFirst r) s (m_give (option_map snd (first_of l)) s)
| do_last r m l s : mvar r (ms_env s) = Some m -> lists l m -> w_does (WLast r) s (m_give (option_map snd (last_of l)) s)
| do_first_entry r p m l s : mvar r (ms_env s) = Some m -> lists l m ->
    w_does (WFirstEntry r p) s (m_read (option_map (fun x => p ++ fst x) (first_of l)) (m_give (option_map snd (first_of l)) s))
| do_last_entry r p m l s : mvar r (ms_env s) = Some m -> lists l m ->
    w_does (WLastEntry r p) s (m_read (option_map (fun x => p ++ fst x) (last_of l)) (m_give (option_map snd (last_of l)) s))
| do_read_value r v s : mat r (ms_env s) = Some (MValue v) -> w_does (WReadValue r) s (m_read (Some v) s).

(** [w_runs ok p s s']: the program takes [s] to [s'], and every instruction satisfies [ok]
    when it runs. *)
Inductive w_runs (ok : winstr -> mst -> Prop) : list winstr -> mst -> mst -> Prop :=
| w_done s : w_runs ok [] s s
| w_next i p s s1 s2 : ok i s -> w_does i s s1 -> w_runs ok p s1 s2 -> w_runs ok (i :: p) s s2
| w_yes q (P : Prop) i p s s' : ok (WIf q i) s -> q_asks q (ms_env s) = Some P -> P -> w_runs ok (i :: p) s s' -> w_runs ok (WIf q i :: p) s s'
| w_no q (P : Prop) i p s s' : ok (WIf q i) s -> q_asks q (ms_env s) = Some P -> ~ P -> w_runs ok p s s' -> w_runs ok (WIf q i :: p) s s'.

(** As in HeapTreeSpec.v; what is not there may always be done, and forgets no memory. *)
Definition w_may (i : winstr) (s : mst) : Prop :=
  match i with
  | WTree i => may i (ms_env s)
  | WIf q _ => may_ask q (ms_env s)
  | _ => True
  end.
Definition w_grows (i : winstr) (s : mst) : Prop :=
  match i with
  | WTree i => grows i (ms_env s)
  | WIf q _ => may_ask q (ms_env s)
  | _ => True
  end.

(** On the heap: the program ends normally, so it has no undefined behaviour and does not
    panic, with [s] and memory [h], however many steps beyond the needed ones it is given. *)
Definition w_runs_to (dbg : bool) (p : list winstr) (s : wst) (h : heap) : Prop :=
  exists n0, forall fuel, n0 <= fuel -> w_run dbg fuel p w_start [] = Done (s, h).
(** A blob reads as [b]. *)
Definition blob_reads (h : heap) (o : option bytes) (b : option hblob) : Prop :=
  match o, b with
  | Some k, Some b => h_blob_read b h = Done (k, h)
  | None, None => True
  | _, _ => False
  end.
(** In memory [h], all variables, keys and blobs are as in [s], and what was read is. *)
Definition w_holds (dbg : bool) (h : heap) (s : mst) (x : wst) : Prop :=
  Forall2 (var_holds dbg h) (ms_env s) (w_env x) /\ Forall2 (key_shows h) (ms_keys s) (x_keys (w_x x)) /\
  Forall2 (blob_reads h) (ms_blobs s) (w_blobs x) /\ w_vecs x = ms_vecs s.

(** The end of all scopes. *)
Definition w_drop_all (s : mst) : list winstr :=
  map (fun r => WTree (TDrop r)) (seq 0 (length (ms_env s))) ++ map WDropIter (seq 0 (length (ms_iters s))) ++
  map WDropValues (seq 0 (length (ms_vals s))) ++ map WDropKey (seq 0 (length (ms_keys s))) ++
  map WDropGroup (seq 0 (length (ms_groups s))) ++ map WDropBlob (seq 0 (length (ms_blobs s))).
(** The instruction does not use iterator [j]. *)
Fixpoint keeps_iter (j : nat) (i : winstr) : Prop :=
  match i with
  | WIf _ i => keeps_iter j i
  | WNext j' | WDropIter j' => j' <> j
  | _ => True
  end.
(** All that the instruction uses is there, so that Rust accepts it. *)
Definition w_alive (i : winstr) (s : mst) : Prop :=
  match i with
  | WTree i => m_step i (ms_env s) <> None
  | WIf q _ => q_asks q (ms_env s) <> None
  | WIter r | WScan r _ | WValues r | WGroup r _ | WFirst r | WLast r | WFirstEntry r _ | WLastEntry r _ => mvar r (ms_env s) <> None
  | WNext j => nth j (ms_iters s) None <> None
  | WNextValue j => nth j (ms_vals s) None <> None
  | WNextGroup j => nth j (ms_groups s) None <> None
  | WReadKey k | WBlob k => nth k (ms_keys s) None <> None
  | WReadBlob j => nth j (ms_blobs s) None <> None
  | WReadValue r => exists v, mat r (ms_env s) = Some (MValue v)
  | WDropIter _ | WDropValues _ | WDropKey _ | WDropGroup _ | WDropBlob _ => True
  end.
