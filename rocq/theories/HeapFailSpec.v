(** Programs whose closures panic, on plain maps: what a call that panics leaves of the tree that it was changing.
    This is part of the statement of the theorems, not a model of code in /repo. *)
From Verif Require Import Base Header Node Combine Api Spec Client InPlaceSpec Store Heap HeapSpec HeapTree HeapTreeSpec HeapFail.

(** The closure panics for the values of this key. *)
Definition panics_at (panics : bytes -> bytes -> bool) (m mu : kmap) (k : bytes) : Prop :=
  exists x y, m k = Some x /\ mu k = Some y /\ panics x y = true.

(** What the call makes of [m] if it returns. *)
Definition combined (c : combining) (g : bytes -> bytes -> option bytes) (m mu : kmap) : kmap :=
  match c with Outer => m_outer g m mu | Inner => m_inner g m mu | Left => m_left g m mu end.
Definition by_prefixes (retain : bool) (g : bytes -> bool) (m mu : kmap) : kmap :=
  if retain then m_retain_prefix_with g m mu else m_remove_prefix_with g m mu.

(** What a call that panicked leaves: every entry is as before the call, or as after it, or gone.  It is gone only if the
    closure panicked for it, or if [InPlaceVecBuilder] drops the rest of its source ([bk = false]). *)
Definition half_combined (bk : bool) (panics : bytes -> bytes -> bool) (m m' mu now : kmap) : Prop := forall k,
  now k = m k \/ (now k = m' k /\ ~ panics_at panics m mu k) \/ (now k = None /\ (bk = false \/ panics_at panics m mu k)).
Definition half_filtered (bk : bool) (m m' now : kmap) : Prop := forall k,
  now k = m k \/ now k = m' k \/ (now k = None /\ bk = false).

(** One call takes the variables [e] to [e']; the boolean says whether it returned.  A combine panics exactly if the closure
    panics for a key that both trees have; a prefix operation only if it panics for a value of the second tree.  Only the
    variable [r] changes.  A combine into a new tree changes no variable; if it panics the new one is an empty tree. *)
Inductive f_steps (bk : bool) : finstr -> menv -> menv -> bool -> Prop :=
| s_call i e e' : m_step i e = Some e' -> f_steps bk (FCall i) e e' true
| s_combined c panics g r s e m mu : mvar r e = Some m -> mvar s e = Some mu ->
    (forall k, ~ panics_at panics m mu k) ->
    f_steps bk (FCombine c panics g r s) e (upd r (Some (MTree (combined c g m mu))) e) true
| s_combine_panicked c panics g r s e m mu k now : mvar r e = Some m -> mvar s e = Some mu ->
    panics_at panics m mu k -> half_combined bk panics m (combined c g m mu) mu now ->
    f_steps bk (FCombine c panics g r s) e (upd r (Some (MTree now)) e) false
| s_filtered rt panics g r s e m mu : mvar r e = Some m -> mvar s e = Some mu ->
    f_steps bk (FPrefixes rt panics g r s) e (upd r (Some (MTree (by_prefixes rt g m mu))) e) true
| s_filter_panicked rt panics g r s e m mu k y now : mvar r e = Some m -> mvar s e = Some mu ->
    mu k = Some y -> panics y = true -> half_filtered bk m (by_prefixes rt g m mu) now ->
    f_steps bk (FPrefixes rt panics g r s) e (upd r (Some (MTree now)) e) false
| s_new c panics g r s e m mu : mvar r e = Some m -> mvar s e = Some mu ->
    (forall k, ~ panics_at panics m mu k) ->
    f_steps bk (FNew c panics g r s) e (e ++ [Some (MTree (combined c g m mu))]) true
| s_new_panicked c panics g r s e m mu k : mvar r e = Some m -> mvar s e = Some mu ->
    panics_at panics m mu k ->
    f_steps bk (FNew c panics g r s) e (e ++ [Some (MTree m_empty)]) false.
Inductive f_runs (bk : bool) : list finstr -> menv -> menv -> list bool -> Prop :=
| fr_done e : f_runs bk [] e e []
| fr_next i p e e1 e2 ok oks : f_steps bk i e e1 ok -> f_runs bk p e1 e2 oks -> f_runs bk (i :: p) e e2 (ok :: oks).

(** The calls besides those with closures. *)
Definition plain (i : tinstr) : Prop :=
  match i with
  | TEmpty | TLeaf _ | TSingle _ _ | TClone _ | TInsert _ _ _ | TRemove _ _ | TRemovePrefix _ _
  | TFilterPrefix _ _ _ | TGet _ _ | TDrop _ => True
  | _ => False
  end.
(** Rust accepts the call: the variables are there, and the one that is changed is not the second operand too.
    [retain_prefix_with] only does what it says if a rejected prefix has no selected one below it (C20). *)
Definition f_may (i : finstr) (e : menv) : Prop :=
  match i with
  | FCall i => plain i /\ m_step i e <> None
  | FCombine _ _ _ r s => r <> s /\ mvar r e <> None /\ mvar s e <> None
  | FPrefixes rt _ g r s => r <> s /\ mvar r e <> None /\ mvar s e <> None /\ (rt = true -> forall mu, mvar s e = Some mu -> downward_rejected g mu)
  | FNew _ _ _ r s => mvar r e <> None /\ mvar s e <> None
  end.
(** Whatever the calls before it did, Rust accepts the next one. *)
Inductive f_fine (bk : bool) : list finstr -> menv -> Prop :=
| ff_done e : f_fine bk [] e
| ff_next i p e : f_may i e -> (forall e' ok, f_steps bk i e e' ok -> f_fine bk p e') -> f_fine bk (i :: p) e.

(** On the heap: the program ends, with variables [e] and memory [h], and [oks] says which calls returned. *)
Definition f_ends (bk dbg : bool) (p : list finstr) (e : env) (oks : list bool) (h : heap) : Prop :=
  exists n0, forall fuel, n0 <= fuel -> f_run bk dbg fuel p [] [] = Done (e, oks, h).

(** In memory [h] the variable is a tree that answers lookups and iteration with the entries of the map, or is the value. *)
Definition var_answers (h : heap) (o : option mval) (s : slot) : Prop :=
  match o, s with
  | Some (MValue v), SValue hdr w => blob_shows h (Data v) hdr w
  | Some (MTree m), SNode c => exists t, shows h t c /\ readable mem t m
  | None, SGone => True
  | _, _ => False
  end.
(** The variable that a call changes or drops. *)
Definition f_written (i : finstr) : list nat :=
  match i with FCall i => written i | FCombine _ _ _ r _ | FPrefixes _ _ _ r _ => [r] | FNew _ _ _ _ _ => [] end.
(** The end of all scopes: a call makes at most one variable, so these are all variables. *)
Definition f_drop_all (p : list finstr) : list finstr := map (fun r => FCall (TDrop r)) (seq 0 (length p)).

(** What can be seen from the text of a program: which variables are trees ([true]), whatever the closures do. *)
Definition f_kinds (i : finstr) (ks : list bool) : option (list bool) :=
  let tree r := nth r ks false in
  match i with
  | FCall TEmpty | FCall (TLeaf _) | FCall (TSingle _ _) => Some (ks ++ [true])
  | FCall (TClone r) | FCall (TFilterPrefix r _ _) => if tree r then Some (ks ++ [true]) else None
  | FCall (TGet r _) => if tree r then Some (ks ++ [false]) else None
  | FCall (TInsert r _ _) | FCall (TRemove r _) | FCall (TRemovePrefix r _) => if tree r then Some ks else None
  | FCall (TDrop r) => Some (upd r false ks)
  | FCall _ => None
  | FCombine _ _ _ r s | FPrefixes _ _ _ r s => if tree r && tree s && negb (r =? s) then Some ks else None
  | FNew _ _ _ r s => if tree r && tree s then Some (ks ++ [true]) else None
  end.
(** A program that only uses trees it has, and calls [retain_prefix_with] only with closures that accept all or nothing. *)
Fixpoint f_scoped (p : list finstr) (ks : list bool) : Prop :=
  match p with
  | [] => True
  | i :: p =>
      match i with FPrefixes true _ g _ _ => forall x y, g x = g y | _ => True end /\
      match f_kinds i ks with Some ks' => f_scoped p ks' | None => False end
  end.
