(** The plan that tidies up the chunks of a file in the browser cache.
    Models browser/src/web_cache_fs.rs:754-800.  In /repo only the tests call it. *)
From Verif Require Import Base BaseLemmas Header Node Store U64 Chunk WebFile.
Local Open Scope N_scope.

(** ** [RangeSet] of the crate [range_collections] (not code in /repo)

    A set of numbers as a sorted list of ranges that are not empty and do not touch. *)
Definition rset : Type := list range.
(** [RangeSet::from(Range)]. *)
Definition rs_of (r : range) : rset := if fst r <? snd r then [r] else [].
(** [union_with]. *)
Fixpoint rs_add (a b : N) (s : rset) : rset :=
  match s with
  | [] => [(a, b)]
  | (c, d) :: t =>
      if b <? c then (a, b) :: s
      else if d <? a then (c, d) :: rs_add a b t
      else rs_add (N.min a c) (N.max b d) t
  end.
Definition rs_union (s t : rset) : rset := fold_left (fun s r => rs_add (fst r) (snd r) s) t s.
(** [difference]. *)
Fixpoint rs_cut (a b : N) (s : rset) : rset :=
  match s with
  | [] => rs_of (a, b)
  | (c, d) :: t => rs_of (a, N.min b c) ++ rs_cut (N.max a d) b t
  end.
Definition rs_minus (s t : rset) : rset := flat_map (fun r => rs_cut (fst r) (snd r) t) s.
(** [is_disjoint]. *)
Definition rs_disjoint (s t : rset) : bool := forallb (fun r => forallb (fun q => negb (overlap r q)) t) s.
(** [==]. *)
Fixpoint rs_eqb (s t : rset) : bool :=
  match s, t with
  | [], [] => true
  | r :: s, q :: t => (fst r =? fst q) && (snd r =? snd q) && rs_eqb s t
  | _, _ => false
  end.

(** [get_file_range], web_cache_fs.rs:754-763. *)
Definition get_file_range (l : list range) : range :=
  match fold_left (fun a b => rs_union a (rs_of b)) l [] with
  | (0, e) :: _ => (0, e)
  | _ => (0, 0)
  end.

(** The loop in [open], web_cache_fs.rs:778-798, over the chunks from the last one
    to the first one. *)
Fixpoint open_loop (file : rset) (l : N) (covered : rset) (cs : list chunk) : list wop :=
  match cs with
  | [] => []
  | c :: cs =>
      let r := rs_of (crange c) in
      if rs_disjoint r file then WDelete c :: open_loop file l covered cs
      else
        let remaining := rs_minus r covered in
        (if rs_eqb remaining r then []
         else map (fun p => WRewrite (chunk_new p l)) remaining ++ [WDelete c]) ++
        open_loop file l (rs_union covered r) cs
  end.
(** [open], web_cache_fs.rs:765-800.  Simplified: overflow of the level, as in
    [next_level]. *)
Definition open_plan (cs : list chunk) : list wop :=
  open_loop (rs_of (get_file_range (map crange cs))) (next_level cs) [] (rev cs).
