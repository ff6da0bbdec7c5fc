(** Programs whose closures panic, for the theorems about them. *)
From Verif Require Export HeapTreeExamples.
From Coq Require Import String.
From Verif Require Import Base Header Node Combine Api Spec Client InPlaceSpec Store Heap HeapSpec HeapTree HeapTreeSpec HeapFail HeapFailSpec HeapFailTop.

(** Variable 0 is the tree that is changed, 1 a clone of it, 2 the second operand. *)
Definition f_build : list finstr :=
  map FCall [TEmpty; TInsert 0 (B"ab") (B"1"); TInsert 0 (B"abc") big; TInsert 0 (B"b") (B"3"); TInsert 0 (B"c") big; TClone 0;
             TEmpty; TInsert 2 (B"ab") (B"x"); TInsert 2 (B"b") (B"!"); TInsert 2 (B"c") (B"y"); TInsert 2 (B"q") big].
Definition bang (y : bytes) : bool := beq y (B"!").
(** Appends the values, and panics for [!]. *)
Definition f_panic (c : combining) : finstr := FCombine c (fun _ y => bang y) (fun x y => Some (x ++ y)) 0 2.
(** The same, making a new tree. *)
Definition f_anew (c : combining) : finstr := FNew c (fun _ y => bang y) (fun x y => Some (x ++ y)) 0 2.
Definition f_prefix (rt : bool) : finstr := FPrefixes rt bang (fun _ => true) 0 2.
Definition f_after : list finstr := map FCall [TGet 0 (B"ab"); TInsert 0 (B"b") (B"4"); TGet 1 (B"b"); TRemove 0 (B"abc"); TClone 0].

(** Which calls returned, and the variables. *)
Definition f_look (r : out (env * list bool * heap)) : option (list bool * list (list (string * string))) :=
  match r with
  | Done (e, oks, h) => match look (Done (e, h)) with Some l => Some (oks, l) | None => None end
  | _ => None
  end.
Definition f_returned (r : out (env * list bool * heap)) (n : nat) : option bool :=
  match r with Done (_, oks, _) => nth_error oks n | _ => None end.
