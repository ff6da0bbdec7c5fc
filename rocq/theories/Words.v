(** The keys of examples/large_tree.rs: numbers in words. *)
From Coq Require Import ZArith String.
From Verif Require Import Base.
Import ListNotations.
Local Open Scope Z_scope.

(** The bytes of a string literal (used for the literals of examples/large_tree.rs:5-30). *)
Definition str (s : string) : bytes := String.list_byte_of_string s.
(** examples/large_tree.rs:5-26 *)
Definition low_names : list bytes := map str
  ["zero"; "one"; "two"; "three"; "four"; "five"; "six"; "seven"; "eight"; "nine"; "ten"; "eleven"; "twelve"; "thirteen";
   "fourteen"; "fifteen"; "sixteen"; "seventeen"; "eighteen"; "nineteen"]%string.
(** examples/large_tree.rs:27-29 *)
Definition tens_names : list bytes := map str
  ["twenty"; "thirty"; "forty"; "fifty"; "sixty"; "seventy"; "eighty"; "ninety"]%string.
(** examples/large_tree.rs:30 *)
Definition big_names : list bytes := map str ["thousand"; "million"; "billion"]%string.
(** Indexing a slice (examples/large_tree.rs:49, 65, 78, 80, 84): panics if the index is out of bounds. *)
Definition index (l : list bytes) (i : Z) : res bytes :=
  if i <? 0 then Panic else if Z.of_nat (length l) <=? i then Panic else
  match nth_error l (Z.to_nat i) with Some s => Ok s | None => Panic end.

(** examples/large_tree.rs:76-87 *)
Definition convert99 (n : Z) : res bytes :=
  if n <? 20 then index low_names n else
  s <- index tens_names (n / 10 - 2) ;;
  if n mod 10 =? 0 then Ok s else
  u <- index low_names (n mod 10) ;;
  Ok (s ++ str "-" ++ u)%list.
(** examples/large_tree.rs:64-74 *)
Definition convert999 (n : Z) : res bytes :=
  h <- index low_names (n / 100) ;;
  let s1 := (h ++ str " hundred")%list in
  s2 <- convert99 (n mod 100) ;;
  Ok (if n <=? 99 then s2 else if n mod 100 =? 0 then s1 else (s1 ++ str " " ++ s2)%list).
(** The loop, examples/large_tree.rs:45-60; [fuel] bounds the number of rounds. *)
Fixpoint groups_loop (fuel : nat) (n t : Z) (s : bytes) : res bytes :=
  if n <=? 0 then Ok s else
  match fuel with
  | O => Fuel
  | Datatypes.S fuel =>
      s' <- (if n mod 1000 =? 0 then Ok s else
             s2 <- convert999 (n mod 1000) ;;
             s2 <- (if 0 <? t then b <- index big_names (t - 1) ;; Ok (s2 ++ str " " ++ b)%list else Ok s2) ;;
             Ok (match s with [] => s2 | _ => s2 ++ str ", " ++ s end)%list) ;;
      groups_loop fuel (n / 1000) (t + 1) s'
  end.
(** examples/large_tree.rs:36-62, for the numbers of an [i64] but the least.  (For that one [-n] overflows.)  Eight rounds
    are enough for an [i64]. *)
Definition number_to_words (n : Z) : res bytes :=
  let pos n := if n <=? 999 then convert999 n else groups_loop 8 n 0 [] in
  if n <? 0 then s <- pos (- n) ;; Ok (str "minus " ++ s)%list else pos n.
