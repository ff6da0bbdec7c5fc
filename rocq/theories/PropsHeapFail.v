(** Closures that panic inside combines and in-place operations, on memory that is shared (C88).

    [f_run] (HeapFail.v) runs a program on reference counted memory, with the closures of
    the combines and in-place operations panicking wherever they like; what unwinding drops
    is dropped, and the program goes on with the same variables.  [f_steps] and [f_runs]
    (HeapFailSpec.v) say what the same calls do to maps.  [bk] is what the vector builder
    the code uses does with the rest of its source when it is dropped: keep it or drop it;
    that crate is not in /repo, and the theorems hold for both.  [f_fine]: Rust accepts each
    call, whatever the calls before it did.  [var_answers h]: in memory [h] the variable
    answers every lookup and iteration as the map, or is the value. *)
From Verif Require Import HeapFailExamples Base Header Node Store Spec Client Heap HeapSpec HeapTree HeapTreeSpec HeapFail HeapFailSpec HeapFailTop.
From Coq Require Import String List.
Import ListNotations.

(** C88: whatever closures panic, nothing is undefined, no other call fails, and afterwards all trees answer as maps in which every entry is as before the panicking call, as after it, or gone as [half_combined] allows. *)
Theorem C88_values :
  forall bk dbg p, f_fine bk p [] ->
  exists e oks h ms, f_ends bk dbg p e oks h /\ f_runs bk p [] ms oks /\ Forall2 (var_answers h) ms e.
Proof. exact fail_values. Qed.
Print Assumptions C88_values.
Example C88_values_example : forall bk, f_fine bk (f_build ++ [f_panic Outer] ++ f_after) [] /\
  f_look (f_run bk true 40 (f_build ++ [f_panic Outer] ++ f_after) [] []) =
    Some ([true; true; true; true; true; true; true; true; true; true; true; false; true; true; true; true; true],
      [(if bk then [("ab", "1x"); ("b", "4"); ("c", "long value")] else [("ab", "1x"); ("b", "4")]);
       [("ab", "1"); ("abc", "long value"); ("b", "3"); ("c", "long value")];
       [("ab", "x"); ("b", "!"); ("c", "y"); ("q", "long value")];
       [("value", "1x")]; [("value", "3")];
       (if bk then [("ab", "1x"); ("b", "4"); ("c", "long value")] else [("ab", "1x"); ("b", "4")])])%string.
Proof. intros bk. split; [apply scoped_start; cbn; tauto|destruct bk; vm_compute; reflexivity]. Qed.

Example C88_values_new_example : forall bk, let p := f_build ++ [f_anew Outer; f_anew Inner; FCall (TInsert 2 (B"b") (B"ok")); f_anew Left; f_anew Outer] in
  f_fine bk p [] /\
  match f_look (f_run bk true 40 f_build [] []), f_look (f_run bk true 40 p [] []) with
  | Some (_, [t0; t1; _]), Some (oks, [t0'; t1'; _; n3; n4; n5; n6]) =>
      t0 = t0' /\ t1 = t1' /\ skipn 11 oks = [false; false; true; true; true] /\ n3 = [] /\ n4 = [] /\
      n5 = [("ab", "1x"); ("abc", "long value"); ("b", "3ok"); ("c", "long valuey")]%string /\ length n6 = 5
  | _, _ => False
  end.
Proof. intros bk p. split; [apply scoped_start; cbn; tauto|]. destruct bk; vm_compute; auto 20. Qed.

(** C88: a program whose text only uses trees that it has is such a program; nothing about what closures do has to be known. *)
Theorem C88_scoped : forall bk p, f_scoped p [] -> f_fine bk p [].
Proof. exact scoped_start. Qed.
Print Assumptions C88_scoped.
Example C88_scoped_example :
  f_scoped (f_build ++ [f_panic Inner; f_panic Left; f_prefix true; f_prefix false] ++ f_after) [] /\ ~ f_scoped (f_build ++ [FCall (TDrop 2); f_panic Outer]) [].
Proof. split; cbn; tauto. Qed.

(** C88: the end of a program is determined. *)
Theorem C88_determined :
  forall bk dbg p e oks h e' oks' h', f_ends bk dbg p e oks h -> f_ends bk dbg p e' oks' h' -> e = e' /\ oks = oks' /\ h = h'.
Proof. exact ends_fun. Qed.
Print Assumptions C88_determined.
Example C88_determined_example : exists e oks h, f_ends false true (f_build ++ [f_panic Left]) e oks h /\ nth_error oks 11 = Some false.
Proof. do 3 eexists. split; [apply (ends_at _ _ 40); vm_compute; reflexivity|reflexivity]. Qed.

(** C88: clones, second operands and values that were taken before stay as they are, whatever panics. *)
Theorem C88_others :
  forall bk dbg p q, f_fine bk (p ++ q) [] ->
  exists e oks h ms e' oks' h' ms', f_ends bk dbg p e oks h /\ Forall2 (var_answers h) ms e /\
    f_ends bk dbg (p ++ q) e' oks' h' /\ Forall2 (var_answers h') ms' e' /\
    forall v, v < length ms -> ~ In v (flat_map f_written q) -> nth v ms' None = nth v ms None.
Proof. exact fail_others. Qed.
Print Assumptions C88_others.
Example C88_others_example : forall bk, f_fine bk (f_build ++ [f_panic Inner; f_prefix false; f_prefix true]) [] /\
  flat_map f_written [f_panic Inner; f_prefix false; f_prefix true] = [0; 0; 0] /\
  match f_look (f_run bk true 40 f_build [] []), f_look (f_run bk true 40 (f_build ++ [f_panic Inner; f_prefix false; f_prefix true]) [] []) with
  | Some (_, [t0; t1; t2]), Some (oks, [t0'; t1'; t2']) =>
      t1 = t1' /\ t2 = t2' /\ t0 <> t0' /\ skipn 11 oks = if bk then [false; false; false] else [false; true; true]
  | _, _ => False
  end.
Proof. intros bk. split; [apply scoped_start; cbn; auto 20|]. split; [reflexivity|]. destruct bk; vm_compute; (split; [reflexivity|split; [reflexivity|split; [discriminate|reflexivity]]]). Qed.

(** C88: panics leak nothing: when everything goes out of scope, only empty vectors of children are left, as without panics (C58). *)
Theorem C88_leftover :
  forall bk dbg p, f_fine bk p [] ->
  exists e oks h, f_ends bk dbg (p ++ f_drop_all p) e oks h /\ Forall (fun x => snd x = CNodes []) (in_use h).
Proof. exact fail_leftover. Qed.
Print Assumptions C88_leftover.
Example C88_leftover_example : forall bk, let p := f_build ++ [f_panic Outer] ++ firstn 3 f_after in f_fine bk p [] /\
  match f_run bk false 40 p [] [] with Done (_, h) => (5 <? length (in_use h)) = true | _ => False end /\
  match f_run bk false 40 (p ++ f_drop_all p) [] [] with Done (_, h) => in_use h = [] | _ => False end.
Proof. intros bk p. split; [apply scoped_start; cbn; tauto|]. destruct bk; vm_compute; split; reflexivity. Qed.
Example C88_leftover_new_example : forall bk, let p := f_build ++ [f_anew Outer; f_anew Inner; f_anew Left; FCall (TInsert 2 (B"b") (B"ok")); f_anew Left] in f_fine bk p [] /\
  match f_run bk false 40 p [] [] with Done (_, h) => (5 <? length (in_use h)) = true | _ => False end /\
  match f_run bk false 40 (p ++ f_drop_all p) [] [] with Done (_, h) => in_use h = [] | _ => False end.
Proof. intros bk p. split; [apply scoped_start; cbn; tauto|]. destruct bk; vm_compute; split; reflexivity. Qed.
