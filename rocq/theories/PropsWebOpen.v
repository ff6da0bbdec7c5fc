(** C80: tidying up a file in the browser cache.  [tidy], [tidied], [stored], [gapless], [raw_now]: WebOpenSpec.v. *)
From Verif Require Import MemExamples Base BaseLemmas Header Node Store U64 File Chunk WebFile WebSpec WebOpen WebOpenSpec WebOpenTop.
Local Open Scope N_scope.

(** The plans that the tests of /repo expect, web_cache_fs.rs:903-961. *)
Example open_tests :
  let c a b l := chunk_new (a, b) l in
  open_plan [c 0 100 0; c 0 100 1] = [WDelete (c 0 100 0)] /\
  open_plan [c 0 100 0; c 50 150 0] = [WRewrite (c 0 50 1); WDelete (c 0 100 0)] /\
  open_plan [c 0 100 0; c 25 75 1] = [WRewrite (c 0 25 2); WRewrite (c 75 100 2); WDelete (c 0 100 0)] /\
  open_plan [c 1 100 0; c 25 75 1] = [WDelete (c 25 75 1); WDelete (c 1 100 0)] /\
  open_plan [c 0 100 0; c 101 201 0] = [WDelete (c 101 201 0)].
Proof. repeat split. Qed.

(** C80, safety: after every history of calls, failures, crashes, reopenings and earlier (perhaps interrupted) tidying,
    the file is stored up to some position n without a gap, and tidying it, stopped by a failure or crash
    at any point, leaves every byte before n as it was and the position n where it was.  When it ends, exactly the bytes
    before n are stored, each of them once, and tidying again would do nothing. *)
Theorem C80_tidy_safe :
  forall f, tidied f -> exists n, gapless f n /\ forall t r g, tidy t f = (r, g) ->
  (r = Ok tt \/ r = Err) /\ gapless g n /\
  (forall t1 t2 s e d d', s <= e -> e <= n -> raw_now f t1 s e = Ok d -> raw_now g t2 s e = Ok d' -> d = d') /\
  (r = Ok tt -> (forall x, stored g x -> x < n) /\ cache_size (w_cache g) = n /\ open_plan (w_chunks g) = []).
Proof. exact tidy_safe. Qed.
Print Assumptions C80_tidy_safe.

(** C80, success: when no operation on the cache fails, no chunk reaches 2^31 and fewer than 2^61 bytes are stored, tidying
    succeeds. *)
Theorem C80_tidy_succeeds :
  forall f, tidied f -> (forall c, cache_match c (w_cache f) <> None -> offset c + len c < i32_lim) ->
  cache_size (w_cache f) < 2305843009213693952 -> exists g, tidy [] f = (Ok tt, g).
Proof. exact tidy_accepts. Qed.
Print Assumptions C80_tidy_succeeds.

(** A write inside an older one whose plan stops after the new chunk is stored, and a write behind a gap. *)
Definition ex_calls : list (call * list bool) :=
  [(CWrite 0 (B"abcdef"), []); (CWrite 2 (B"XY"), [false; true]); (CWrite 9 (B"zz"), [])].
Definition ex_untidy : wfile := Eval vm_compute in snd (run ex_calls new_web_file).
Lemma ex_untidy_ok : tidied ex_untidy.
Proof. apply (run_tidied ex_calls new_web_file [Ok None; Err; Ok None]); [apply T_new|vm_compute; reflexivity]. Qed.
Example C80_example : tidied ex_untidy /\ cache_size (w_cache ex_untidy) = 10 /\ length (open_plan (w_chunks ex_untidy)) = 4%nat /\
  (forall c, cache_match c (w_cache ex_untidy) <> None -> offset c + len c < i32_lim) /\
  (let g := snd (tidy [] ex_untidy) in raw_now g [] 0 6 = Ok (B"abXYef") /\ cache_size (w_cache g) = 6) /\
  (let g := snd (tidy [false; false; false; false; true] ex_untidy) in raw_now g [] 0 6 = Ok (B"abXYef") /\ cache_size (w_cache g) = 10).
Proof.
  split; [exact ex_untidy_ok|]. split; [reflexivity|]. split; [reflexivity|]. split; [|split; split; vm_compute; reflexivity].
  intros c H. apply WebProofs.match_keys in H. vm_compute in H.
  destruct H as [<-|[<-|[<-|[]]]]; reflexivity.
Qed.
