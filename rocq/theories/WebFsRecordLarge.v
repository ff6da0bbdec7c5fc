(** Records of two gigabytes and more. *)
From Coq Require Import ZArith.
From Verif Require Import WebFsRecordExamples Base BaseLemmas Header Node Store U64 File Chunk WebFile WebSpec WebFs WebFsSpec
  WebFsStaleSpec WebFsRecordSpec WebFsRecord WebFsLoad.
Local Open Scope N_scope.

Lemma record_length b : N.of_nat (length (record b)) = record_len b.
Proof. unfold record, record_len. rewrite app_length, Nat2N.inj_add. reflexivity. Qed.

Section Large.
Context (b : bytes) (Hb : i32_lim <= record_len b) (Hu : N.of_nat (length b) < usize_lim).

Let c : chunk := Chunk 0 0 (record_len b).
Let j0 : jfile := JFile [] [] 0 [].
Let j1 : jfile := JFile [c] [(request_str (B"x") c, record b)] 0 [].

Lemma large_append : j_append_lp (B"x") b j0 = (Ok 0, j1).
Proof.
  unfold j_append_lp. rewrite (proj2 (N.ltb_lt _ _) Hu). unfold j_append.
  change (prev (j_chunks j0)) with default_chunk. change (snd (crange default_chunk)) with 0. cbv zeta.
  fold (record b). unfold j_write. rewrite record_length.
  assert (sum_ok 0 (record_len b) = Ok tt) as Es.
  { unfold sum_ok. assert (0 + record_len b <? u64_max = true) as ->; [|reflexivity].
    apply N.ltb_lt. unfold record_len, u64_max, usize_lim in *. lia. }
  unfold wbind, wret. rewrite Es. change (j_chunks j0) with (@nil chunk).
  change (level_ok (intersecting [] (0, 0 + record_len b))) with (Ok tt).
  assert (add [] 0 (record b) = [WWrite c (record b)]) as ->.
  { pose proof (record_length b) as E. unfold add, chunk_new, c. cbn [filter map flat_map app next_level fst snd].
    do 2 f_equal. f_equal. unfold bytes in *. lia. }
  change (j_execute (B"x") [WWrite c (record b)] j0) with (wbind (j_write_chunk (B"x") c (record b)) (fun _ => wret (Ok tt)) j0).
  unfold wbind, j_write_chunk, jjs, j0. cbn [j_faults j_other j_cache j_chunks tl jcache_size fold_right].
  assert (0 + 0 + N.of_nat (length (record b)) <? quota = true) as ->.
  { pose proof (record_length b) as E. apply N.ltb_lt. unfold record_len, quota, usize_lim in *. unfold bytes in *. lia. }
  reflexivity.
Qed.

Lemma large_load t : fst (j_load_lp (B"x") 0 (JFile [c] [(request_str (B"x") c, record b)] 0 t)) = Err.
Proof.
  assert (4 <= record_len b) as H4 by (unfold record_len; lia).
  assert (crange c = (0, record_len b)) as Ec by (unfold crange, c; cbn [offset len]; reflexivity).
  unfold j_load_lp. cbv zeta. cbn [j_chunks].
  assert (intersecting [c] (0, 0 + 4) = [c]) as ->.
  { unfold intersecting. cbn [filter]. rewrite Ec. assert (overlap (0, record_len b) (0, 0 + 4) = true) as ->; [|reflexivity].
    unfold overlap. cbn [fst snd]. rewrite (proj2 (N.leb_gt (record_len b) 0)) by lia. reflexivity. }
  cbn [fold_left]. rewrite Ec. cbn [snd]. unfold wbind at 1, wret at 1. change (sum_ok 0 4) with (Ok tt).
  unfold wbind at 1. unfold j_load_chunks. cbn [fst snd]. rewrite N.sub_0_r. unfold wbind at 1, wret at 1. unfold to_usize.
  destruct (record_len b <? usize_lim) eqn:El; [|reflexivity].
  assert (fst (j_load_loop (B"x") (0, record_len b) [c] (repeat x00 (N.to_nat (record_len b)))
    (JFile [c] [(request_str (B"x") c, record b)] 0 t)) = Err) as K.
  { cbn [j_load_loop]. rewrite Ec. unfold wbind at 1, wret at 1.
    assert (ranges (0, record_len b) (0, record_len b) = Ok ((0, record_len b), (0, record_len b))) as ->.
    { apply N.ltb_lt in El. unfold usize_lim in El. unfold ranges. cbn [fst snd].
      rewrite !N.sub_0_r. rewrite N.min_id. rewrite N.min_0_l. unfold to_i64 at 1.
      change (0 <? i64_lim) with true. cbn [bind]. unfold to_i64 at 1.
      assert (record_len b <? i64_lim = true) as -> by (apply N.ltb_lt; unfold i64_lim; lia). cbn [bind].
      unfold to_i64 at 1. change (0 <? i64_lim) with true. cbn [bind]. unfold to_i64. change (0 <? i64_lim) with true. cbn [bind].
      change (Z.of_N 0 - Z.of_N 0)%Z with 0%Z. change (z_to_usize (Z.of_N 0)) with (Ok 0). cbn [bind].
      rewrite (Z.add_0_r (Z.of_N (record_len b))). rewrite (Z.max_l (Z.of_N (record_len b)) 0) by lia.
      change (z_to_usize (Z.max (Z.of_N 0 + 0) 0)) with (Ok 0). unfold z_to_usize.
      assert (Z.of_N (record_len b) <? 0 = false)%Z as -> by (apply Z.ltb_ge; lia). rewrite N2Z.id.
      assert (record_len b <? usize_lim = true) as -> by (apply N.ltb_lt; exact El). reflexivity. }
    unfold wbind at 1. cbn [fst]. unfold j_load_range.
    assert (forall f, (let (r, f') := (jjs (fun f : jfile =>
      (match j_match (request_str (B"x") c) (j_cache f) with
       | None => Err
       | Some d => a <- to_i32 (fst (0, record_len b)) ;; b0 <- to_i32 (snd (0, record_len b)) ;; Ok (js_slice d a b0)
       end, f)) f) in r) = Err) as K.
    { intros f. unfold jjs. cbn [fst snd]. assert (to_i32 (record_len b) = Err) as ->.
      { unfold to_i32. assert (record_len b <? i32_lim = false) as -> by (apply N.ltb_ge; exact Hb). reflexivity. }
      change (to_i32 0) with (Ok 0). cbn [bind].
      destruct (j_faults f) as [|[] ?]; try reflexivity;
        match goal with |- context [j_match ?q ?m] => destruct (j_match q m) end; reflexivity. }
    match goal with |- context [jjs ?m ?f] => specialize (K f); destruct (jjs m f) as [r f'] end. subst r. reflexivity. }
  destruct (j_load_loop _ _ _ _ _) as [r j]. cbn [fst] in K. subst r. reflexivity.
Qed.
End Large.

Lemma large_record b : i32_lim <= record_len b -> N.of_nat (length b) < usize_lim ->
  fst (fs_run [Call (KOpenDir (B"d")) []; Call (KOpenFile (B"d") (B"x")) []; Call (KAppend (B"d") (B"x") b) [];
               Call (KLength (B"d") (B"x")) []; Call (KLoad (B"d") (B"x") 0) []] new_fs) =
  [Ok RUnit; Ok RUnit; Ok (RNum 0); Ok (RNum (record_len b)); Err].
Proof.
  intros Hb Hu. set (c := Chunk 0 0 (record_len b)).
  set (s1 := Fs [[]] [(B"d", 0%nat)] [(B"d", (0%nat, [(B"x", [])]))] true).
  set (s2 := Fs [[(request_str (B"x") c, record b)]] [(B"d", 0%nat)] [(B"d", (0%nat, [(B"x", [c])]))] true).
  set (s0 := Fs [[]] [(B"d", 0%nat)] [(B"d", (0%nat, []))] true).
  assert (fs_call (KOpenDir (B"d")) [] new_fs = (Ok RUnit, s0)) as Ea by reflexivity.
  assert (fs_call (KOpenFile (B"d") (B"x")) [] s0 = (Ok RUnit, s1)) as Eb by reflexivity.
  assert (fs_call (KAppend (B"d") (B"x") b) [] s1 = (Ok (RNum 0), s2)) as E1.
  { unfold fs_call. change (fs_up s1) with true. cbv iota. unfold fs_exec, on_file.
    change (get (B"d") (fs_dirs s1)) with (Some (0%nat, [(B"x", @nil chunk)])). cbv iota.
    change (get (B"x") [(B"x", @nil chunk)]) with (Some (@nil chunk)). cbv iota.
    change (jfile_of s1 0 [] []) with (JFile [] [] 0 []). rewrite (large_append b Hb Hu). reflexivity. }
  assert (fs_call (KLength (B"d") (B"x")) [] s2 = (Ok (RNum (record_len b)), s2)) as E2 by reflexivity.
  assert (fst (fs_call (KLoad (B"d") (B"x") 0) [] s2) = Err) as E3.
  { unfold fs_call. change (fs_up s2) with true. cbv iota. unfold fs_exec, on_file.
    change (get (B"d") (fs_dirs s2)) with (Some (0%nat, [(B"x", [c])])). cbv iota.
    change (get (B"x") [(B"x", [c])]) with (Some [c]). cbv iota.
    change (jfile_of s2 0 [c] []) with (JFile [c] [(request_str (B"x") c, record b)] 0 []).
    pose proof (large_load b Hb Hu []) as K. fold c in K.
    destruct (j_load_lp _ _ _) as [r j]. cbn [fst] in K. subst r. reflexivity. }
  cbn [fs_run]. rewrite Ea, Eb, E1, E2. destruct (fs_call (KLoad (B"d") (B"x") 0) [] s2) as [r s3]. cbn [fst] in E3. subst r. reflexivity.
Qed.

Lemma large_exists : exists b, i32_lim <= record_len b /\ N.of_nat (length b) < usize_lim.
Proof.
  exists (repeat x00 (N.to_nat i32_lim)). unfold record_len. rewrite repeat_length, N2Nat.id. unfold i32_lim, usize_lim. lia.
Qed.
