(** Examples of paging files: a plain file as the file below, histories, and what goes wrong. *)
From Verif Require Export WebTreeExamples.
From Verif Require Import Base BaseLemmas Header Node Combine Iter Api Spec Client Top Store StoreSpec World U64 File
  Chunk WebFile WebSpec WebTop WebAppend Paging PagingSpec PagingWeb PagingStore PagingStoreProofs.
Local Open Scope N_scope.

(** A file where the next operations fail as told: whether it fails, and whether a
    failing write takes effect. *)
Definition pstate : Type := file * list (bool * bool).
Definition next_fault (s : pstate) : bool * bool := hd (false, false) (snd s).
Definition drop_fault (s : pstate) : pstate := (fst s, tl (snd s)).
Definition plain_write (o : N) (d : bytes) (s : pstate) : res unit * pstate :=
  let F := f_write (fst s) o d in
  if f_len F <? i64_lim then
    match next_fault s with
    | (false, _) => (Ok tt, (F, tl (snd s)))
    | (true, true) => (Err, (F, tl (snd s)))
    | (true, false) => (Err, drop_fault s)
    end
  else (Err, drop_fault s).
Definition plain_dev : dev := {|
  dv := pstate;
  dv_length := fun s => (if fst (next_fault s) then Err else Ok (f_len (fst s)), drop_fault s);
  dv_read := fun a b s =>
    (if fst (next_fault s) then Err else if b <=? f_len (fst s) then Ok (f_read (fst s) a (N.to_nat (b - a))) else Err, drop_fault s);
  dv_write := plain_write;
  dv_open := fun s => (if fst (next_fault s) then Err else Ok tt, drop_fault s)
|}.
Definition plain_inv (s : pstate) (F : file) : Prop := fst s = F /\ f_len F < i64_lim.
Lemma plain_file_dev : file_dev plain_dev true plain_inv.
Proof.
  constructor.
  - now intros s F [_ H].
  - intros s F r s' [<- H] E. cbn in E. injection E as <- <-. split; [now split|].
    destruct (fst (next_fault s)); [now left|right]. eexists. split; [reflexivity|lia].
  - intros s F a b r s' [<- H] Hab E. cbn in E. injection E as <- <-. split; [now split|].
    destruct (fst (next_fault s)); [now left|]. destruct (N.leb_spec b (f_len (fst s))); [now right|now left].
  - intros s F o d r s' [<- H] _ E. cbn [dv_write plain_dev] in E. unfold plain_write in E.
    destruct (N.ltb_spec (f_len (f_write (fst s) o d)) i64_lim) as [Hl|Hl].
    + destruct (next_fault s) as [[|] [|]]; injection E as <- <-.
      * eexists. split; [split; [reflexivity|exact Hl]|]. right. split; [reflexivity|now right].
      * eexists. split; [split; [reflexivity|exact H]|]. right. split; [reflexivity|now left].
      * eexists. split; [split; [reflexivity|exact Hl]|]. now left.
      * eexists. split; [split; [reflexivity|exact Hl]|]. now left.
    + injection E as <- <-. eexists. split; [split; [reflexivity|exact H]|]. right. split; [reflexivity|now left].
  - intros s F r s' [<- H] E. cbn in E. injection E as <- <-. split; [now split|]. destruct (fst (next_fault s)); auto.
Qed.
Lemma plain_exact : exact_length plain_dev plain_inv.
Proof. intros s F n s' [<- _] E. cbn in E. destruct (fst (next_fault s)); congruence. Qed.
Definition plain_good (s : pstate) : Prop := snd s = [].
Lemma plain_readable : readable plain_dev plain_inv plain_good.
Proof.
  intros s F a b [<- _] Hg Hab Hb. unfold plain_good in Hg. cbn [dv_read plain_dev]. unfold next_fault. rewrite Hg. cbn [hd fst].
  apply N.leb_le in Hb. rewrite Hb. eauto.
Qed.
Definition plain_new (t : list (bool * bool)) : pstate := (empty_file, t).
Lemma plain_new_inv t : plain_inv (plain_new t) empty_file.
Proof. now split. Qed.

(** A history on a plain file with 64 byte pages: the first sync fails though its write
    took effect, a page is filled, the file is opened twice. *)
Definition pg_hist : list pcall :=
  [POpen; PAppend (B"first"); PSync; PAppend (long 30 x01); PSync; PAppend (long 30 x02); PLoad 4; PLoad 20; PLoad 68; PAppend (long 61 x03);
   POpen; POpen; PLoad 4; PLoad 20; PAppend (B"new"); PLoad 20; PLoad 68].
Definition pg_faults : list (bool * bool) :=
  [(false, false); (false, false); (false, false); (true, true); (false, false); (false, false); (true, false)].
Definition pg_results : list (res pout) := fst (prun plain_dev 64 pg_hist (plain_new pg_faults, None)).
Definition pg_end : pfile plain_dev := snd (prun plain_dev 64 pg_hist (plain_new pg_faults, None)).
Lemma pg_run : prun plain_dev 64 pg_hist (plain_new pg_faults, None) = (pg_results, pg_end).
Proof. unfold pg_results, pg_end. now destruct (prun plain_dev 64 pg_hist (plain_new pg_faults, None)). Qed.
Lemma pg_sizes : Forall (size_ok 64) pg_hist.
Proof. unfold pg_hist. repeat (apply Forall_cons; [cbn; intuition (try reflexivity; try lia)|]). all: try (apply Forall_nil). Qed.
Lemma pg_shown : pg_results =
  [Ok ODone; Ok (OId 4); Err; Ok (OId 20); Ok ODone; Ok (OId 68); Ok (OData (B"first")); Ok (OData (long 30 x01)); Ok (OData (long 30 x02)); Err;
   Err; Ok ODone; Ok (OData (B"first")); Ok (OData (long 30 x01)); Ok (OId 68); Ok (OData (long 30 x01)); Ok (OData (B"new"))].
Proof. vm_compute. reflexivity. Qed.
Lemma pg_good : plain_good (fst pg_end) /\ snd pg_end <> None.
Proof. split; [vm_compute; reflexivity|]. vm_compute. discriminate. Qed.

(** On a file in the browser cache: one sync at the end, which fails once. *)
Definition once_hist : list pcall := [POpen; PAppend (B"first"); PAppend (long 30 x01); PAppend (long 30 x02); PLoad 4].
Definition once_later : list pcall := [POpen; PLoad 68; PLoad 4; PLoad 20].
Definition once_results : list (res pout) := fst (prun web_dev 64 (once_hist ++ PSync :: once_later) (with_faults [] new_web_file, None)).
Definition once_end : pfile web_dev := snd (prun web_dev 64 (once_hist ++ PSync :: once_later) (with_faults [] new_web_file, None)).
Lemma once_run : prun web_dev 64 (once_hist ++ PSync :: once_later) (with_faults [] new_web_file, None) = (once_results, once_end).
Proof. unfold once_results, once_end. now destruct (prun web_dev 64 (once_hist ++ PSync :: once_later) (with_faults [] new_web_file, None)). Qed.
Lemma once_ok : Forall (size_ok 64) once_hist /\ Forall no_sync once_hist /\ Forall only_reads once_later.
Proof.
  split; [|split; repeat constructor].
  unfold once_hist. repeat (apply Forall_cons; [cbn; intuition (try reflexivity; try lia)|]). all: try (apply Forall_nil).
Qed.
Lemma once_shown : once_results =
  [Ok ODone; Ok (OId 4); Ok (OId 20); Ok (OId 68); Ok (OData (B"first")); Ok ODone;
   Ok ODone; Ok (OData (long 30 x02)); Ok (OData (B"first")); Ok (OData (long 30 x01))].
Proof. vm_compute. reflexivity. Qed.
Lemma once_works : works (fst once_end) /\ snd once_end <> None.
Proof. split; [split; [vm_compute; reflexivity|]; exists 102; split; vm_compute; reflexivity|]. vm_compute. discriminate. Qed.

(** ** What goes wrong *)
(** Data that just fits passes the size check and then panics ... *)
Lemma paging_panic : fst (prun plain_dev 64 [POpen; PAppend (long 57 x01)] (plain_new [], None)) = [Ok ODone; Panic].
Proof. vm_compute. reflexivity. Qed.
(** ... or is lost at once. *)
Lemma paging_lost : fst (prun plain_dev 64 [POpen; PAppend (long 56 x01); PLoad 68] (plain_new [], None)) = [Ok ODone; Ok (OId 68); Err].
Proof. vm_compute. reflexivity. Qed.
(** On a file in the browser cache, data that was synced is gone after opening the file
    again, and its id is given to other data. *)
Definition lost_hist : list pcall :=
  [POpen; PAppend (B"first"); PSync; PAppend (B"second item 123"); PAppend (B"third item 1234"); PSync;
   PLoad 36; PLoad 68; POpen; PLoad 36; PLoad 68; PAppend (B"xxx"); PLoad 36].
Lemma lost_sizes : Forall (size_ok 32) lost_hist.
Proof. unfold lost_hist. repeat (apply Forall_cons; [cbn; intuition (try reflexivity; try lia)|]). all: try (apply Forall_nil). Qed.
Lemma paging_web_lost : fst (prun web_dev 32 lost_hist (new_web_file, None)) =
  [Ok ODone; Ok (OId 4); Ok ODone; Ok (OId 36); Ok (OId 68); Ok ODone;
   Ok (OData (B"second item 123")); Ok (OData (B"third item 1234")); Ok ODone; Err; Err; Ok (OId 36); Ok (OData (B"xxx"))].
Proof. vm_compute. reflexivity. Qed.

(** ** Trees *)
Definition pt_todo : paging_schedule := [[]; [PSync; PAppend (B"other")]; [PSync]; []; [PLoad 4]].
Definition pt_open : pfile plain_dev := snd (prun plain_dev 512 [POpen] (plain_new [], None)).
Definition pt_start : pfile plain_dev * paging_schedule := (pt_open, pt_todo).
Lemma pt_inv : paging_inv plain_dev (fun x => exists F, plain_inv x F) true 512 pt_start.
Proof.
  split; [|split; [vm_compute; discriminate|]].
  - exists (plain_new []), [POpen]. eexists. split; [eexists; apply plain_new_inv|]. split; [repeat constructor|]. split; [now left|].
    apply surjective_pairing.
  - unfold pt_start, pt_todo. cbn [snd].
    repeat (apply Forall_cons; [repeat (apply Forall_cons; [cbn; intuition (try reflexivity; try lia)|]); apply Forall_nil|]).
    apply Forall_nil.
Qed.
Definition pt_exec : res (list bool * world (paging_store plain_dev 512)) :=
  exec true _ (start (S:=paging_store plain_dev 512) pt_start) wb_hist 400.
Definition pt_world : world (paging_store plain_dev 512) :=
  match pt_exec with Ok (_, w) => w | _ => start (S:=paging_store plain_dev 512) pt_start end.
Definition pt_later : list pcall := [PAppend (B"xyz"); POpen; PAppend (B"xyz"); PSync; POpen].
Definition pt_end : pfile plain_dev := snd (prun plain_dev 512 (PSync :: pt_later) (fst (w_st pt_world))).
Lemma pt_oks : match pt_exec with Ok (oks, w) => oks = [true; true; true; true; true; true; true; true; true] /\
  length (w_ids w) = 4%nat /\ length (w_trees w) = 2%nat | _ => False end.
Proof. vm_compute. auto. Qed.
Lemma pt_sync : fst (prun plain_dev 512 (PSync :: pt_later) (fst (w_st pt_world))) = map Ok [ODone; OId 668; ODone; OId 668; ODone; ODone] /\
  plain_good (fst pt_end) /\ snd pt_end <> None.
Proof. split; [|split]; [vm_compute; reflexivity|vm_compute; reflexivity|vm_compute; discriminate]. Qed.
Lemma pt_loaded :
  match w_ids pt_world with
  | id :: _ =>
      (t <- t_load (paging_store plain_dev 512) (pt_end, []) (Some id) ;;
       l <- iter_bytes (st_read (paging_store plain_dev 512) (pt_end, [])) t 400 ;;
       Ok (map (fun e => (length (fst e), length (snd e))) l)) =
      Ok [(2, 1); (3, 1); (3, 1); (3, 200); (1, 0)]%nat
  | _ => False
  end.
Proof. vm_compute. reflexivity. Qed.

(** On the browser cache. *)
Definition bt_todo : paging_schedule := [[]; [PAppend (B"other")]; []; [PLoad 4]].
Definition bt_open : pfile web_dev := snd (prun web_dev 512 [POpen] (with_faults [] new_web_file, None)).
Definition bt_start : pfile web_dev * paging_schedule := (bt_open, bt_todo).
Lemma bt_inv any : paging_inv web_dev new_file any 512 bt_start.
Proof.
  split; [|split; [vm_compute; discriminate|]].
  - exists (with_faults [] new_web_file), [POpen]. eexists. split; [eexists; reflexivity|]. split; [repeat constructor|].
    split; [right; repeat constructor|]. apply surjective_pairing.
  - unfold bt_start, bt_todo. cbn [snd].
    repeat (apply Forall_cons; [repeat (apply Forall_cons; [cbn; intuition (try reflexivity; try lia)|]); apply Forall_nil|]).
    apply Forall_nil.
Qed.
Definition bt_exec : res (list bool * world (paging_store web_dev 512)) :=
  exec true _ (start (S:=paging_store web_dev 512) bt_start) wb_hist 400.
Definition bt_world : world (paging_store web_dev 512) :=
  match bt_exec with Ok (_, w) => w | _ => start (S:=paging_store web_dev 512) bt_start end.
Definition bt_end : pfile web_dev := snd (prun web_dev 512 [PSync; POpen] (fst (w_st bt_world))).
Lemma bt_oks : match bt_exec with Ok (oks, w) => oks = [true; true; true; true; true; true; true; true; true] /\
  length (w_ids w) = 4%nat /\ length (w_trees w) = 2%nat | _ => False end.
Proof. vm_compute. auto. Qed.
Lemma bt_sync : fst (prun web_dev 512 [PSync; POpen] (fst (w_st bt_world))) = [Ok ODone; Ok ODone] /\
  works (fst bt_end) /\ snd bt_end <> None.
Proof.
  split; [vm_compute; reflexivity|]. split; [|vm_compute; discriminate].
  split; [vm_compute; reflexivity|]. eexists. split; [vm_compute; reflexivity|]. vm_compute; reflexivity.
Qed.
Lemma bt_loaded :
  match w_ids bt_world with
  | id :: _ =>
      (t <- t_load (paging_store web_dev 512) (bt_end, []) (Some id) ;;
       l <- iter_bytes (st_read (paging_store web_dev 512) (bt_end, [])) t 400 ;;
       Ok (map (fun e => (length (fst e), length (snd e))) l)) =
      Ok [(2, 1); (3, 1); (3, 1); (3, 200); (1, 0)]%nat
  | _ => False
  end.
Proof. vm_compute. reflexivity. Qed.
