(** Examples of blobs and trees in a file of the browser file system. *)
From Verif Require Export WebFsExamples WebTreeExamples.
From Verif Require Import Base BaseLemmas Header Node Combine Iter Api Spec Client Top Store StoreSpec World U64 File Chunk WebFile
  WebSpec WebFs WebFsSpec WebFsSim WebFsProofs WebFsBlob.
Local Open Scope N_scope.

(** Two blobs in one file, other files beside it, a fault, a restart, an open directory
    that is deleted and used after that. *)
Definition bl_hist1 : list event :=
  [Call (KOpenDir (B"d")) []; Call (KOpenFile (B"d") (B"blobs")) []; Call (KOpenFile (B"d") (B"log")) [];
   Call (KAppend (B"d") (B"blobs") (B"first")) []; Call (KWrite (B"d") (B"log") 0 (B"text")) [];
   Call (KAppend (B"d") (B"blobs") (B"lost")) [true]].
Definition bl_hist2 : list event :=
  [Call (KAppend (B"d") (B"blobs") (B"third")) []; Call (KTruncate (B"d") (B"log") 1) []; Restart;
   Call (KOpenDir (B"e")) []; Call (KOpenFile (B"e") (B"x")) []; Call (KDeleteDir (B"e")) [];
   Call (KAppend (B"e") (B"x") (B"stale")) []; Call (KOpenDir (B"d")) [true]; Call (KOpenDir (B"d")) [];
   Call (KDeleteFile (B"d") (B"log")) []; Call (KOpenFile (B"d") (B"blobs")) []].
Definition bl_hist : list event := bl_hist1 ++ Call (KAppend (B"d") (B"blobs") (B"second")) [] :: bl_hist2.
Definition bl_fs : fs := snd (fs_run bl_hist new_fs).
Lemma bl_ok : Forall event_ok bl_hist.
Proof. apply event_okb_ok. vm_compute. reflexivity. Qed.

Definition rewritesb (d f : bytes) (e : event) : bool :=
  match e with
  | Call (KDeleteDir d') _ => bytes_eqb d' d
  | Call (KDeleteFile d' f') _ | Call (KWrite d' f' _ _) _ | Call (KTruncate d' f' _) _ => bytes_eqb d' d && bytes_eqb f' f
  | _ => false
  end.
Lemma keptb_kept d f l : forallb (fun e => negb (rewritesb d f e)) l = true -> Forall (fun e => ~ rewrites d f e) l.
Proof.
  rewrite forallb_forall, Forall_forall. intros H e He. specialize (H e He).
  destruct e as [[]|]; cbn in *; auto.
  - intros ->. rewrite beq_refl in H. discriminate.
  - intros [-> ->]. rewrite !beq_refl in H. discriminate.
  - intros [-> ->]. rewrite !beq_refl in H. discriminate.
  - intros [-> ->]. rewrite !beq_refl in H. discriminate.
Qed.
Lemma bl_kept : Forall (fun e => ~ rewrites (B"d") (B"blobs") e) bl_hist.
Proof. apply keptb_kept. vm_compute. reflexivity. Qed.
Lemma bl_result : nth (length bl_hist1) (fst (fs_run bl_hist new_fs)) Err = Ok (RNum 9).
Proof. vm_compute. reflexivity. Qed.
Lemma bl_flush : fst (fs_call (KFlush (B"d") (B"blobs")) [] bl_fs) = Ok RUnit.
Proof. vm_compute. reflexivity. Qed.
Lemma bl_load : fst (fs_call (KLoad (B"d") (B"blobs") 9) [] bl_fs) = Ok (RBytes (B"second")).
Proof. vm_compute. reflexivity. Qed.

(** A tree on the file [blobs]; around its writes are calls on other files, faults and a
    restart (after which the next write fails, as the file is not open). *)
Definition ft_open : list event := [Call (KOpenDir (B"d")) []; Call (KOpenFile (B"d") (B"blobs")) []].
Definition ft_log : list event :=
  [Call (KOpenFile (B"d") (B"log")) []; Call (KWrite (B"d") (B"log") 3 (B"text")) []; Call (KTruncate (B"d") (B"log") 1) []].
Definition ft_todo : list (list event * list bool) :=
  [(ft_open, []); (ft_log, [false]); (ft_log, [true]); (Restart :: ft_open, []); ([Restart], []);
   (ft_open ++ ft_log ++ [Call (KOpenDir (B"e")) []; Call (KDeleteDir (B"e")) []], [])].
Definition ft_start : st (fs_store (B"d") (B"blobs")) := (new_fs, ft_todo).
Definition besideb (d f : bytes) (e : event) : bool :=
  event_okb e && negb (rewritesb d f e).
Lemma besideb_ok d f l : forallb (besideb d f) l = true -> Forall (beside d f) l.
Proof.
  intros H. assert (Forall event_ok l /\ Forall (fun e => ~ rewrites d f e) l) as [A1 A2].
  { split; [apply event_okb_ok|apply keptb_kept]; rewrite forallb_forall in *; intros e He; specialize (H e He);
      unfold besideb in H; now apply andb_prop in H. }
  rewrite Forall_forall in *. intros e He. split; auto.
Qed.
Lemma ft_inv : fs_inv (B"d") (B"blobs") ft_start.
Proof.
  split; [apply quest_free_ok; vm_compute; reflexivity|]. split.
  - exists [], []. split; [constructor|reflexivity].
  - cbn [snd ft_start]. unfold ft_todo. repeat (apply Forall_cons; [apply besideb_ok; vm_compute; reflexivity|]). constructor.
Qed.
Definition ft_exec : res (list bool * World.world (fs_store (B"d") (B"blobs"))) :=
  exec true _ (start (S:=fs_store (B"d") (B"blobs")) ft_start) wb_hist 400.
Definition ft_world : World.world (fs_store (B"d") (B"blobs")) :=
  match ft_exec with Ok (_, w) => w | _ => start (S:=fs_store (B"d") (B"blobs")) ft_start end.
Definition ft_later : list event :=
  [Call KShutdown []; Restart; Call (KOpenDir (B"d")) []; Call (KDeleteFile (B"d") (B"log")) []; Call (KOpenDir (B"e")) [];
   Call (KDeleteDir (B"e")) []; Call (KOpenFile (B"e") (B"x")) []].
Definition ft_fs : fs := snd (fs_run ft_later (fst (w_st ft_world))).
Lemma ft_later_ok : Forall (beside (B"d") (B"blobs")) ft_later.
Proof. apply besideb_ok. vm_compute. reflexivity. Qed.
Lemma ft_oks : match ft_exec with Ok (oks, w) => oks = [true; true; false; true; false; true; true; true; true] /\
  length (w_ids w) = 2%nat /\ length (w_trees w) = 2%nat | _ => False end.
Proof. vm_compute. auto. Qed.
Lemma ft_loaded :
  match w_ids ft_world with
  | id :: _ =>
      (t <- t_load (fs_store (B"d") (B"blobs")) (ft_fs, []) (Some id) ;;
       l <- iter_bytes (st_read (fs_store (B"d") (B"blobs")) (ft_fs, [])) t 400 ;;
       Ok (map (fun e => (length (fst e), length (snd e))) l)) =
      Ok [(2, 1); (3, 1); (3, 1); (3, 200); (1, 0); (151, 1)]%nat
  | _ => False
  end.
Proof. vm_compute. reflexivity. Qed.
