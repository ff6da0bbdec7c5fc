(** A history of a tree on a file in the browser cache, with faults. *)
From Verif Require Export MemExamples StoreExamples BrowserExamples.
From Verif Require Import Base BaseLemmas Header Node Combine Iter Api Spec Client Top Store StoreSpec World U64 File
  Chunk WebFile WebSpec WebStore.

Definition wb_hist : list cmd :=
  [CAttach ex_p; CInsert 0 (B"abx") (long 200 x01); CReattach 0; CInsert 0 (B"k" ++ long 150 x02) (B"v");
   CReattach 0; CReattach 0; CLoad 0; CMerge 1 (fun x y => x ++ y) ex_q; CReattach 1].
Definition wb_exec : res (list bool * world web_store) :=
  exec true web_store (start (S:=web_store) (app_file, web_todo)) wb_hist 400.
Definition wb_world : world web_store :=
  match wb_exec with Ok (_, w) => w | _ => start (S:=web_store) (app_file, web_todo) end.
Lemma wb_hist_ok : history_ok true wb_hist.
Proof. left. unfold wb_hist. repeat (apply Forall_cons; [cbn; try tauto; left; discriminate|]). apply Forall_nil. Qed.
Definition wb_later : list (call * list bool) := [(CAppend (B"more"), [true]); (COpen, []); (CAppend (B"more"), [])].
Definition wb_file : wfile := snd (WebSpec.run wb_later (fst (w_st wb_world))).
Lemma wb_oks : match wb_exec with Ok (oks, w) => oks = [true; true; false; true; true; true; true; true; true] /\
  length (w_ids w) = 3 /\ length (w_trees w) = 2 | _ => False end.
Proof. vm_compute. auto. Qed.
Lemma wb_loaded :
  match w_ids wb_world with
  | id :: _ =>
      (t <- t_load web_store (wb_file, []) (Some id) ;; l <- iter_bytes (st_read web_store (wb_file, [])) t 400 ;;
       Ok (map (fun e => (length (fst e), length (snd e))) l)) = Ok [(2, 1); (3, 1); (3, 1); (3, 200); (1, 0); (151, 1)]
  | _ => False
  end.
Proof. vm_compute. reflexivity. Qed.
