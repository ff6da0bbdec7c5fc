(** Examples of calls of many threads and of SQLite database files. *)
From Verif Require Export WebFsExamples.
From Verif Require Import Base BaseLemmas Header Node Store U64 File Chunk WebFile WebSpec WebFs WebFsSpec WebFsProofs
  WebSync WebSyncSpec WebSyncProofs WebVfs.
Local Open Scope N_scope.

(** ** Threads *)

(** One thread writes and one reads while the first call is still being executed; one
    shuts the file system down while another call waits. *)
Definition sync_trace : list label :=
  [Invoke (KOpenDir (B"d")); Invoke (KOpenFile (B"d") (B"a")); Begin; Finish []; Begin; Return 0 (Ok RUnit); Finish [];
   Invoke (KWrite (B"d") (B"a") 0 (B"xy")); Begin; Invoke (KRead (B"d") (B"a") 0 2); Finish []; Begin;
   Invoke KShutdown; Invoke (KLength (B"d") (B"a")); Finish []; Return 3 (Ok (RBytes (B"xy"))); Begin; Finish [];
   Return 2 (Ok RUnit); Return 5 Err].
Definition invoke_of (l : label) : bool := match l with Invoke _ => true | _ => false end.
(** A function that does the steps, to build examples. *)
Definition net_do (l : label) (n : net) : option net :=
  match l with
  | Invoke c => Some (Net (n_fs n) (n_queue n ++ [(n_next n, c)]) (n_busy n) (n_sent n) (S (n_next n)))
  | Begin => match n_queue n, n_busy n with
             | x :: q, None => if fs_up (n_fs n) then Some (Net (n_fs n) q (Some x) (n_sent n) (n_next n)) else None
             | _, _ => None
             end
  | Finish t => match n_busy n with
                | Some (j, c) =>
                    match fs_call c t (n_fs n) with
                    | (Panic, _) => None
                    | (r, s) => Some (Net s (n_queue n) None (if has_callback c then send j r (n_sent n) else n_sent n) (n_next n))
                    end
                | None => None
                end
  | Return j r => Some n
  end.
Lemma net_do_step l n n' : net_do l n = Some n' -> (forall j r, l = Return j r -> n_sent n j = Some r \/
    fs_up (n_fs n) = false /\ (j < n_next n)%nat /\ n_sent n j = None /\ r = Err) -> net_step n l n'.
Proof.
  destruct n as [s q b m k]. destruct l as [c| |t|j r]; cbn [net_do n_fs n_queue n_busy n_sent n_next]; intros E H.
  - injection E as <-. constructor.
  - destruct q as [|x q]; [discriminate|]. destruct b; [discriminate|]. destruct (fs_up s) eqn:Hu; [|discriminate].
    injection E as <-. now constructor.
  - destruct b as [[j c]|]; [|discriminate]. destruct (fs_call c t s) as [r s'] eqn:Ec.
    destruct r; try discriminate; injection E as <-; (eapply N_finish; [exact Ec|discriminate]).
  - injection E as <-. destruct (H j r eq_refl) as [A|(A & B & C & ->)]; [now apply N_return|now apply N_dropped].
Qed.
Fixpoint net_all (tr : list label) (n : net) : option net :=
  match tr with
  | [] => Some n
  | l :: tr => match net_do l n with Some n => net_all tr n | None => None end
  end.
(** Whether the returns in the trace are as they should be. *)
Definition sent_ok (l : label) (n : net) : Prop :=
  match l with
  | Return j r => n_sent n j = Some r \/ fs_up (n_fs n) = false /\ (j < n_next n)%nat /\ n_sent n j = None /\ r = Err
  | _ => True
  end.
Fixpoint returns_ok (tr : list label) (n : net) : Prop :=
  match tr with
  | [] => True
  | l :: tr => sent_ok l n /\ match net_do l n with Some n => returns_ok tr n | None => False end
  end.
Lemma returns_run tr : forall n0 tr0 n, net_run n0 tr0 n -> returns_ok tr n -> exists n', net_run n0 (tr0 ++ tr) n'.
Proof.
  induction tr as [|l tr IH]; intros n0 tr0 n HR H.
  { exists n. now rewrite app_nil_r. }
  destruct H as [H1 H2]. destruct (net_do l n) as [n1|] eqn:E; [|contradiction].
  assert (tr0 ++ l :: tr = (tr0 ++ [l]) ++ tr) as -> by (now rewrite <- app_assoc).
  apply (IH n0 (tr0 ++ [l]) n1); [|exact H2]. econstructor; [exact HR|]. apply net_do_step; [exact E|].
  intros j r ->. exact H1.
Qed.
Lemma sync_trace_runs : exists n, net_run (net_start new_fs) sync_trace n.
Proof.
  apply (returns_run sync_trace (net_start new_fs) [] (net_start new_fs)); [constructor|].
  unfold sync_trace. vm_compute. repeat split; auto; right; repeat split; auto.
Qed.
Lemma sync_trace_ok : forall ts, Forall event_ok (calls (invoked sync_trace) ts) /\ deletes_closed (calls (invoked sync_trace) ts).
Proof.
  assert (forall cs, forallb (fun c => event_okb (Call c [])) cs = true -> forall ts, forallb event_okb (calls cs ts) = true) as K.
  { induction cs as [|c cs IH]; intros H [|t ts]; try reflexivity. cbn [forallb] in H. apply andb_prop in H as [H1 H2].
    cbn [calls forallb]. rewrite IH by exact H2. rewrite Bool.andb_true_r. exact H1. }
  assert (forall cs, forallb (fun c => match c with KDeleteDir _ => false | _ => true end) cs = true ->
    forall ts os, closedb os (calls cs ts) = true) as K2.
  { induction cs as [|c cs IH]; intros H [|t ts] os; try reflexivity. cbn [forallb] in H. apply andb_prop in H as [H1 H2].
    cbn [calls closedb]. destruct c; try apply (IH H2). discriminate. }
  intros ts. split.
  - apply event_okb_ok, K. vm_compute. reflexivity.
  - apply closedb_closed, K2. reflexivity.
Qed.

(** ** A SQLite database file with two pages, the first of which is written again *)
Definition page (c : byte) : bytes := repeat c 512.
Definition db_hist : list event :=
  [Call (KOpenDir (B"d")) []; Call (db_open (B"d") (B"db")) []; Call (db_write (B"d") (B"db") 0 (page x01)) [];
   Call (db_write (B"d") (B"db") 512 (page x02)) []].
Definition db_hist2 : list event := db_hist ++ [Call (db_write (B"d") (B"db") 0 (page x03)) []].
Definition db_fs : fs := snd (fs_run db_hist new_fs).
Definition db_fs2 : fs := snd (fs_run db_hist2 new_fs).
Lemma db_results : fst (fs_run db_hist2 new_fs) = [Ok RUnit; Ok RUnit; Ok RUnit; Ok RUnit; Ok RUnit].
Proof. vm_compute. reflexivity. Qed.
Lemma db_before : fst (db_read (B"d") (B"db") 512 512 [] [] [] db_fs) = Ok (page x02).
Proof. vm_compute. reflexivity. Qed.
Lemma db_after : fst (db_read (B"d") (B"db") 512 512 [] [] [] db_fs2) = Ok [].
Proof. vm_compute. reflexivity. Qed.
Lemma db_size : fst (fs_call (db_file_size (B"d") (B"db")) [] db_fs2) = Ok (RNum 512).
Proof. vm_compute. reflexivity. Qed.
Lemma db_ok : Forall event_ok (db_hist ++ [Call (KLength (B"d") (B"db")) []]) /\
  deletes_closed (db_hist ++ [Call (KLength (B"d") (B"db")) []]).
Proof. split; [apply event_okb_ok|apply closedb_closed]; vm_compute; reflexivity. Qed.
Lemma write_len d f o b t r W W' : fs_effect (Call (KWrite d f o b) t) r W W' -> r = Ok RUnit ->
  f_len (contents W' d f) = N.max (f_len (contents W d f)) (o + N.of_nat (length b)).
Proof. intros H Hr. rewrite (write_ok _ _ _ _ _ _ _ _ H Hr). reflexivity. Qed.
Lemma db_world W : fs_effects db_hist2 (fst (fs_run db_hist2 new_fs)) new_world W ->
  f_len (contents W (B"d") (B"db")) = 1024.
Proof.
  rewrite db_results. intros H. unfold db_hist2, db_hist, db_write in H. cbn [app] in H. fs_inv.
  repeat match goal with H : fs_effect (Call (KWrite _ _ _ _) _) _ _ _ |- _ => apply write_len in H; [|reflexivity] end.
  repeat match goal with H : fs_effect (Call (KOpenDir _) _) _ _ _ |- _ => apply (unconcerned _ _ _ _ (B"d") (B"db")) in H; [|cbn; tauto] end.
  repeat match goal with H : fs_effect (Call (db_open _ _) _) _ _ _ |- _ => apply (unconcerned _ _ _ _ (B"d") (B"db")) in H; [|cbn; tauto] end.
  assert (forall c, N.of_nat (length (page c)) = 512) as HP by (intros c; unfold page; now rewrite repeat_length).
  rewrite !HP in *.
  match goal with H1 : contents ?W1 _ _ = contents new_world _ _, H2 : contents ?W2 _ _ = contents ?W1 _ _ |- _ =>
    rewrite H1 in H2; assert (f_len (contents W2 (B"d") (B"db")) = 0) as H0 by (rewrite H2; reflexivity) end.
  lia.
Qed.
