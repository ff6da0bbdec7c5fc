(** Printing the nodes of a tree ([RadixTree::dump], [RadixTree::try_dump]). *)
From Verif Require Import Base Header Node.
From Verif Require Chunk.
From Coq Require Import String.
Local Open Scope list_scope.

(** A literal of the source as bytes. *)
Definition lit (s : string) : bytes := list_byte_of_string s.

(** [hex::encode] (a dependency): two lower-case digits for each byte; [Hex] with
    all bytes, src/util.rs:16-22, 29-42, 44-57. *)
Definition hex_encode (x : bytes) : bytes := flat_map (fun b => Chunk.hex_digits 2 (Byte.to_N b)) x.
Definition hex_all (x : bytes) : bytes := lit "[" ++ hex_encode x ++ lit "]".

(** [Debug] of [OwnedBlobRef], src/node/mod.rs:325-335, and of [BorrowedBlobRef],
    390-405, which print alike. *)
Definition blob_text (o : option blob) : bytes :=
  match o with
  | None => lit "None"
  | Some (Id x) => lit "Id" ++ hex_all x
  | Some (Data x) => lit "Data" ++ hex_all x
  end.

Section Dump.
Context (rd : reader).

(** The loop over the children, src/node/mod.rs:754-756, 1232-1234; [rec] prints one
    child.  The result: the lines printed, and whether all went well. *)
Fixpoint dump_loop (rec : noderef -> res (list bytes * bool)) (fuel : nat) (it : iter)
  : res (list bytes * bool) :=
  match fuel with
  | 0 => Fuel
  | S fuel =>
      match it_next it with
      | None => Ok ([], true)
      | Some (r, it') =>
          x <- rec r ;;
          if snd x
          then y <- dump_loop rec fuel it' ;; Ok (fst x ++ fst y, snd y)
          else Ok (fst x, false)
      end
  end.

(** The lines printed before the children are loaded, src/node/mod.rs:737-750, 1225-1228.
    Simplification: the reference counts (" rc=2") that owned nodes print are left out;
    they depend on which other trees share the nodes. *)
Definition dump_head (indent : nat) (r : noderef) : list bytes :=
  let spacer := repeat x20 indent in
  [spacer ++ lit "TreeNode";
   spacer ++ lit "  prefix=" ++ blob_text (blob_opt (r_prefix r));
   spacer ++ lit "  value=" ++ blob_text (r_value_opt r)].

(** The line printed after the children are loaded: of an owned node only if there are
    children, src/node/mod.rs:752-753; of a borrowed one always, 1230. *)
Definition dump_mid (indent : nat) (r : noderef) (o : option iter) : list bytes :=
  let spacer := repeat x20 indent in
  match r, o with
  | ROwned _, Some _ => [spacer ++ lit "  children "]
  | ROwned _, None => []
  | RBorrowed _, _ => [spacer]
  end.

(** [TreeNode::dump], src/node/mod.rs:733-759; [BorrowedTreeNode::dump], 1221-1238;
    [TreeNodeRef::dump], 1388-1393. *)
Fixpoint r_dump (fuel indent : nat) (r : noderef) : res (list bytes * bool) :=
  match fuel with
  | 0 => Fuel
  | S fuel =>
      match r_load_children rd r with
      | Err => Ok (dump_head indent r, false)
      | Panic => Panic
      | Fuel => Fuel
      | Ok None => Ok (dump_head indent r ++ dump_mid indent r None, true)
      | Ok (Some it) =>
          x <- dump_loop (r_dump fuel (indent + 4)) fuel it ;;
          Ok (dump_head indent r ++ dump_mid indent r (Some it) ++ fst x, snd x)
      end
  end.

(** [RadixTree::try_dump], src/node/mod.rs:3481-3483; [RadixTree::dump] of trees in
    memory, 3278-3280, is the same and cannot fail. *)
Definition t_dump (t : node) (fuel : nat) : res (list bytes * bool) := r_dump fuel 0 (ROwned t).
End Dump.
