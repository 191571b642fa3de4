(** * tree mode: from the input text to the output lines (no proofs in this file).

    Models cmd/tree.go:62-154. The reading of tree files is TreeModel.v's contract; environment.SnapOffset is [offset]. *)
From Verif Require Import GoBase CatalogModel TreeModel.
From Coq Require Import ZArith List.
Import List ListNotations.

(** tree.go:94-104: ids and snaps with sentinels between histories. *)
Fixpoint join_histories (sets : list (list (Z * Z))) : list (Z * Z) :=
  match sets with
  | [] => []
  | [s] => s
  | s :: rest => s ++ (-1, -1)%Z :: join_histories rest
  end.

(** tree.go:109-125: the copies of a line that are kept. *)
Definition keep_line (snapMin snapMax : Z) (select : list Z) (line : bytes) (snap : Z) : list bytes :=
  if (snapMin <=? snap)%Z && (snap <=? snapMax)%Z then
    match select with
    | [] => [line]
    | _ => flat_map (fun s => if (s =? snap)%Z then [line] else []) select
    end
  else [].

(** tree.go:62-136 Run. The outer None is a panic or a chain of pointers that does not end. Lines and snaps have equal lengths, so lines[i] with snaps[i] is [combine]. *)
Definition tree_run {F} (parseFloat : bytes -> option F) (fmtFloat : F -> bytes) (fuel : nat) (files : list HTree) (offset snapMin snapMax : Z) (select : list Z) (stdin : bytes) : option (res (list bytes)) :=
  match Parse F parseFloat stdin [0; 1]%Z [] with
  | Panic => None
  | Err => Some Err
  | Ok (inputIDs :: _, _) =>
      match halo_histories fuel files inputIDs offset with
      | None => None
      | Some (inl _) => Some Err
      | Some (inr sets) =>
          let rows := join_histories sets in
          match FormatCols F fmtFloat [map fst rows; map snd rows] [] [0; 1]%Z, CommentString [lit "ID"; lit "Snapshot"] [] [0; 1]%Z [1; 1]%Z with
          | Some lines, Some cString =>
              Some (Ok (cString :: flat_map (fun p => keep_line snapMin snapMax select (fst p) (snd p)) (combine lines (map snd rows))))
          | _, _ => None
          end
      end
  | Ok ([], _) => None
  end.

(** tree.go:138-155: the names kept, in the order of the directory listing (path.Join puts the directory before them). *)
Definition tree_file_name (name : bytes) : bool :=
  let n := List.length name in
  (4 <? n)%nat && beq (firstn 5 name) (lit "tree_") && beq (skipn (n - 4) name) (lit ".dat").
Definition tree_files (names : list bytes) : list bytes := filter tree_file_name names.
