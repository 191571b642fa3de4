(** * Merger trees (no proofs in this file).

    Models los/tree/tree.go on top of a contract for the library consistent_trees, which is not part of the repository: a tree file
    holds lists of halos, list 0 being the latest; LookupHaloInList finds a halo of a list by its ID; Desc and Prog follow pointers to the
    descendant and the main progenitor; LookupIndex(h.Scale()) is the index of the list the halo belongs to. ReadTree and DeleteTree
    load and drop the one global tree, so a file is modelled by its tree. Go ints are Z. *)
From Verif Require Export GoBase.
From Coq Require Import ZArith List Bool.
Import List ListNotations.
Local Open Scope Z_scope.

(** A halo: its ID, the index LookupIndex(Scale()) and the places (list, position) of its descendant and main progenitor. *)
Record THalo := mkTH { th_id : Z; th_index : Z; th_desc : option (nat * nat); th_prog : option (nat * nat) }.
Definition HTree := list (list THalo).

(** The pointers Desc() and Prog(). *)
Definition place (t : HTree) (p : nat * nat) : option THalo :=
  match nth_error t (fst p) with Some l => nth_error l (snd p) | None => None end.
Definition follow (t : HTree) (o : option (nat * nat)) : option THalo := match o with Some p => place t p | None => None end.
Definition desc (t : HTree) (h : THalo) := follow t (th_desc h).
Definition prog (t : HTree) (h : THalo) := follow t (th_prog h).

(** LookupHaloInList. *)
Definition lookup_in (l : list THalo) (id : Z) : option THalo := find (fun h => th_id h =? id) l.

(** tree.go:58-68 findHalo: the halo and its snapshot. *)
Fixpoint find_halo_from (n : Z) (i : Z) (ls : list (list THalo)) (id : Z) : option (THalo * Z) :=
  match ls with
  | [] => None
  | l :: ls' => match lookup_in l id with Some h => Some (h, n - i) | None => find_halo_from n (i + 1) ls' id end
  end.
Definition find_halo (t : HTree) (id : Z) : option (THalo * Z) := find_halo_from (Z.of_nat (List.length t)) 0 t id.

(** tree.go:83-96 and 98-111: the loops of descTree and progTree; None: the loop has not ended within the given number of rounds. *)
Fixpoint chase (t : HTree) (step : THalo -> option THalo) (fuel : nat) (h : THalo) : option (list (Z * Z)) :=
  match step h with
  | None => Some []
  | Some h' =>
    match fuel with
    | O => None
    | S f => match chase t step f h' with
             | None => None
             | Some l => Some ((th_id h', Z.of_nat (List.length t) - th_index h') :: l)
             end
    end
  end.

(** tree.go:70-81 findHistory, with reverse and combine (113-127); the outer option is the end of the loops, the inner one ok. *)
Definition find_history (fuel : nat) (t : HTree) (id : Z) : option (option (list (Z * Z))) :=
  match find_halo t id with
  | None => Some None
  | Some (h, snap) =>
    match chase t (desc t) fuel h, chase t (prog t) fuel h with
    | Some ds, Some ps => Some (Some (rev ps ++ [(id, snap)] ++ ds))
    | _, _ => None
    end
  end.

(** tree.go:28-35: one file; the slots ids[i], snaps[i] that are nil are None. *)
Fixpoint fill_slots (fuel : nat) (t : HTree) (roots : list Z) (slots : list (option (list (Z * Z)))) : option (list (option (list (Z * Z))) * nat) :=
  match roots, slots with
  | id :: roots', s :: slots' =>
    match s with
    | Some _ => match fill_slots fuel t roots' slots' with Some (r, n) => Some (s :: r, n) | None => None end
    | None =>
      match find_history fuel t id with
      | None => None
      | Some o =>
        match fill_slots fuel t roots' slots' with
        | Some (r, n) => Some (o :: r, match o with Some _ => S n | None => n end)
        | None => None
        end
      end
    end
  | _, _ => Some (slots, O)
  end.

(** tree.go:25-40: all files, with the early exit. *)
Fixpoint search_files (fuel : nat) (files : list HTree) (roots : list Z) (slots : list (option (list (Z * Z)))) (found : nat)
    : option (list (option (list (Z * Z)))) :=
  match files with
  | [] => Some slots
  | t :: files' =>
    match fill_slots fuel t roots slots with
    | None => None
    | Some (slots', n) =>
      if (found + n =? List.length roots)%nat then Some slots' else search_files fuel files' roots slots' (found + n)
    end
  end.

(** tree.go:42-54: the first root without a history is an error; then the offset is added. *)
Fixpoint finish (offset : Z) (roots : list Z) (slots : list (option (list (Z * Z)))) : Z + list (list (Z * Z)) :=
  match roots, slots with
  | id :: roots', s :: slots' =>
    match s with
    | None => inl id
    | Some l => match finish offset roots' slots' with inl e => inl e | inr r => inr (map (fun p => (fst p, snd p + offset)) l :: r) end
    end
  | _, _ => inr []
  end.

(** tree.go:15-56 HaloHistories: None if a chain never ends, inl id for the error about halo id, else the (id, snapshot) pairs of every root. *)
Definition halo_histories (fuel : nat) (files : list HTree) (roots : list Z) (offset : Z) : option (Z + list (list (Z * Z))) :=
  match roots with
  | [] => Some (inr [])
  | _ => match search_files fuel files roots (map (fun _ => None) roots) O with None => None | Some slots => Some (finish offset roots slots) end
  end.
