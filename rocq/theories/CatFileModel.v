(** * Reading a catalogue from a file or from the standard input: cmd/catalog/catalog.go:152-189 (no proofs in this file).

    What the operating system does with a stream: the chunks that successive reads deliver, and how the stream ends. *)
From Verif Require Import GoBase CatalogModel.
Import List ListNotations.
Local Open Scope list_scope.

Inductive ending := EndOfFile | ReadError.
Record stream := { st_chunks : list bytes; st_end : ending }.

(** io.ReadAtLeast(f, data, len(data)) into a zeroed slice of n bytes: reads until the slice is full or a read delivers nothing more. Every chunk fills at most
    the part of the slice that is left (the rest of it is delivered by the next read). The result is the slice; the error is not kept (catalog.go:162). *)
Fixpoint read_at_least (n : nat) (chunks : list bytes) : bytes :=
  match n with
  | O => []
  | _ => match chunks with
         | [] => repeat zero n
         | c :: rest => firstn n c ++ read_at_least (n - List.length c) rest
         end
  end.
(** ioutil.ReadAll: all the bytes, or an error. *)
Definition read_all (s : stream) : res bytes := match st_end s with EndOfFile => Ok (concat (st_chunks s)) | ReadError => Err end.

Section Catalog.
Variables (F : Type) (parseFloat : bytes -> option F).
(** catalog.go:152-173 ReadFile. [file] is None if it cannot be opened or Stat fails; else the size that Stat reports and the stream. *)
Definition ReadFile (file : option (nat * stream)) (icolIdxs fcolIdxs : list Z) : res (list (list Z) * list (list F)) :=
  match file with
  | None => Err
  | Some (size, s) => match Parse F parseFloat (read_at_least size (st_chunks s)) icolIdxs fcolIdxs with Ok r => Ok r | Err => Err | Panic => Panic end
  end.
(** catalog.go:175-189 ReadStdin. *)
Definition ReadStdin (s : stream) (icolIdxs fcolIdxs : list Z) : res (list (list Z) * list (list F)) :=
  match read_all s with
  | Ok data => match Parse F parseFloat data icolIdxs fcolIdxs with Ok r => Ok r | Err => Err | Panic => Panic end
  | Err => Err
  | Panic => Panic
  end.
End Catalog.
