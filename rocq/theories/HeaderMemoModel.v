(** * Header memoisation: cmd/memo/memoize.go:242-302 (no proofs in this file).

    A float is its bit pattern. The memo directory is a map from snapshot numbers to the contents of
    "hd_snap<snap>.dat" (memoize.go:24,266); [None] is a file that does not exist. The directory itself is
    assumed to exist (line 263) and to be accessible. What reading the headers of the snapshot's own files
    gives, readUnmemoizedHeaders (lines 242-256), is a parameter [src]; [nb] is e.Blocks().          *)
From Verif Require Export BytesModel.
Local Open Scope Z_scope.

(** io/io.go:71-83 Header, flattened: Z, OmegaM, OmegaL, H100, N, TotalWidth as 64-bit patterns, Origin and
    Width as 32-bit patterns. *)
Record header := { hd64 : list Z; hd32 : list Z }.

(** Go's zero Header. *)
Definition zero_header : header := {| hd64 := repeat 0 6; hd32 := repeat 0 6 |}.

(** encoding/binary layout of a Header: 6 eight-byte fields, then 6 four-byte fields. *)
Definition put_header (h : header) : list Z :=
  flat_map (put LE 8) (hd64 h) ++ flat_map (put LE 4) (hd32 h).

Definition header_of (c : list Z) : header :=
  {| hd64 := map (get LE) (chunks 8 6 (firstn 48 c)); hd32 := map (get LE) (chunks 4 6 (skipn 48 c)) |}.

(** memoize.go:281: the bytes binary.Write hands to the file. *)
Definition memo_bytes (hds : list header) : list Z := flat_map put_header hds.

(** memoize.go:293-294: binary.Read into make([]io.Header, nb), its error ignored. *)
Definition read_memo (nb : nat) (file : list Z) : list header :=
  match read_full (72 * nb) file with
  | (Some bs, _) => map header_of (chunks 72 nb bs)
  | (None, _) => repeat zero_header nb
  end.

Definition memo_dir := Z -> option (list Z).
Definition set_file (d : memo_dir) (snap : Z) (c : list Z) : memo_dir :=
  fun s => if s =? snap then Some c else d s.

Section Memo.
Variable src : Z -> res (list header).
Variable nb : nat.

(** memoize.go:260-302 ReadHeaders (the file names, lines 295-298, are C25's). [disk] is the number of bytes of
    the new memo file that reach the disk: binary.Write's error is ignored (line 281). *)
Definition read_headers (d : memo_dir) (snap : Z) (disk : nat) : res (list header) * memo_dir :=
  match d snap with
  | None =>
      match src snap with
      | Ok hds => (Ok hds, set_file d snap (firstn disk (memo_bytes hds)))
      | Err => (Err, d)
      | Panic => (Panic, d)
      end
  | Some file => (Ok (read_memo nb file), d)
  end.

(** A history of the memo directory, across processes. *)
Inductive event :=
| Call (snap : Z)                        (* a call that ends normally *)
| CrashBefore (snap : Z)                 (* the process dies before line 275 *)
| CrashDuring (snap : Z) (disk : nat).   (* the process dies in or after lines 275-281; [disk] bytes were written *)

Fixpoint run (d : memo_dir) (es : list event) : list (Z * res (list header)) :=
  match es with
  | [] => []
  | Call snap :: es' =>
      let '(r, d') := read_headers d snap (72 * nb) in
      (snap, r) :: run d' es'
  | CrashBefore _ :: es' => run d es'
  | CrashDuring snap disk :: es' => run (snd (read_headers d snap disk)) es'
  end.
End Memo.
