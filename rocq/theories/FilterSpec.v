(** * Specification of filter files, independent of the model's functions. *)
From Verif Require Export BytesModel FilterModel.
Local Open Scope Z_scope.

Definition fits_int64 (v : Z) : Prop := - 2 ^ 63 <= v < 2 ^ 63.

(** One snapshot, one id and one particle list per halo; counts and values within their Go types. *)
Record good_data (d : FilterData) : Prop := {
  gd_ids : length (f_ids d) = length (f_snaps d);
  gd_parts : length (f_particles d) = length (f_snaps d);
  gd_count : Z.of_nat (length (f_snaps d)) < 2 ^ 31;
  gd_snaps64 : Forall fits_int64 (f_snaps d);
  gd_ids64 : Forall fits_int64 (f_ids d);
  gd_parts64 : Forall (fun p => Z.of_nat (length p) < 2 ^ 63 /\ Forall fits_int64 p) (f_particles d) }.

(** The flags the user may give, and the byte order each asks for. *)
Definition flag_means (sys : order) (flag : bytes) (o : order) : Prop :=
  (flag = lit "LittleEndian" /\ o = LE) \/ (flag = lit "BigEndian" /\ o = BE) \/
  (flag = lit "SystemOrder" /\ o = sys).

(** The n bytes of the file at offset a. *)
Definition bytes_at (f : list Z) (a n : nat) : list Z := firstn n (skipn a f).

(** Where the particles of halo i are in a file: after two int32s, one 32-byte record per halo and
    the particles of the halos before it. *)
Definition particle_offset (d : FilterData) (i : nat) : nat :=
  (8 + 32 * length (f_snaps d) + 8 * length (concat (firstn i (f_particles d))))%nat.

(** The int64 stored in field number [fld] (0 ID, 1 Snap, 2 StartByte, 3 Len) of header record i. *)
Definition header_field (o : order) (f : list Z) (i fld : nat) : Z :=
  get_int o (bytes_at f (8 + 32 * i + 8 * fld) 8).
